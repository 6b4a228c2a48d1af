(** Properties C21, C22, C47 (partial dependence methods), C62, C65 and C66; examples and
    refutations for Props_Methods.v. *)
From Verif Require Import Py Num NumR Sorting Frame Rng PdCalc PdSpec PdFacts PdProofs PdTheorems PdErrors PdApi PdMethods MethodSpec
  PdMethodFacts PdMethodRun PdMethodReal PdMethodReal2 GreenwellFacts Props_Pd Props_Methods.
From Coq Require Import QArith Reals Lra.
Open Scope string_scope.
Open Scope nat_scope.
Open Scope list_scope.

Lemma Forall2_fun {A B} (P Q : A -> B -> Prop) l m m' : (forall a b b', P a b -> Q a b' -> b = b') -> Forall2 P l m -> Forall2 Q l m' -> m = m'.
Proof. intros H HP. revert m'. induction HP as [|a b l m Hab _ IH]; intros m' HQ; inversion HQ; subst; [reflexivity|]. f_equal; eauto. Qed.

Section Sharing.
  Context {C V G : Type} (O : cell_ops C) (N : num_ops V) (HO : cell_ok O) (HN : num_ord_ok N)
          (R : rng_ops G) (HR : rng_ok R) (srt : sorter) (Hs : sorter_ok srt).
  Notation fit := (fit O N R srt).
  Notation Hnan := (no_isnan_nan N HN).

  (** ** C21: results do not depend on the calculator (its history, its batch size, or whether
      there is one at all) *)
  Theorem C21_same_results k s1 a1 s1' s2 a2 s2' g Xs :
    wf_frame (a_X a1) -> wf_frame (a_X a2) -> all_features a1 = all_features a2 -> a_ova a1 = a_ova a2 ->
    fit k s1 a1 = (s1', Ok tt) -> m_X s1' = Some Xs -> explains O N a1 g Xs ->
    fit k s2 a2 = (s2', Ok tt) -> m_X s2' = Some Xs -> explains O N a2 g Xs ->
    m_ovo s1' = m_ovo s2' /\ m_fi s1' = m_fi s2'
    /\ (k <> Greenwell -> a_ova a1 = true -> m_ova s1' = m_ova s2').
  Proof.
    intros HX1 HX2 Hfs Hova H1 HXs1 He1 H2 HXs2 He2.
    assert (Himp : forall c1 c2 fi m P b c1' c2' fi' m' P' b', wf_frame Xs -> 
      reachable O N m Xs P b c1 -> rowwise P g -> pdp_importance O N srt Xs (all_features a1) c1 = (c2, Ok fi) ->
      reachable O N m' Xs P' b' c1' -> rowwise P' g -> pdp_importance O N srt Xs (all_features a1) c1' = (c2', Ok fi') -> fi = fi').
    { intros c1 c2 fi m P b c1' c2' fi' m' P' b' HwX Hr Hg E Hr' Hg' E'.
      destruct (pdp_importance_spec O N HO Hnan srt Xs _ _ _ _ m P b g HwX Hg Hr E) as (l & -> & _ & _ & _ & _ & Hl).
      destruct (pdp_importance_spec O N HO Hnan srt Xs _ _ _ _ m' P' b' g HwX Hg' Hr' E') as (l' & -> & _ & _ & _ & _ & Hl').
      f_equal. refine (Forall2_fun _ _ _ _ _ _ Hl Hl'). intros f [] [] [E1 E2] [E3 E4]. cbn [fst snd] in *. congruence. }
    destruct k as [norm|].
    - destruct (friedman_fit O N HO Hnan R HR srt norm s1 a1 s1' g Xs HX1 H1 HXs1 He1) as (HwX & _ & _ & Eo1 & Ea1 & c1 & c2 & fi & m & P & b & Hr & Hg & E & Ef1).
      destruct (friedman_fit O N HO Hnan R HR srt norm s2 a2 s2' g Xs HX2 H2 HXs2 He2) as (_ & _ & _ & Eo2 & Ea2 & c1' & c2' & fi' & m' & P' & b' & Hr' & Hg' & E' & Ef2).
      rewrite <- Hfs in Eo2, Ea2, E'. split; [rewrite Eo1, Eo2; reflexivity|]. split.
      + rewrite Ef1, Ef2. f_equal. eapply (Himp c1 c2 fi m P b c1' c2' fi' m' P' b'); eassumption.
      + intros _ Ho. rewrite <- Hova, Ho in Ea2. rewrite Ho in Ea1. rewrite Ea1, Ea2. reflexivity.
    - destruct (greenwell_fit O N HO HN R HR srt s1 a1 s1' g Xs HX1 H1 HXs1 He1) as (HwX & _ & (l & Hl & Eo1) & c1 & c2 & fi & m & P & b & Hr & Hg & E & Ef1).
      destruct (greenwell_fit O N HO HN R HR srt s2 a2 s2' g Xs HX2 H2 HXs2 He2) as (_ & _ & (l' & Hl' & Eo2) & c1' & c2' & fi' & m' & P' & b' & Hr' & Hg' & E' & Ef2).
      rewrite <- Hfs in Hl', E'. split; [|split; [|congruence]].
      + rewrite Eo1, Eo2. do 2 f_equal. refine (Forall2_fun _ _ _ _ _ _ Hl Hl'). intros p [] [] [E1 E2] [E3 E4]. cbn [fst snd] in *. congruence.
      + rewrite Ef1, Ef2. f_equal. eapply (Himp c1 c2 fi m P b c1' c2' fi' m' P' b'); eassumption.
  Qed.

  (** with complete data and a model that always answers, even the outcome (success or the
      exception) is the same *)
  Theorem C21_same_outcome k s a1 a2 s1' r1 s2' r2 g Xs rng' :
    wf_frame (a_X a1) -> a_X a1 = a_X a2 -> a_n a1 = a_n a2 -> a_features a1 = a_features a2 -> a_ova a1 = a_ova a2 ->
    sample_if_not_none R (m_rng s) (a_X a1) (a_n a1) = Ok (Xs, rng') ->
    explains_total O N a1 g Xs -> explains_total O N a2 g Xs -> complete O Xs ->
    NoDup (all_features a1) -> (forall f, In f (all_features a1) -> In f (f_cols Xs)) ->
    fit k s a1 = (s1', r1) -> fit k s a2 = (s2', r2) ->
    r1 = r2 /\ m_ovo s1' = m_ovo s2' /\ m_fi s1' = m_fi s2' /\ m_ova s1' = m_ova s2'.
  Proof.
    intros HX EX En Ef Eo Es He1 He2 Hc Hnd Hin H1 H2.
    assert (Hfs : all_features a2 = all_features a1) by (unfold all_features; rewrite Ef, EX; reflexivity).
    pose proof (fit_run O N HO Hnan R HR srt k s a1 s1' r1 g Xs rng' HX Es He1 Hc Hnd Hin H1) as F1.
    rewrite EX in HX. rewrite EX, En in Es. rewrite <- Hfs in Hnd, Hin.
    pose proof (fit_run O N HO Hnan R HR srt k s a2 s2' r2 g Xs rng' HX Es He2 Hc Hnd Hin H2) as F2.
    rewrite Hfs, <- Eo, <- F1 in F2.
    pose proof (f_equal (fun x => fst (fst (fst x))) F2) as A1. pose proof (f_equal (fun x => snd (fst (fst x))) F2) as A2.
    pose proof (f_equal (fun x => snd (fst x)) F2) as A3. pose proof (f_equal snd F2) as A4. cbn [fst snd] in *. auto.
  Qed.

  (** a calculator for another model or other data is refused, and neither it nor the
      results of the method change *)
  Theorem C21_rejected k s a s' r c Xs rng' :
    sample_if_not_none R (m_rng s) (a_X a) (a_n a) = Ok (Xs, rng') ->
    (forall x y, c_isnan O x = true -> c_isnan O y = true -> x = y) ->
    a_calc a = Some c -> (c_model c <> md_id (a_model a) \/ c_X c <> Xs) ->
    fit k s a = (s', r) ->
    r = Err ValueError /\ m_ovo s' = m_ovo s /\ m_fi s' = m_fi s /\ m_ova s' = m_ova s /\ m_calc s' = m_calc s.
  Proof.
    intros Es Hnu Hc Hbad H. unfold fit in H. destruct (fit_base O N R srt k s a) as [s1 r1] eqn:Eb.
    unfold fit_base in Eb. rewrite Es, Hc in Eb. unfold pick_calc in Eb.
    assert (Hrej : forall st1, (if negb (c_model c =? md_id (a_model a)) then Err ValueError else if negb (frame_equals O (c_X c) Xs) then Err ValueError else Ok c) = st1 -> st1 = Err ValueError).
    { intros st1 <-. destruct (Nat.eqb_spec (c_model c) (md_id (a_model a))) as [E|]; cbn [negb]; [|reflexivity].
      destruct (frame_equals O (c_X c) Xs) eqn:Ef; cbn [negb]; [|reflexivity].
      apply (frame_equals_eq O HO) in Ef; [|exact Hnu]. tauto. }
    rewrite (Hrej _ eq_refl) in Eb. injection Eb as <- <-. injection H as <- <-. cbn. auto.
  Qed.

  (** ** C22: without a calculator the reported values are those of the given function *)
  Theorem C22_given_function_partial norm s a s' p g Xs (H0 : n_isnan N (n_ofZ N 0) = false) :
    wf_frame (a_X a) -> a_predict a = Some p -> rowwise p g -> a_calc a = None ->
    fit (Friedman norm) s a = (s', Ok tt) -> m_X s' = Some Xs ->
    exists t, m_ovo s' = Some t
      /\ forall f1 f2 v, In (f1, f2, v) t ->
           exists i j, nth_error (f_cols Xs) i = Some f1 /\ nth_error (f_cols Xs) j = Some f2 /\ i <> j
                       /\ v = or_zero N (H_pair N g (f_rows Xs) norm i j).
  Proof.
    intros HX Hp Hg Hc H HXs.
    assert (He : explains O N a g Xs) by (split; [unfold pf_of; rewrite Hp; exact Hg|rewrite Hc; exact I]).
    destruct (C12_friedman_pairs O N HO HN H0 R HR srt Hs norm s a s' g Xs HX H HXs He) as (t & Ht & _ & Hv & _). eauto.
  Qed.

  (** ** C65 *)
  Definition documented (md : model C V) (pf : option (nat -> list (list C) -> result (list V))) P : Prop :=
    pf = Some P
    \/ (pf = None /\ md_proba1 md = Some P)
    \/ (pf = None /\ md_proba1 md = None /\ md_predict md = Some P).

  Theorem C65_documented_function md pf :
    (forall P, get_predict_function md pf = Some P <-> documented md pf P)
    /\ (forall P Q, documented md pf P -> documented md pf Q -> P = Q)
    /\ (get_predict_function md pf = None <-> pf = None /\ md_proba1 md = None /\ md_predict md = None).
  Proof.
    unfold get_predict_function, documented. split; [|split].
    - intros P. destruct pf, (md_proba1 md); intuition congruence.
    - intros P Q. intuition congruence.
    - destruct pf, (md_proba1 md); intuition congruence.
  Qed.

  (** the calculator a method builds evaluates that function, and so does the table *)
  Theorem C65_fit_explains_it norm s a s' P g Xs (H0 : n_isnan N (n_ofZ N 0) = false) :
    wf_frame (a_X a) -> documented (a_model a) (a_predict a) P -> rowwise P g -> a_calc a = None ->
    fit (Friedman norm) s a = (s', Ok tt) -> m_X s' = Some Xs ->
    (exists t, m_ovo s' = Some t
      /\ forall f1 f2 v, In (f1, f2, v) t ->
           exists i j, nth_error (f_cols Xs) i = Some f1 /\ nth_error (f_cols Xs) j = Some f2 /\ i <> j
                       /\ v = or_zero N (H_pair N g (f_rows Xs) norm i j))
    /\ exists c, m_calc s' = Some c /\ c_predict c = P /\ c_model c = md_id (a_model a) /\ c_X c = Xs.
  Proof.
    intros HX Hd Hg Hc H HXs.
    assert (HP : pf_of a = Some P) by (apply (proj1 (C65_documented_function (a_model a) (a_predict a))), Hd).
    assert (He : explains O N a g Xs) by (split; [rewrite HP; exact Hg|rewrite Hc; exact I]).
    split.
    - destruct (C12_friedman_pairs O N HO HN H0 R HR srt Hs norm s a s' g Xs HX H HXs He) as (t & Ht & _ & Hv & _). eauto.
    - apply fit_ok in H as (Xs' & rng' & c & c1 & t & c2 & fi & Es & Ec & Eo & Ei & E1 & E2 & E3 & E4 & E5 & E6).
      rewrite HXs in E1; injection E1 as <-. destruct (sample_wf R _ _ _ _ _ HR HX Es) as (HwX & _).
      unfold pick_calc in Ec. rewrite Hc, HP in Ec. cbn [callable] in Ec. injection Ec as <-.
      assert (Hr : reachable O N (md_id (a_model a)) Xs P (a_batch a) (calc_init O N (md_id (a_model a)) Xs P (a_batch a))) by (exists []; reflexivity).
      cbn [ovo_of] in Eo.
      apply (friedman_ovo_spec O N HO Hnan srt norm Xs _ _ _ _ _ _ _ _ g HwX Hg Hr) in Eo as (_ & Hr1 & _); [|intros p; apply combinations2_fst_snd].
      destruct (pdp_importance_spec O N HO Hnan srt Xs _ _ _ _ _ _ _ g HwX Hg Hr1 Ei) as (_ & _ & _ & Hr2 & _).
      destruct (a_ova a).
      + destruct E6 as (c3 & ova & Ev & _ & Ecalc). exists c3. split; [exact Ecalc|].
        unfold friedman_ova in Ev. destruct (calculate_pd_minus_single N c2 (Some (all_features a))) as [c4 [[]|e]] eqn:E4'; [|discriminate].
        apply (f_equal fst) in Ev; cbn [fst] in Ev; subst c4.
        assert (Hr3 : reachable O N (md_id (a_model a)) Xs P (a_batch a) c3) by (eapply (reachable_step O N _ Xs P _ c2 (OpMinus (Some (all_features a)))); [exact Hr2|exact E4']).
        destruct (reachable_inv O N HO Hnan _ Xs P _ c3 g HwX Hg Hr3) as (_ & _ & A1 & A2 & A3 & _). auto.
      + destruct E6 as (_ & Ecalc). exists c2. split; [exact Ecalc|].
        destruct (reachable_inv O N HO Hnan _ Xs P _ c2 g HwX Hg Hr2) as (_ & _ & A1 & A2 & A3 & _). auto.
  Qed.

  (** ** C62 *)
  (** what is shown is from the last fit that was asked for it *)
  Theorem C62_ova_fresh_partial norm s a s' g Xs (H0 : n_isnan N (n_ofZ N 0) = false) :
    wf_frame (a_X a) -> fit (Friedman norm) s a = (s', Ok tt) -> m_X s' = Some Xs -> explains O N a g Xs ->
    (a_ova a = true -> exists t, m_ova s' = Some t /\ Permutation (map fst t) (all_features a)
         /\ forall f v, In (f, v) t -> exists p, nth_error (f_cols Xs) p = Some f /\ v = or_zero N (H_all N g (f_rows Xs) norm p))
    /\ (a_ova a = false -> m_ova s' = m_ova s).
  Proof.
    intros HX H HXs He. split.
    - intros Ho. destruct (C13_friedman_ova O N HO HN H0 R HR srt Hs norm s a s' g Xs HX H HXs He Ho) as (t & Ht & Hk & Hv & _). eauto.
    - intros Ho. destruct (friedman_fit O N HO Hnan R HR srt norm s a s' g Xs HX H HXs He) as (_ & _ & _ & _ & Eo & _). rewrite Ho in Eo. exact Eo.
  Qed.

  (** a method never asked for one-vs-all values has none, whatever the history of (possibly
      failing) fits *)
  Definition refit k (s : mstate C V G) (l : list (fargs C V)) : mstate C V G := fold_left (fun s a => fst (fit k s a)) l s.

  Lemma fit_no_ova k s a : a_ova a = false -> m_ova (fst (fit k s a)) = m_ova s.
  Proof.
    intros Ho. unfold fit. destruct (fit_base O N R srt k s a) as [s1 r1] eqn:Eb.
    assert (E : m_ova s1 = m_ova s).
    { unfold fit_base in Eb. destruct (sample_if_not_none _ _ _ _) as [[Xs rng']|e]; [|injection Eb as <- _; reflexivity].
      destruct (pick_calc _ _ _ _ _ _ _) as [c|e]; [|injection Eb as <- _; reflexivity].
      destruct (ovo_of _ _ _ _ _ _ _ _) as [c1 [t|e]]; [|injection Eb as <- _; reflexivity].
      destruct (pd_importance _ _ _ _ _ _ _ _ _ _ _ _) as [c2 [fi|e]]; injection Eb as <- _; reflexivity. }
    destruct r1; [|exact E]. destruct k; [|exact E]. rewrite Ho. exact E.
  Qed.

  Theorem C62_never_requested_partial k g0 l : (forall a, In a l -> a_ova a = false) -> m_ova (refit k (m_init g0) l) = None.
  Proof.
    intros H. unfold refit. assert (E : m_ova (m_init g0 : mstate C V G) = None) by reflexivity. revert E H. generalize (m_init g0 : mstate C V G).
    induction l as [|a l IH]; intros s E H; cbn [fold_left]; [exact E|]. apply IH; [|intros; apply H; right; assumption].
    rewrite fit_no_ova; [exact E|]. apply H; left; reflexivity.
  Qed.

  (** ** C47, partial dependence methods: a fit that fails on the sample size, the
      calculator or in the pair stage leaves every table as it was *)
  Theorem C47_pd_rejected_partial k s a s' e :
    fit k s a = (s', Err e) ->
    (m_ovo s' = m_ovo s /\ m_fi s' = m_fi s /\ m_ova s' = m_ova s)
    \/ (exists Xs rng' c c1 t, sample_if_not_none R (m_rng s) (a_X a) (a_n a) = Ok (Xs, rng')
         /\ pick_calc O N (a_model a) Xs (pf_of a) (a_batch a) (a_calc a) = Ok c
         /\ ovo_of O N srt k Xs (all_features a) (combinations2 (all_features a)) c = (c1, Ok t)
         /\ m_ovo s' = Some t /\ m_ova s' = m_ova s).
  Proof.
    intros H. unfold fit in H. destruct (fit_base O N R srt k s a) as [s1 r1] eqn:Eb.
    unfold fit_base in Eb. fold (all_features a) in Eb. fold (pf_of a) in Eb.
    destruct (sample_if_not_none R (m_rng s) (a_X a) (a_n a)) as [[Xs rng']|e1] eqn:Es; [|injection Eb as <- <-; injection H as <- _; cbn; auto].
    destruct (pick_calc O N (a_model a) Xs (pf_of a) (a_batch a) (a_calc a)) as [c|e1] eqn:Ec; [|injection Eb as <- <-; injection H as <- _; cbn; auto].
    destruct (ovo_of O N srt k Xs (all_features a) (combinations2 (all_features a)) c) as [c1 [t|e1]] eqn:Eo; [|injection Eb as <- <-; injection H as <- _; cbn; auto].
    right. exists Xs, rng', c, c1, t. split; [first [reflexivity|exact Es]|]. split; [first [reflexivity|exact Ec]|]. split; [exact Eo|].
    destruct (pd_importance _ _ _ _ _ _ _ _ _ _ _ _) as [c2 [fi|e1]]; injection Eb as <- <-.
    - destruct k; [|discriminate]. destruct (a_ova a); [|discriminate]. cbn [m_calc m_X m_features m_predict] in H.
      destruct c2; [|injection H as <- _; cbn; auto]. destruct (friedman_ova _ _ _ _ _ _ _ _) as [c3 [ova|e2]]; [discriminate|].
      injection H as <- _. cbn. auto.
    - injection H as <- _. cbn. auto.
  Qed.

  (** ** C66: with complete data and known features, fit succeeds (Friedman: always; Greenwell: see C19) *)
  Theorem C66_fit_succeeds_partial norm s a s' r g Xs rng' :
    wf_frame (a_X a) -> sample_if_not_none R (m_rng s) (a_X a) (a_n a) = Ok (Xs, rng') ->
    explains_total O N a g Xs -> complete O Xs -> f_rows Xs <> [] ->
    NoDup (all_features a) -> (forall f, In f (all_features a) -> In f (f_cols Xs)) ->
    fit (Friedman norm) s a = (s', r) -> r = Ok tt.
  Proof.
    intros HX Es He Hc Hne Hnd Hin H.
    pose proof (fit_run O N HO Hnan R HR srt (Friedman norm) s a s' r g Xs rng' HX Es He Hc Hnd Hin H) as Hfit.
    destruct (sample_wf R _ _ _ _ _ HR HX Es) as (HwX & _).
    assert (Himp : exists fi, imp_val O N srt Xs g (all_features a) = Ok fi).
    { unfold imp_val. destruct (mapM_ok (fun f => do v <- imp_raw O N Xs g (all_features a) f; Ok (f, v)) (all_features a)) as (l & ->); [|cbn; eauto].
      intros f Hf. unfold imp_raw, calc_importance. destruct (is_numerical _ _ _); [cbn; eauto|].
      assert (Hgr : np_unique O (col_at (posn Xs f) (f_rows Xs)) <> []).
      { intros E. apply (proj1 (np_unique_nil O HO _)) in E. apply Hin in Hf. apply In_nth_error in Hf as (i & Hi). rewrite (posn_nth Xs i f HwX Hi) in E.
        destruct (f_rows Xs) as [|r1 t] eqn:Er; [congruence|].
        assert (Hr : i < length r1) by (apply (wf_len Xs i f r1 HwX Hi); rewrite Er; cbn; auto).
        unfold col_at in E. cbn [flat_map] in E. destruct (nth_error r1 i) eqn:Ei; [discriminate|]. apply nth_error_None in Ei. lia. }
      destruct (np_unique O _) as [|x t]; [congruence|]. cbn. eauto. }
    destruct Himp as (fi & Himp). unfold fit_val, ovo_val in Hfit. rewrite Himp in Hfit. congruence.
  Qed.
End Sharing.

(** * Examples and refutations *)
Definition mkargs {C V} (P : nat -> list (list C) -> result (list V)) (X : frame C) (fs : option (list string)) (ova : bool)
  (calc : option (calc C V)) : fargs C V :=
  {| a_model := {| md_id := 0; md_proba1 := None; md_predict := Some P |}; a_X := X; a_n := None; a_predict := None;
     a_features := fs; a_batch := 3; a_calc := calc; a_ova := ova |}.
Definition fitQ := fit Zcell xQ rotR isort.
Definition init0 {V} : mstate Z V nat := m_init 0.

(** the product model on the data of Props_Pd.v *)
Example C12_example :
  let r := fitQ (Friedman true) init0 (mkargs exP exX None true None) in
  snd r = Ok tt /\ m_ovo (fst r) = Some [("a", "b", Fin (1 # 21))]
  /\ m_ova (fst r) = Some [("a", Fin (1 # 21)); ("b", Fin (1 # 21))]
  /\ m_X (fst r) = Some exX /\ explains Zcell xQ (mkargs exP exX None true None) exg exX.
Proof.
  cbv zeta. split; [vm_compute; reflexivity|]. split; [vm_compute; reflexivity|]. split; [vm_compute; reflexivity|].
  split; [vm_compute; reflexivity|]. split; [exact exP_rowwise|exact I].
Qed.

(** a real valued model with three features, the first two of which do not interact *)
Definition rX : frame Z := {| f_cols := ["a"; "b"; "c"]; f_index := [5;6;7]%Z; f_num := ["a"; "b"; "c"];
                              f_rows := [[1;0;2];[0;1;1];[1;1;0]]%Z |}.
Definition rpart (i : nat) (r : list Z) : R :=
  match nth_error r i, nth_error r 2 with Some x, Some z => IZR (x * z) | _, _ => 0%R end.
Definition rh (r : list Z) : R := (rpart 1 r + rpart 0 r)%R.
Definition rP (h : list Z -> R) : nat -> list (list Z) -> result (list (ext R)) := fun _ rows => Ok (map (fun r => Fin (h r)) rows).
Definition rargs h ova : fargs Z (ext R) := mkargs (rP h) rX None ova None.

Example rX_wf : wf_frame rX.
Proof. repeat constructor; cbn; intuition congruence. Qed.
Lemma rargs_explains h ova : explains Zcell xR (rargs h ova) (fun r => Fin (h r)) rX.
Proof. split; [|exact I]. intros n rows ys E. injection E as <-. reflexivity. Qed.
Lemma rargs_total h ova : explains_total Zcell xR (rargs h ova) (fun r => Fin (h r)) rX.
Proof. split; [exact (proj1 (rargs_explains h ova))|]. split; [|exact I]. intros n rows. eexists. reflexivity. Qed.
Lemma Z_complete (X : frame Z) : complete Zcell X.
Proof. intros f p v _ _. unfold c_isnan; cbn. rewrite Z.eqb_refl. reflexivity. Qed.

Lemma mX_ok {C V G} (O : cell_ops C) (N : num_ops V) (R : rng_ops G) srt k s (a : fargs C V) s' :
  a_n a = None -> fit O N R srt k s a = (s', Ok tt) -> m_X s' = Some (a_X a).
Proof.
  intros Hn H. apply fit_ok in H as (Xs & rng' & c & c1 & t & c2 & fi & Es & _ & _ & _ & E & _). rewrite Hn in Es. injection Es as -> _. exact E.
Qed.

Lemma rfit_ok norm h ova : exists s', fit Zcell xR rotR isort (Friedman norm) init0 (rargs h ova) = (s', Ok tt) /\ m_X s' = Some rX.
Proof.
  destruct (fit Zcell xR rotR isort (Friedman norm) init0 (rargs h ova)) as [s' r] eqn:E. exists s'.
  assert (r = Ok tt) as ->.
  { eapply (C66_fit_succeeds_partial Zcell xR Zcell_ok xR_ord rotR rotR_ok isort norm init0 (rargs h ova) s' r _ rX); [exact rX_wf|reflexivity|apply rargs_total|apply Z_complete|discriminate| | |exact E].
    - apply rX_wf.
    - intros f Hf. exact Hf. }
  split; [reflexivity|]. exact (mX_ok Zcell xR rotR isort (Friedman norm) init0 (rargs h ova) s' eq_refl E).
Qed.

(** hypotheses of C12-C15 hold; the pair (a, b) is reported, and its value is 0 *)
Example C14_example norm :
  additive_pair 3 rh 0 1
  /\ exists s' t v, fit Zcell xR rotR isort (Friedman norm) init0 (rargs rh true) = (s', Ok tt) /\ m_ovo s' = Some t
       /\ In ("a", "b", v) t /\ v = Fin 0%R.
Proof.
  assert (Hadd : additive_pair 3 rh 0 1).
  { exists (rpart 1), (rpart 0). split; [reflexivity|].
    split; intros r v Hl; destruct r as [|x [|y [|z [|]]]]; try discriminate; reflexivity. }
  split; [exact Hadd|]. destruct (rfit_ok norm rh true) as (s' & E & EX).
  destruct (C12_friedman_pairs Zcell xR Zcell_ok xR_ord eq_refl rotR rotR_ok isort isort_ok norm init0 (rargs rh true) s' _ rX rX_wf E EX (rargs_explains rh true)) as (t & Ht & Hk & _).
  assert (Hin : In ("a", "b") (map fst t)) by (rewrite Hk; cbn; auto).
  apply in_map_iff in Hin as ([[f1 f2] v] & E1 & Hin). injection E1 as -> ->.
  exists s', t, v. split; [exact E|]. split; [exact Ht|]. split; [exact Hin|].
  refine (C14_no_interaction_pair Zcell Zcell_ok rotR rotR_ok isort isort_ok norm init0 (rargs rh true) s' rh rX t "a" "b" v 0 1 rX_wf E EX (rargs_explains rh true) Ht Hin eq_refl eq_refl Hadd).
Qed.

Example C14_example_all : additive_all 3 (fun r => match nth_error r 0, nth_error r 1, nth_error r 2 with
                                                   | Some x, Some y, Some z => IZR x + IZR y * IZR z | _, _, _ => 0 end)%R 0.
Proof.
  exists (fun o => match o with Some x => IZR x | None => 0%R end), (fun r => match nth_error r 1, nth_error r 2 with Some y, Some z => IZR y * IZR z | _, _ => 0 end)%R.
  split; [|intros r v Hl]; [intros r Hl|]; destruct r as [|x [|y [|z [|]]]]; try discriminate; reflexivity.
Qed.

(** two fits of predictions h and -2*h + 3 *)
Example C15_example norm :
  let h' := fun r => (-2 * rh r + 3)%R in
  exists s1 s2, fit Zcell xR rotR isort (Friedman norm) init0 (rargs rh true) = (s1, Ok tt) /\ m_X s1 = Some rX
    /\ fit Zcell xR rotR isort (Friedman norm) init0 (rargs h' true) = (s2, Ok tt) /\ m_X s2 = Some rX
    /\ (-2 <> 0)%R /\ explains Zcell xR (rargs rh true) (fun r => Fin (rh r)) rX /\ explains Zcell xR (rargs h' true) (fun r => Fin (h' r)) rX.
Proof.
  intros h'. destruct (rfit_ok norm rh true) as (s1 & E1 & EX1). destruct (rfit_ok norm h' true) as (s2 & E2 & EX2).
  exists s1, s2. repeat split; auto using rargs_explains; try (intros n rows ys E; injection E as <-; reflexivity). lra.
Qed.

(** ** C16 *)
Definition hX : frame Z := {| f_cols := ["a"; "b"]; f_index := [0;1;2;3]%Z; f_num := ["a"; "b"]; f_rows := [[0;0];[1;1];[0;1];[1;1]]%Z |}.
Definition hg (v00 v01 v10 v11 : Z) (r : list Z) : ext Q :=
  match r with
  | [0;0]%Z => Fin (inject_Z v00) | [0;1]%Z => Fin (inject_Z v01) | [1;0]%Z => Fin (inject_Z v10) | _ => Fin (inject_Z v11)
  end.
Definition hP v00 v01 v10 v11 : nat -> list (list Z) -> result (list (ext Q)) := fun _ rows => Ok (map (hg v00 v01 v10 v11) rows).

(** H = 3/2 and H = +inf *)
Theorem C16_bounded_refuted :
  (exists a s', wf_frame (a_X a) /\ fitQ (Friedman true) init0 a = (s', Ok tt) /\ explains Zcell xQ a (hg 3 2 0 2) (a_X a)
     /\ m_ovo s' = Some [("a", "b", Fin (3 # 2))])
  /\ (exists a s', wf_frame (a_X a) /\ fitQ (Friedman true) init0 a = (s', Ok tt) /\ explains Zcell xQ a (hg 2 2 0 2) (a_X a)
     /\ m_ovo s' = Some [("a", "b", PInf)]).
Proof.
  assert (Hw : wf_frame hX) by (repeat constructor; cbn; intuition congruence).
  split.
  - exists (mkargs (hP 3 2 0 2) hX None true None). eexists. split; [exact Hw|]. split; [vm_compute; reflexivity|].
    split; [split; [intros n rows ys E; injection E as <-; reflexivity|exact I]|]. vm_compute. reflexivity.
  - exists (mkargs (hP 2 2 0 2) hX None true None). eexists. split; [exact Hw|]. split; [vm_compute; reflexivity|].
    split; [split; [intros n rows ys E; injection E as <-; reflexivity|exact I]|]. vm_compute. reflexivity.
Qed.
Print Assumptions C16_bounded_refuted.

(** a full factorial design has independent columns *)
Lemma perm_by_key {A} (key : A -> nat) (l m : list A) :
  isort A (fun a b => key a <=? key b) l = isort A (fun a b => key a <=? key b) m -> Permutation l m.
Proof.
  intros E. assert (Hp : total_pre (fun a b => key a <=? key b)).
  { split; [intros a b|intros a b c]; rewrite !Nat.leb_le; lia. }
  rewrite <- (proj1 (isort_ok A _ Hp l)), E. apply (isort_ok A _ Hp m).
Qed.
Example C16_example : let rows := [[0;0];[0;1];[1;0];[1;1]]%Z in independent rows 0 /\ independent rows 1.
Proof.
  split; unfold independent; apply (perm_by_key (fun r => match r with [x; y] => Z.to_nat (2 * x + y) | _ => 9 end)); vm_compute; reflexivity.
Qed.

(** ** C17-C20 *)
Example C17_example :
  let r := fitQ Greenwell init0 (mkargs exP exX None true None) in
  snd r = Ok tt /\ exists v, m_ovo (fst r) = Some [("a", "b", v)] /\ n_ltb xQ (Fin 0%Q) v = true.
Proof. vm_compute. split; [reflexivity|]. eexists. split; reflexivity. Qed.

Definition cX : frame Z := {| f_cols := ["a"; "b"; "c"]; f_index := [0;1;2]%Z; f_num := ["a"; "b"; "c"];
                              f_rows := [[1;10;4];[2;20;4];[1;30;4]]%Z |}.
Definition cP : nat -> list (list Z) -> result (list (ext Q)) := fun _ rows => Ok (map (fun r => match r with x :: y :: _ => Fin (inject_Z (x * y)) | _ => NaN end) rows).
Example C19_example :
  snd (fitQ Greenwell init0 (mkargs cP cX None true None)) = Err StatisticsError
  /\ snd (fitQ Greenwell init0 (mkargs cP cX (Some ["b"; "a"]) true None)) = Ok tt
  /\ wf_frame cX /\ explains_total Zcell xQ (mkargs cP cX None true None) (fun r => match r with x :: y :: _ => Fin (inject_Z (x * y)) | _ => NaN end) cX.
Proof.
  split; [vm_compute; reflexivity|]. split; [vm_compute; reflexivity|]. split; [repeat constructor; cbn; intuition congruence|].
  split; [intros n rows ys E; injection E as <-; reflexivity|]. split; [|exact I]. intros n rows. eexists; reflexivity.
Qed.

(** in a Greenwell fit over the reals: hypotheses of C17 and C18 *)
Example C18_example :
  exists s' t v, fit Zcell xR rotR isort Greenwell init0 (rargs rh true) = (s', Ok tt) /\ m_ovo s' = Some t
       /\ In ("a", "b", v) t /\ v = Fin 0%R.
Proof.
  destruct (fit Zcell xR rotR isort Greenwell init0 (rargs rh true)) as [s' r] eqn:E. exists s'.
  destruct (C19_greenwell_constant_feature Zcell xR Zcell_ok xR_ord rotR rotR_ok isort init0 (rargs rh true) s' r _ rX 0 rX_wf eq_refl (rargs_total rh true)) as (_ & Hok & _); auto.
  { apply Z_complete. } { discriminate. } { apply rX_wf. } { cbn. lia. }
  assert (r = Ok tt) as ->.
  { apply Hok. intros f Hf Hc. destruct Hf as [<-|[<-|[<-|[]]]].
    - specialize (Hc 0%nat 1 0 eq_refl)%Z. cbn in Hc. assert (1 = 0)%Z by auto. discriminate.
    - specialize (Hc 1%nat 0 1 eq_refl)%Z. cbn in Hc. assert (0 = 1)%Z by auto. discriminate.
    - specialize (Hc 2%nat 2 1 eq_refl)%Z. cbn in Hc. assert (2 = 1)%Z by auto. discriminate. }
  pose proof (mX_ok Zcell xR rotR isort Greenwell init0 (rargs rh true) s' eq_refl E) as EX.
  destruct (C17_greenwell_pairs Zcell Zcell_ok rotR rotR_ok isort isort_ok init0 (rargs rh true) s' rh rX rX_wf E EX (rargs_explains rh true)) as (t & Ht & (keys & Hp & Hk) & Hv & _).
  assert (Hin : exists v, In ("a", "b", v) t).
  { cbn in Hk. inversion Hk as [|? k ? ? Hk1 _]; subst. cbn [fst snd] in Hk1.
    assert (Hin : In k (map fst t)) by (rewrite Hp; left; reflexivity). apply in_map_iff in Hin as ([[f1 f2] v] & E1 & Hin). cbn in E1. subst k.
    destruct Hk1 as [E1|E1]; injection E1 as -> ->; [eauto|].
    exfalso. destruct (Hv _ _ _ Hin) as (p & q & Hpp & Hq & Hlt & _). clear -Hpp Hq Hlt.
    destruct p as [|[|[|p]]]; destruct q as [|[|[|q]]]; cbn in Hpp, Hq; try discriminate; try lia; (destruct p + destruct q); discriminate. }
  destruct Hin as (v & Hin). exists t, v. split; [reflexivity|]. split; [exact Ht|]. split; [exact Hin|].
  refine (C18_greenwell_zero Zcell Zcell_ok rotR rotR_ok isort isort_ok init0 (rargs rh true) s' rh rX t "a" "b" v 0 1 rX_wf E EX (rargs_explains rh true) Ht Hin eq_refl eq_refl _).
  exact (proj1 (C14_example true)).
Qed.

Example C20_example :
  exists c' t, pd_importance Zcell xQ rotR isort 0 (a_model (mkargs cP cX None true None)) cX None None (Some ["c"; "a"]) 7 None = (c', Ok t)
    /\ map fst t = ["a"; "c"] /\ nth_error t 1 = Some ("c", Fin 0%Q).
Proof. eexists. eexists. split; [vm_compute; reflexivity|]. vm_compute. auto. Qed.

(** ** C21, C22 *)
(** a calculator with a different batch size and a history with a failed request *)
Definition usedc := run Zcell xQ (calc_init Zcell xQ 0 exX exPf 2) [OpSingle None; OpPairs None false; OpSingle (Some ["a"])].
Example C21_example :
  let r1 := fitQ (Friedman true) init0 (mkargs exP exX None true None) in
  let r2 := fitQ (Friedman true) init0 (mkargs exP exX None true (Some usedc)) in
  explains Zcell xQ (mkargs exP exX None true (Some usedc)) exg exX
  /\ snd r1 = Ok tt /\ snd r2 = Ok tt /\ m_ovo (fst r1) = m_ovo (fst r2) /\ m_fi (fst r1) = m_fi (fst r2) /\ m_ova (fst r1) = m_ova (fst r2)
  /\ snd (fitQ (Friedman true) init0 (mkargs exP cX None true (Some usedc))) = Err ValueError.
Proof.
  cbv zeta. split.
  - split; [exact exP_rowwise|]. exists 0, exPf, 2%Z. split; [eexists; reflexivity|exact exPf_rowwise].
  - vm_compute. auto 10.
Qed.

Theorem C22_given_function_refuted :
  exists (a : fargs Z (ext Q)) p g s' t v, wf_frame (a_X a) /\ a_predict a = Some p /\ rowwise p g
    /\ (exists c P, a_calc a = Some c /\ reachable Zcell xQ (md_id (a_model a)) (a_X a) P 7 c)
    /\ fitQ (Friedman true) init0 a = (s', Ok tt) /\ m_X s' = Some (a_X a)
    /\ m_ovo s' = Some t /\ In ("a", "b", v) t /\ v <> or_zero xQ (H_pair xQ g (f_rows (a_X a)) true 0 1).
Proof.
  exists {| a_model := {| md_id := 0; md_proba1 := None; md_predict := Some (hP 2 2 0 3) |}; a_X := hX; a_n := None; a_predict := Some (hP 3 2 0 2);
     a_features := None; a_batch := 3; a_calc := Some (calc_init Zcell xQ 0 hX (hP 2 2 0 3) 7); a_ova := false |}.
  exists (hP 3 2 0 2), (hg 3 2 0 2). do 2 eexists. exists (Fin (9 # 8)).
  split; [repeat constructor; cbn; intuition congruence|]. split; [reflexivity|].
  split; [intros n rows ys E; injection E as <-; reflexivity|]. split; [do 2 eexists; split; [reflexivity|]; exists []; reflexivity|].
  split; [vm_compute; reflexivity|]. split; [reflexivity|]. split; [reflexivity|]. split; [left; reflexivity|]. vm_compute. discriminate.
Qed.
Print Assumptions C22_given_function_refuted.

(** ** C62 *)
Theorem C62_stale_ova_refuted :
  exists a1 a2 s1 s2 t, fitQ (Friedman true) init0 a1 = (s1, Ok tt)
    /\ fitQ (Friedman true) s1 a2 = (s2, Ok tt) /\ a_ova a2 = false
    /\ m_X s2 = Some (a_X a2) /\ explains Zcell xQ a2 (hg 1 1 1 1) (a_X a2)
    /\ m_ova s2 = Some t /\ m_ova s1 = Some t
    /\ exists v, In ("a", v) t /\ v <> or_zero xQ (H_all xQ (hg 1 1 1 1) (f_rows (a_X a2)) true 0).
Proof.
  exists (mkargs exP exX None true None), (mkargs (hP 1 1 1 1) hX None false None). do 3 eexists.
  split; [vm_compute; reflexivity|]. split; [vm_compute; reflexivity|]. split; [reflexivity|]. split; [reflexivity|].
  split; [split; [intros n rows ys E; injection E as <-; reflexivity|exact I]|].
  split; [reflexivity|]. split; [reflexivity|]. eexists. split; [left; reflexivity|]. vm_compute. discriminate.
Qed.
Print Assumptions C62_stale_ova_refuted.

(** ** C47, C66: a missing value in a column that is not even included *)
Definition nX : frame (option Z) := {| f_cols := ["a"; "b"; "c"]; f_index := [0;1]%Z; f_num := ["a"; "b"; "c"];
                                       f_rows := [[Some 1; Some 10; None];[Some 2; Some 20; Some 3]]%Z |}.
Definition nX0 : frame (option Z) := {| f_cols := ["a"; "b"; "c"]; f_index := [0;1]%Z; f_num := ["a"; "b"; "c"];
                                        f_rows := [[Some 1; Some 10; Some 1];[Some 2; Some 21; Some 3]]%Z |}.
Definition ng (r : list (option Z)) : ext Q := match r with Some x :: Some y :: _ => Fin (inject_Z (x * y)) | _ => NaN end.
Definition nP : nat -> list (list (option Z)) -> result (list (ext Q)) := fun _ rows => Ok (map ng rows).
Definition fitO := fit OZcell xQ rotR isort.

(** C66 *)
Theorem C66_excluded_column_refuted :
  exists a : fargs (option Z) (ext Q),
    wf_frame (a_X a) /\ explains_total OZcell xQ a ng (a_X a) /\ NoDup (all_features a)
    /\ (forall f, In f (all_features a) -> In f (f_cols (a_X a)))
    /\ (forall f p v, In f (all_features a) -> nth_error (f_cols (a_X a)) p = Some f -> In v (col_at p (f_rows (a_X a))) -> c_isnan OZcell v = false)
    /\ snd (fitO (Friedman true) (m_init 0) a) = Err IndexError.
Proof.
  exists (mkargs nP nX (Some ["a"; "b"]) false None).
  split; [repeat constructor; cbn; intuition congruence|].
  split; [split; [intros n rows ys E; injection E as <-; reflexivity|split; [intros n rows; eexists; reflexivity|exact I]]|].
  split; [repeat constructor; cbn; intuition congruence|]. split; [cbn; intuition|]. split; [|vm_compute; reflexivity].
  intros f p v Hf Hp Hv. destruct Hf as [<-|[<-|[]]]; destruct p as [|[|[|p]]]; cbn in Hp; try discriminate; try (destruct p; discriminate);
    cbn in Hv; destruct Hv as [<-|[<-|[]]]; reflexivity.
Qed.
Print Assumptions C66_excluded_column_refuted.

(** C47: the failed fit replaces the pair table but keeps the old importances *)
Theorem C47_pd_rejected_refuted :
  exists a1 a2 s1 s2 e, fitO (Friedman true) (m_init 0) a1 = (s1, Ok tt) /\ fitO (Friedman true) s1 a2 = (s2, Err e)
    /\ m_ovo s2 <> m_ovo s1 /\ m_fi s2 = m_fi s1.
Proof.
  exists (mkargs nP nX0 None false None), (mkargs nP nX (Some ["a"; "b"]) false None). do 3 eexists.
  split; [vm_compute; reflexivity|]. split; [vm_compute; reflexivity|]. split; [discriminate|reflexivity].
Qed.
Print Assumptions C47_pd_rejected_refuted.

Print Assumptions C21_same_results.
Print Assumptions C21_same_outcome.
Print Assumptions C21_rejected.
Print Assumptions C22_given_function_partial.
Print Assumptions C65_documented_function.
Print Assumptions C65_fit_explains_it.
Print Assumptions C62_ova_fresh_partial.
Print Assumptions C62_never_requested_partial.
Print Assumptions C47_pd_rejected_partial.
Print Assumptions C66_fit_succeeds_partial.
