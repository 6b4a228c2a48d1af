(** Further theorems on C22, C30, C66 and C81: what exactly happens where the property itself fails. *)
From Verif Require Import Py Num NumR Sorting Frame Rng PdCalc PdSpec PdFacts PdProofs PdTheorems PdErrors PdApi PdMethods MethodSpec
  PdMethodFacts PdMethodRun PdMethodReal PdMethodReal2 GreenwellFacts Props_Pd Props_Methods Props_Methods2 Perm Props_Perm Zenplot Props_Zen Props_Zen2.
From Coq Require Import Reals Lra QArith.
Open Scope string_scope.
Open Scope nat_scope.
Open Scope list_scope.

Notation all_features := PdMethodFacts.all_features.
Notation complete := PdMethodRun.complete.

(** ** C30: an array target is read at the sampled labels, whatever they are *)

(** position meant by the label [z] in an array of [n] entries: from the front, or from the end for
    negative labels *)
Definition label_position (n : nat) (z : Z) (i : nat) : Prop :=
  i < n /\ (z = Z.of_nat i \/ z = (Z.of_nat i - Z.of_nat n)%Z).

Section Labels.
  Context {C V G : Type} (Rg : rng_ops G) (HR : rng_ok Rg).

  Lemma np_take_spec (vals : list V) zs :
    match np_take vals zs with
    | Ok ys => length ys = length zs
               /\ forall j z, nth_error zs j = Some z -> exists i, label_position (length vals) z i /\ nth_error ys j = nth_error vals i
    | Err e => e = IndexError /\ exists z, In z zs /\ forall i, ~ label_position (length vals) z i
    end.
  Proof.
    unfold np_take. induction zs as [|z zs IH]; cbn [mapM]; [split; [reflexivity|intros [|j] z H; discriminate]|].
    destruct ((- Z.of_nat (length vals) <=? z)%Z && (z <? Z.of_nat (length vals))%Z) eqn:Eb.
    - apply andb_true_iff in Eb as [E1 E2]. apply Z.leb_le in E1. apply Z.ltb_lt in E2.
      set (i := Z.to_nat (if (z <? 0)%Z then Z.of_nat (length vals) + z else z)).
      assert (Hp : label_position (length vals) z i).
      { unfold label_position. subst i. destruct (Z.ltb_spec z 0); split; lia. }
      destruct (nth_error vals i) as [v|] eqn:Ev; [|apply nth_error_None in Ev; destruct Hp; lia].
      unfold get_nth at 1. rewrite Ev. cbn [bind].
      destruct (mapM _ zs) as [ys|e]; cbn [bind].
      + destruct IH as [Hl Hj]. split; [cbn; congruence|]. intros [|j] z' Hz; [injection Hz as <-; exists i; cbn; auto|apply (Hj j z' Hz)].
      + destruct IH as (He & z' & Hz & Hn). split; [exact He|]. exists z'. split; [right; exact Hz|exact Hn].
    - cbn [bind]. split; [reflexivity|]. exists z. split; [left; reflexivity|]. intros i (Hi & [->| ->]); apply andb_false_iff in Eb as [E|E];
        [apply Z.leb_gt in E|apply Z.ltb_ge in E|apply Z.leb_gt in E|apply Z.ltb_ge in E]; lia.
  Qed.

  (** the sampled rows are paired with the entries their labels mean as positions; the call raises
      IndexError exactly when some sampled label means none *)
  Theorem C30_array_labels_partial g0 (X : frame C) (y : target V) n :
    wf_frame X -> t_series y = false -> n <= length (f_rows X) ->
    exists ps, length ps = n /\ NoDup ps /\ (forall i, In i ps -> i < length (f_rows X))
      /\ match sample_both Rg g0 X y (Some n) with
         | Ok (Xs, ys, _) =>
             length (t_vals ys) = n
             /\ forall j i, nth_error ps j = Some i ->
                  nth_error (f_rows Xs) j = nth_error (f_rows X) i
                  /\ exists z q, nth_error (f_index X) i = Some z /\ label_position (length (t_vals y)) z q
                                 /\ nth_error (t_vals ys) j = nth_error (t_vals y) q
         | Err e => e = IndexError
                    /\ exists i z, In i ps /\ nth_error (f_index X) i = Some z /\ forall q, ~ label_position (length (t_vals y)) z q
         end.
  Proof.
    intros HX Hy Hn. pose proof (rk_sample Rg HR g0 _ _ Hn) as Hs. cbv zeta in Hs.
    unfold sample_both. cbn [sample_if_not_none]. apply Nat.leb_le in Hn as Hnb. rewrite Hnb, Hy.
    destruct (r_sample Rg g0 (length (f_rows X)) n) as [ps g1]. cbn [fst] in Hs. destruct Hs as (H1 & H2 & H3). cbn [bind frame_take f_index].
    exists ps. split; [exact H1|]. split; [exact H2|]. split; [exact H3|].
    assert (Hli : length (f_index X) = length (f_rows X)) by (destruct HX as (_ & _ & ->); reflexivity).
    assert (H3' : forall i, In i ps -> i < length (f_index X)) by (rewrite Hli; exact H3).
    destruct (picks_nth (f_index X) ps H3') as [L1 P1]. destruct (picks_nth (f_rows X) ps H3) as [L2 P2].
    pose proof (np_take_spec (t_vals y) (picks (f_index X) ps)) as HT.
    destruct (np_take (t_vals y) (picks (f_index X) ps)) as [ys|e]; cbn [bind t_vals f_rows frame_take].
    - destruct HT as [Hl Hj]. split; [congruence|]. intros j i Hi. split; [apply P2, Hi|].
      assert (Hii : i < length (f_index X)) by (apply H3'; eapply nth_error_In, Hi).
      destruct (nth_error (f_index X) i) as [z|] eqn:Ez; [|apply nth_error_None in Ez; lia].
      destruct (Hj j z) as (q & Hq & E); [rewrite (P1 j i Hi); exact Ez|]. exists z, q. auto.
    - destruct HT as (He & z & Hz & Hno). split; [exact He|]. apply In_nth_error in Hz as (j & Hj).
      assert (Hjl : j < length ps) by (rewrite <- L1; apply nth_error_Some; congruence).
      destruct (nth_error ps j) as [i|] eqn:Ei; [|apply nth_error_None in Ei; lia].
      exists i, z. split; [eapply nth_error_In, Ei|]. split; [rewrite <- (P1 j i Ei); exact Hj|exact Hno].
  Qed.
End Labels.

(** ** C22: with a supplied calculator, the pairs and the importance explain the calculator's function *)
Definition with_predict {C V} (a : fargs C V) (p : nat -> list (list C) -> result (list V)) : fargs C V :=
  {| a_model := a_model a; a_X := a_X a; a_n := a_n a; a_predict := Some p;
     a_features := a_features a; a_batch := a_batch a; a_calc := a_calc a; a_ova := false |}.

Section Calculator.
  Context {C V G : Type} (O : cell_ops C) (N : num_ops V) (HO : cell_ok O) (HN : num_ord_ok N) (Rg : rng_ops G) (HR : rng_ok Rg) (srt : sorter).
  Notation fit := (PdMethods.fit O N Rg srt).

  Lemma fit_swap k s a s' c p : a_calc a = Some c -> fit k s a = (s', Ok tt) ->
    exists s'', fit k s (with_predict a p) = (s'', Ok tt) /\ m_X s'' = m_X s' /\ m_ovo s'' = m_ovo s' /\ m_fi s'' = m_fi s'.
  Proof.
    intros Hc H. unfold PdMethods.fit in *. unfold fit_base, with_predict in *; cbn [a_model a_X a_n a_predict a_features a_batch a_calc a_ova] in *.
    rewrite Hc in *. destruct (sample_if_not_none Rg (m_rng s) (a_X a) (a_n a)) as [[Xs rng']|e]; [|discriminate].
    change (pick_calc O N (a_model a) Xs (get_predict_function (a_model a) (Some p)) (a_batch a) (Some c))
      with (pick_calc O N (a_model a) Xs (get_predict_function (a_model a) (a_predict a)) (a_batch a) (Some c)).
    destruct (pick_calc O N (a_model a) Xs _ (a_batch a) (Some c)) as [c0|e]; [|discriminate].
    change (match a_features a with None => f_cols (a_X a) | Some l => l end) with (all_features a) in *.
    destruct (ovo_of O N srt k Xs (all_features a) (combinations2 (all_features a)) c0) as [c1 [t|e]]; [|discriminate].
    destruct (pd_importance O N Rg srt rng' (a_model a) Xs None None (Some (all_features a)) 2000 (Some c1)) as [c2 [fi|e]]; [|discriminate].
    cbn [m_calc m_X m_features m_predict m_rng m_ova m_ovo m_fi] in H.
    destruct k as [norm|]; [|injection H as <-; eexists; split; [reflexivity|cbn; auto]].
    destruct (a_ova a).
    - destruct c2 as [c2|]; [|discriminate]. destruct (friedman_ova _ _ _ _ _ _ _ _) as [c3 [ova|e]]; [|discriminate].
      injection H as <-. eexists; split; [reflexivity|cbn; auto].
    - injection H as <-. eexists; split; [reflexivity|cbn; auto].
  Qed.

  Context (Hs : sorter_ok srt).

  (** the pair table is that of the calculator's function, whatever predict function the call was given *)
  Theorem C22_calculator_wins_partial norm s a s' c m P b g Xs (H0 : n_isnan N (n_ofZ N 0) = false) :
    wf_frame (a_X a) -> a_calc a = Some c -> reachable O N m Xs P b c -> rowwise P g ->
    fit (Friedman norm) s a = (s', Ok tt) -> m_X s' = Some Xs ->
    exists t, m_ovo s' = Some t
      /\ Permutation (map fst t) (combinations2 (all_features a))
      /\ forall f1 f2 v, In (f1, f2, v) t ->
           exists i j, nth_error (f_cols Xs) i = Some f1 /\ nth_error (f_cols Xs) j = Some f2 /\ i <> j
                       /\ v = or_zero N (H_pair N g (f_rows Xs) norm i j).
  Proof.
    intros HX Hc Hr Hg H HXs. pose (p := fun (_ : nat) (rows : list (list C)) => Ok (map g rows) : result (list V)).
    destruct (fit_swap _ s a s' c p Hc H) as (s2 & H2 & E1 & E2 & _).
    assert (He : explains O N (with_predict a p) g Xs).
    { split; [intros n rows ys E; injection E as <-; reflexivity|]. cbn [with_predict a_calc]. rewrite Hc. exists m, P, b. auto. }
    rewrite <- E1 in HXs. rewrite <- E2.
    destruct (C12_friedman_pairs O N HO HN H0 Rg HR srt Hs norm s (with_predict a p) s2 g Xs HX H2 HXs He) as (t & Ht & Hp & Hv & _). eauto.
  Qed.

  (** ** C66: success means that no column of the data has a missing value, included or not *)
  Theorem C66_iff_partial norm s a s' r g Xs rng' :
    wf_frame (a_X a) -> sample_if_not_none Rg (m_rng s) (a_X a) (a_n a) = Ok (Xs, rng') ->
    explains_total O N a g Xs -> f_rows Xs <> [] ->
    NoDup (all_features a) -> (forall f, In f (all_features a) -> In f (f_cols Xs)) ->
    fit (Friedman norm) s a = (s', r) -> (r = Ok tt <-> complete O Xs).
  Proof.
    intros HX Es He Hne Hnd Hin H. split; [|intros Hc; eapply (C66_fit_succeeds_partial O N HO HN Rg HR srt); eauto].
    intros ->.
    assert (HXs : m_X s' = Some Xs). { apply fit_ok in H as (Xs' & g' & c & c1 & t & c2 & fi & Es' & _ & _ & _ & E & _). congruence. }
    assert (He' : explains O N a g Xs).
    { destruct He as (E1 & _ & E3). split; [exact E1|]. destruct (a_calc a) as [c|]; [|exact I]. destruct E3 as (P & b & Hr & Hg & _). eauto. }
    destruct (fit_calc O N HO HN Rg HR srt _ s a s' g Xs HX H HXs He') as (HwX & Hk & m & P & b & _ & _ & c2 & c3 & _ & _ & Hg & _ & Hr2 & E2 & _).
    intros f p v Hp Hv. eapply (single_success_no_nan O N HO (no_isnan_nan N HN) m Xs P b c2 g None c3 HwX Hg Hr2 E2 f p v); [|exact Hp|exact Hv]. eapply nth_error_In, Hp.
  Qed.
End Calculator.

Section CalculatorR.
  Context {C G : Type} (O : cell_ops C) (HO : cell_ok O) (Rg : rng_ops G) (HR : rng_ok Rg) (srt : sorter) (Hs : sorter_ok srt).
  Notation fit := (PdMethods.fit O xR Rg srt).

  Notation values X p := (np_unique O (col_at p (f_rows X))).

  (** the importance too, for both methods, and the pairs of the Greenwell method *)
  Theorem C22_calculator_importance_partial k s a s' c m P b h Xs :
    wf_frame (a_X a) -> a_calc a = Some c -> reachable O xR m Xs P b c -> rowwise P (fun r => Fin (h r)) ->
    fit k s a = (s', Ok tt) -> m_X s' = Some Xs ->
    (exists t, m_fi s' = Some t /\ Permutation (map fst t) (all_features a)
      /\ forall f v, In (f, v) t -> exists p, nth_error (f_cols Xs) p = Some f
            /\ v = Fin (Rspread (str_in f (f_num Xs)) (map (PD1 Rmean h (f_rows Xs) p) (values Xs p))))
    /\ (k = Greenwell -> exists t, m_ovo s' = Some t
      /\ forall f1 f2 v, In (f1, f2, v) t ->
            exists p q, nth_error (f_cols Xs) p = Some f1 /\ nth_error (f_cols Xs) q = Some f2 /\ p < q
              /\ v = Fin (Rgreenwell (str_in f1 (f_num Xs)) (str_in f2 (f_num Xs)) (PD2 Rmean h (f_rows Xs) p q) (values Xs p) (values Xs q))).
  Proof.
    intros HX Hc Hr Hg H HXs. pose (p := fun (_ : nat) (rows : list (list C)) => Ok (map (fun r => Fin (h r)) rows) : result (list (ext R))).
    destruct (fit_swap O xR Rg srt _ s a s' c p Hc H) as (s2 & H2 & E1 & E2 & E3).
    assert (He : explains O xR (with_predict a p) (fun r => Fin (h r)) Xs).
    { split; [intros n rows ys E; injection E as <-; reflexivity|]. cbn [with_predict a_calc]. rewrite Hc. exists m, P, b. auto. }
    rewrite <- E1 in HXs. rewrite <- E2, <- E3. split.
    - destruct (C20_fit_importance O HO Rg HR srt Hs k s (with_predict a p) s2 h Xs HX H2 HXs He) as (t & Ht & Hp & Hv & _). eauto.
    - intros ->. destruct (C17_greenwell_pairs O HO Rg HR srt Hs s (with_predict a p) s2 h Xs HX H2 HXs He) as (t & Ht & _ & Hv & _).
      exists t. split; [exact Ht|]. intros f1 f2 v Hin. destruct (Hv f1 f2 v Hin) as (i & j & A & B & D & _ & _ & E). eauto 10.
  Qed.
End CalculatorR.

(** ** C81: the range is that of the candidates' values together with 1 (below) and 0 (above) *)
Section Range.
  Context {C V G : Type} (N : num_ops V) (HN : num_ord_ok N).

  Definition candidate_value (c : calc C V) (t : list (string * string * V)) k (x : V) : Prop :=
    exists r e, In r (firstn (k + 1) t) /\ holds c (fst r) e /\ In x (concat (snd e)).

  Theorem C81_exact_partial (s : mstate C V G) k kind z c t : plot_zenplot N s k kind = Ok z -> m_calc s = Some c -> m_ovo s = Some t ->
    n_isnan N (n_ofZ N 0) = false -> n_isnan N (n_ofZ N 1) = false ->
    (forall x, candidate_value c t k x -> n_isnan N x = false) ->
    n_ltb N (n_ofZ N 1) (z_min z) = false /\ n_ltb N (z_max z) (n_ofZ N 0) = false
    /\ (forall x, candidate_value c t k x -> within N (z_min z) (z_max z) x)
    /\ ((exists x, candidate_value c t k x /\ n_ltb N x (n_ofZ N 1) = true) -> candidate_value c t k (z_min z))
    /\ ((exists x, candidate_value c t k x /\ n_ltb N (n_ofZ N 0) x = true) -> candidate_value c t k (z_max z)).
  Proof.
    intros H Ec Et H0 H1 Hx. pose proof (zen_range N _ _ _ _ _ _ H Ec Et) as HR.
    apply (pd_range_within N HN) in HR as (_ & _ & L1 & L2 & HW & T1 & T2); [|exact H1|exact H0|intros r e x A B D; apply Hx; exists r, e; auto].
    cbn [fst snd] in *. split; [exact L1|]. split; [exact L2|].
    assert (HW' : forall x, candidate_value c t k x -> within N (z_min z) (z_max z) x) by (intros x (r & e & A & B & D); eauto).
    split; [exact HW'|]. split.
    - intros (x & Hc & Hlt). destruct T1 as [T1|T1]; [|exact T1]. apply HW' in Hc as [Hc _]. rewrite T1, Hlt in Hc. discriminate.
    - intros (x & Hc & Hlt). destruct T2 as [T2|T2]; [|exact T2]. apply HW' in Hc as [_ Hc]. rewrite T2, Hlt in Hc. discriminate.
  Qed.
End Range.

(** ** Examples *)

(** labels -1, .., -5: the targets come out in reverse; a label outside [-5, 5) is an IndexError *)
Example C30_array_labels_example :
  wf_frame (with_index [-1; -2; -3; -4; -5]%Z)
  /\ (exists Xs ys g1, sample_both rotR 3 (with_index [-1; -2; -3; -4; -5]%Z) (ex_y [0; 1; 3; 7; 20]%Z) (Some 2) = Ok (Xs, ys, g1)
      /\ f_rows Xs = [[7; 5]; [20; 2]]%Z /\ t_vals ys = map zq [1; 0]%Z)
  /\ sample_both rotR 3 (with_index [-1; -2; -3; -6; 5]%Z) (ex_y [0; 1; 3; 7; 20]%Z) (Some 2) = Err IndexError.
Proof.
  split; [repeat constructor; cbn; intuition congruence|]. split; [do 3 eexists; vm_compute; auto|vm_compute; reflexivity].
Qed.

(** the call of [C22_given_function_refuted]: the value is that of the calculator's function *)
Example C22_calculator_wins_example :
  let c := calc_init Zcell xQ 0 hX (hP 2 2 0 3) 7 in
  let a := {| a_model := {| md_id := 0; md_proba1 := None; md_predict := Some (hP 2 2 0 3) |}; a_X := hX; a_n := None; a_predict := Some (hP 3 2 0 2);
     a_features := None; a_batch := 3; a_calc := Some c; a_ova := false |} in
  reachable Zcell xQ 0 hX (hP 2 2 0 3) 7 c /\ rowwise (hP 2 2 0 3) (hg 2 2 0 3)
  /\ snd (fitQ (Friedman true) init0 a) = Ok tt /\ m_X (fst (fitQ (Friedman true) init0 a)) = Some hX
  /\ m_ovo (fst (fitQ (Friedman true) init0 a)) = Some [("a", "b", or_zero xQ (H_pair xQ (hg 2 2 0 3) (f_rows hX) true 0 1))]
  /\ or_zero xQ (H_pair xQ (hg 2 2 0 3) (f_rows hX) true 0 1) <> or_zero xQ (H_pair xQ (hg 3 2 0 2) (f_rows hX) true 0 1).
Proof.
  cbv zeta. split; [exists []; reflexivity|]. split; [intros n rows ys E; injection E as <-; reflexivity|].
  split; [vm_compute; reflexivity|]. split; [vm_compute; reflexivity|]. split; [vm_compute; reflexivity|vm_compute; discriminate].
Qed.

(** complete data and data with a missing value in a column that is not included *)
Example C66_iff_example :
  snd (fitO (Friedman true) (m_init 0) (mkargs nP nX0 (Some ["a"; "b"]) false None)) = Ok tt /\ complete OZcell nX0
  /\ snd (fitO (Friedman true) (m_init 0) (mkargs nP nX (Some ["a"; "b"]) false None)) <> Ok tt /\ ~ complete OZcell nX.
Proof.
  split; [vm_compute; reflexivity|]. split; [|split; [vm_compute; discriminate|]].
  - intros f p v Hp Hv. destruct p as [|[|[|p]]]; cbn in Hp; try discriminate; try (destruct p; discriminate); cbn in Hv; destruct Hv as [<-|[<-|[]]]; reflexivity.
  - intros H. specialize (H "c" 2 None eq_refl (or_introl eq_refl)). discriminate.
Qed.

(** a fit whose values reach below 1 and above 0 *)
Definition sg (r : list Z) : ext Q := match r with x :: y :: z :: _ => Fin (inject_Z (8 * x * y + z - 3)) | _ => NaN end.
Definition sP : nat -> list (list Z) -> result (list (ext Q)) := fun _ rows => Ok (map sg rows).
Definition sS := fst (fitQ Greenwell init0 (mkargs sP zX None false None)).
Example C81_exact_example : exists z c t, snd (fitQ Greenwell init0 (mkargs sP zX None false None)) = Ok tt
  /\ plot_zenplot xQ sS 2 "colormesh" = Ok z /\ m_calc sS = Some c /\ m_ovo sS = Some t
  /\ candidate_value c t 2 (Fin (-3 # 2)) /\ n_ltb xQ (Fin (-3 # 2)) (n_ofZ xQ 1) = true
  /\ candidate_value c t 2 (Fin (13 # 2)) /\ n_ltb xQ (n_ofZ xQ 0) (Fin (13 # 2)) = true.
Proof.
  do 3 eexists. split; [vm_compute; reflexivity|]. split; [vm_compute; reflexivity|]. split; [vm_compute; reflexivity|]. split; [vm_compute; reflexivity|].
  split; [|split; [reflexivity|split; [|reflexivity]]]; (eexists _, _; split; [left; reflexivity|]; split; [left; vm_compute; reflexivity|]; vm_compute; tauto).
Qed.

Print Assumptions C30_array_labels_partial.
Print Assumptions C22_calculator_wins_partial.
Print Assumptions C66_iff_partial.
Print Assumptions C22_calculator_importance_partial.
Print Assumptions C81_exact_partial.
