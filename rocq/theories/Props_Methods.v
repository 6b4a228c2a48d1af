(** Properties C12-C22, C47, C62, C65 and C66 of the partial dependence based methods. *)
From Verif Require Import Py Num NumR Sorting Frame Rng PdCalc PdSpec PdFacts PdProofs PdTheorems PdErrors PdApi PdMethods MethodSpec
  PdMethodFacts PdMethodRun PdMethodReal PdMethodReal2 GreenwellFacts Props_Pd.
From Coq Require Import QArith Reals Lra.
Open Scope string_scope.
Open Scope nat_scope.
Open Scope list_scope.

(** ** Helpers *)
Lemma pos_lt {C} (X : frame C) p f : nth_error (f_cols X) p = Some f -> p < length (f_cols X).
Proof. intros H. apply nth_error_Some. congruence. Qed.
Lemma wf_rows {C} (X : frame C) : wf_frame X -> forall r, In r (f_rows X) -> length r = length (f_cols X).
Proof. intros (_ & H & _). rewrite Forall_forall in H. exact H. Qed.

Lemma Forall2_In_l {A B} (P : A -> B -> Prop) l l' : Forall2 P l l' -> forall x, In x l -> exists y, In y l' /\ P x y.
Proof. induction 1 as [|a b l l' Hab _ IH]; intros x []; [subst; eauto with datatypes|]. destruct (IH x) as (y & ? & ?); eauto with datatypes. Qed.
Lemma Forall2_In_r {A B} (P : A -> B -> Prop) l l' : Forall2 P l l' -> forall y, In y l' -> exists x, In x l /\ P x y.
Proof. induction 1 as [|a b l l' Hab _ IH]; intros y []; [subst; eauto with datatypes|]. destruct (IH y) as (x & ? & ?); eauto with datatypes. Qed.

Section Generic.
  Context {C V G : Type} (O : cell_ops C) (N : num_ops V) (HO : cell_ok O) (HN : num_ord_ok N)
          (H0 : n_isnan N (n_ofZ N 0) = false) (R : rng_ops G) (HR : rng_ok R) (srt : sorter) (Hs : sorter_ok srt).
  Notation fit := (fit O N R srt).
  Notation Hnan := (no_isnan_nan N HN).

  (** ** C12 *)
  Theorem C12_friedman_pairs norm s a s' g Xs :
    wf_frame (a_X a) -> fit (Friedman norm) s a = (s', Ok tt) -> m_X s' = Some Xs -> explains O N a g Xs ->
    exists t, m_ovo s' = Some t
      /\ Permutation (map fst t) (combinations2 (all_features a))
      /\ (forall f1 f2 v, In (f1, f2, v) t ->
            exists p q, nth_error (f_cols Xs) p = Some f1 /\ nth_error (f_cols Xs) q = Some f2 /\ p <> q
                        /\ v = or_zero N (H_pair N g (f_rows Xs) norm p q))
      /\ (forall r, In r t -> n_isnan N (snd r) = false).
  Proof.
    intros HX H HXs He. destruct (friedman_fit O N HO Hnan R HR srt norm s a s' g Xs HX H HXs He) as (HwX & _ & Hk & Eo & _).
    eexists. split; [exact Eo|]. split; [|split].
    - rewrite (table_keys N srt Hs HN), map_map. cbn. rewrite (map_ext _ (fun p => p)), map_id by (intros []; reflexivity). reflexivity.
    - intros f1 f2 v Hin. apply (table_In N srt Hs HN) in Hin as (x & Hx & ->).
      apply in_map_iff in Hx as ([e1 e2] & Ee & Hin2). unfold friedman_raw in Ee; cbn [fst snd] in Ee. injection Ee as -> -> <-.
      destruct (Hk f1 f2 Hin2) as (Hi1 & Hi2 & Hd). apply In_nth_error in Hi1 as (p & Hp). apply In_nth_error in Hi2 as (q & Hq).
      exists p, q. split; [exact Hp|]. split; [exact Hq|]. split; [congruence|].
      rewrite (posn_nth Xs p f1 HwX Hp), (posn_nth Xs q f2 HwX Hq). reflexivity.
    - intros [[f1 f2] v] Hin. eapply (table_no_nan N srt Hs HN); [exact H0|exact Hin].
  Qed.

  (** ** C13 *)
  Theorem C13_friedman_ova norm s a s' g Xs :
    wf_frame (a_X a) -> fit (Friedman norm) s a = (s', Ok tt) -> m_X s' = Some Xs -> explains O N a g Xs -> a_ova a = true ->
    exists t, m_ova s' = Some t
      /\ Permutation (map fst t) (all_features a)
      /\ (forall f v, In (f, v) t -> exists p, nth_error (f_cols Xs) p = Some f /\ v = or_zero N (H_all N g (f_rows Xs) norm p))
      /\ (forall r, In r t -> n_isnan N (snd r) = false).
  Proof.
    intros HX H HXs He Ho. destruct (friedman_fit O N HO Hnan R HR srt norm s a s' g Xs HX H HXs He) as (HwX & _ & _ & _ & Eo & Ei).
    destruct Ei as (c1 & c2 & fi & m & P & b & Hr1 & Hg & Ei & _).
    destruct (pdp_importance_spec O N HO Hnan srt Xs _ _ _ _ m P b g HwX Hg Hr1 Ei) as (l & _ & _ & _ & _ & Hin & _).
    rewrite Ho in Eo. eexists. split; [exact Eo|]. split; [|split].
    - rewrite (table_keys N srt Hs HN), map_map. cbn. rewrite map_id; reflexivity.
    - intros f v Hv. apply (table_In N srt Hs HN) in Hv as (x & Hx & ->).
      apply in_map_iff in Hx as (e & Ee & Hin2). unfold ova_raw in Ee. injection Ee as -> <-.
      specialize (Hin f Hin2). apply In_nth_error in Hin as (p & Hp).
      exists p. split; [exact Hp|]. rewrite (posn_nth Xs p f HwX Hp). reflexivity.
    - intros [f v] Hv. eapply (table_no_nan N srt Hs HN); [exact H0|exact Hv].
  Qed.

  (** ** C17, C19: the Greenwell table *)
  Lemma greenwell_fit s a s' g Xs :
    wf_frame (a_X a) -> fit Greenwell s a = (s', Ok tt) -> m_X s' = Some Xs -> explains O N a g Xs ->
    wf_frame Xs
    /\ known_pairs Xs (combinations2 (all_features a))
    /\ (exists l, Forall2 (fun p r => fst r = ordered Xs p /\ greenwell_raw O N Xs g (all_features a) p = Ok (snd r)) (combinations2 (all_features a)) l
              /\ m_ovo s' = Some (table N srt l))
    /\ exists c1 c2 fi m P b, reachable O N m Xs P b c1 /\ rowwise P g
         /\ pdp_importance O N srt Xs (all_features a) c1 = (c2, Ok fi) /\ m_fi s' = Some fi.
  Proof.
    intros HX H HXs Hex. apply fit_ok in H as (Xs' & rng' & c & c1 & t & c2 & fi & Es & Ec & Eo & Ei & E1 & E2 & E3 & E4 & E5 & E6).
    rewrite HXs in E1; injection E1 as <-.
    destruct (sample_wf R _ _ _ _ _ HR HX Es) as (HwX & _).
    destruct (explains_calc _ _ _ _ _ _ Hex Ec) as (m & P & b & Hr & Hg). cbn [ovo_of] in Eo.
    apply (greenwell_ovo_spec O N HO Hnan srt Xs _ _ _ _ _ m P b g HwX Hg Hr) in Eo as (Hr1 & r0 & E0 & He & A).
    destruct r0 as [[]|e]; [|specialize (He e eq_refl); discriminate].
    destruct (A eq_refl) as [Hk Hl]. split; [exact HwX|]. split; [exact Hk|]. split; [|eauto 12].
    destruct (mapM _ _) as [l|e] eqn:El; cbn [bind] in Hl; [|discriminate]. injection Hl as ->.
    exists l. split; [|exact E3]. apply mapM_Ok_inv in El. eapply Forall2_impl; [|exact El]. cbn beta. intros p r Hpr.
    destruct (greenwell_raw O N Xs g (all_features a) p) as [v|] eqn:Ev; cbn [bind] in Hpr; [|discriminate].
    injection Hpr as <-. auto.
  Qed.

  (** [fit] raises StatisticsError exactly when an included feature is constant *)
  Theorem C19_greenwell_constant_feature s a s' r g Xs rng' :
    wf_frame (a_X a) -> sample_if_not_none R (m_rng s) (a_X a) (a_n a) = Ok (Xs, rng') ->
    explains_total O N a g Xs -> complete O Xs -> f_rows Xs <> [] ->
    NoDup (all_features a) -> (forall f, In f (all_features a) -> In f (f_cols Xs)) -> 2 <= length (all_features a) ->
    fit Greenwell s a = (s', r) ->
    let constant f := forall p v u, nth_error (f_cols Xs) p = Some f -> In v (col_at p (f_rows Xs)) -> In u (col_at p (f_rows Xs)) -> v = u in
    (r = Err StatisticsError <-> exists f, In f (all_features a) /\ constant f)
    /\ ((forall f, In f (all_features a) -> ~ constant f) -> r = Ok tt)
    /\ (r = Err StatisticsError -> m_ovo s' = m_ovo s /\ m_fi s' = m_fi s).
  Proof.
    intros HX Es He Hc Hne Hnd Hin H2 H constant.
    pose proof (fit_run O N HO Hnan R HR srt Greenwell s a s' r g Xs rng' HX Es He Hc Hnd Hin H) as Hfit.
    destruct (sample_wf R _ _ _ _ _ HR HX Es) as (HwX & _).
    set (n f := length (np_unique O (col_at (posn Xs f) (f_rows Xs)))).
    assert (Hn : forall f, In f (all_features a) -> (n f < 2 <-> constant f)).
    { intros f Hf. pose proof (Hin f Hf) as Hi. apply In_nth_error in Hi as (p & Hp). unfold n. rewrite (posn_nth Xs p f HwX Hp).
      rewrite (unique_lt2 O HO) by (intros v Hv; eapply Hc; eassumption). unfold constant. split.
      - intros A p' v u Hp' Hv Hu. assert (p' = p) as ->; [|auto].
        { apply (posn_nth Xs p' f HwX) in Hp'. apply (posn_nth Xs p f HwX) in Hp. congruence. }
      - intros A v u Hv Hu. eapply A; eassumption. }
    assert (Hraw : forall p, In p (combinations2 (all_features a)) ->
       (2 <= n (fst p) /\ 2 <= n (snd p) -> exists v, greenwell_raw O N Xs g (all_features a) p = Ok v)
       /\ (n (fst p) < 2 \/ n (snd p) < 2 -> greenwell_raw O N Xs g (all_features a) p = Err StatisticsError)).
    { intros p Hp. apply combinations2_fst_snd in Hp as [A B]. apply greenwell_raw_cases; auto. }
    assert (Himp : exists fi, imp_val O N srt Xs g (all_features a) = Ok fi).
    { unfold imp_val. destruct (mapM_ok (fun f => do v <- imp_raw O N Xs g (all_features a) f; Ok (f, v)) (all_features a)) as (l & ->); [|cbn; eauto].
      intros f Hf. unfold imp_raw, calc_importance. destruct (is_numerical _ _ _); [cbn; eauto|].
      assert (Hgr : np_unique O (col_at (posn Xs f) (f_rows Xs)) <> []).
      { intros E. apply (proj1 (np_unique_nil O HO _)) in E. apply Hin in Hf. apply In_nth_error in Hf as (i & Hi). rewrite (posn_nth Xs i f HwX Hi) in E.
        destruct (f_rows Xs) as [|r1 t] eqn:Er; [congruence|].
        assert (Hr : i < length r1) by (apply (wf_len Xs i f r1 HwX Hi); rewrite Er; cbn; auto).
        unfold col_at in E. cbn [flat_map] in E. destruct (nth_error r1 i) eqn:Ei; [discriminate|]. apply nth_error_None in Ei. lia. }
      destruct (np_unique O _) as [|x t]; [congruence|]. cbn. eauto. }
    destruct Himp as (fi & Himp).
    assert (Hall : (forall f, In f (all_features a) -> 2 <= n f) -> r = Ok tt).
    { intros Hf. unfold fit_val, ovo_val in Hfit.
      destruct (mapM_ok (fun p => do v <- greenwell_raw O N Xs g (all_features a) p; Ok (ordered Xs p, v)) (combinations2 (all_features a))) as (l & El).
      { intros p Hp. destruct (Hraw p Hp) as [A _]. apply combinations2_fst_snd in Hp as [B1 B2]. destruct A as (v & ->); [auto|]. cbn; eauto. }
      rewrite El in Hfit. cbn [bind] in Hfit. rewrite Himp in Hfit. injection Hfit as -> _ _ _. reflexivity. }
    assert (Hsome : (exists f, In f (all_features a) /\ n f < 2) -> r = Err StatisticsError /\ m_ovo s' = m_ovo s /\ m_fi s' = m_fi s).
    { intros (f & Hf & Hlt). unfold fit_val, ovo_val in Hfit.
      destruct (mapM_ok_or_err (fun p => do v <- greenwell_raw O N Xs g (all_features a) p; Ok (ordered Xs p, v)) (combinations2 (all_features a)) StatisticsError) as [(l & El)|El].
      { intros p Hp. destruct (Hraw p Hp) as [A B]. destruct (Nat.lt_ge_cases (n (fst p)) 2); [rewrite B by auto; cbn; auto|].
        destruct (Nat.lt_ge_cases (n (snd p)) 2); [rewrite B by auto; cbn; auto|]. destruct A as (v & ->); [auto|]. cbn; eauto. }
      - exfalso. (* the feature occurs in a pair *)
        assert (Hp : exists f', In f' (all_features a) /\ f' <> f).
        { destruct (all_features a) as [|x [|y t]]; [cbn in H2; lia..|]. inversion Hnd as [|? ? Hni _]; subst.
          destruct (string_dec x f) as [->|Hx]; [exists y|exists x]; cbn; split; auto. intros ->. apply Hni; cbn; auto. }
        destruct Hp as (f' & Hf' & Hd).
        assert (Hp : exists p, In p (combinations2 (all_features a)) /\ (n (fst p) < 2 \/ n (snd p) < 2)).
        { destruct (combinations2_complete (all_features a) f f' Hf Hf' (not_eq_sym Hd)) as [Hi|Hi]; eexists; split; [exact Hi|auto|exact Hi|auto]. }
        destruct Hp as (p & Hp & Hbad). destruct (Hraw p Hp) as [_ B]. specialize (B Hbad).
        apply mapM_Ok_inv in El. apply (Forall2_In_l _ _ _ El) in Hp as (y & _ & Hy). rewrite B in Hy. discriminate.
      - rewrite El in Hfit. cbn [bind] in Hfit. injection Hfit as -> -> -> _. auto. }
    assert (Hdec : (forall f, In f (all_features a) -> 2 <= n f) \/ (exists f, In f (all_features a) /\ n f < 2)).
    { clear. induction (all_features a) as [|x t IH]; [left; intros f []|]. destruct (Nat.lt_ge_cases (n x) 2); [right; exists x; cbn; auto|].
      destruct IH as [IH|(f & Hf & Hl)]; [left; intros f [<-|Hf]; auto|right; exists f; cbn; auto]. }
    split; [|split].
    - split.
      + intros ->. destruct Hdec as [Hd|(f & Hf & Hl)]; [specialize (Hall Hd); discriminate|]. exists f. split; [exact Hf|]. apply Hn; assumption.
      + intros (f & Hf & Hcon). apply Hsome. exists f. split; [exact Hf|]. apply Hn; assumption.
    - intros Hno. apply Hall. intros f Hf. destruct (Nat.lt_ge_cases (n f) 2) as [Hl|]; [|assumption]. apply Hn in Hl; [|assumption]. destruct (Hno f Hf Hl).
    - intros ->. destruct Hdec as [Hd|Hd]; [specialize (Hall Hd); discriminate|]. apply Hsome in Hd. tauto.
  Qed.
End Generic.

(** ** The values over the reals *)
Section Real.
  Context {C G : Type} (O : cell_ops C) (HO : cell_ok O) (R : rng_ops G) (HR : rng_ok R) (srt : sorter) (Hs : sorter_ok srt).
  Notation fit := (fit O xR R srt).
  Notation "'fin' h" := (fun r => Fin (h r)) (at level 10, only parsing).
  Notation Hnan := (no_isnan_nan xR xR_ord).
  Notation descending t := (StronglySorted (fun a b => n_ltb xR (snd a) (snd b) = false) t).

  Lemma x0 : n_isnan xR (n_ofZ xR 0) = false.
  Proof. reflexivity. Qed.
  Lemma or_zero_nonneg v : xnn v -> or_zero xR v = PInf \/ exists x, or_zero xR v = Fin x /\ (0 <= x)%R.
  Proof.
    intros H. unfold or_zero. destruct v as [x| | |]; cbn [n_isnan xR ext_ops]; [right; exists x; split; [reflexivity|apply xnn_fin, H]|auto|discriminate|].
    right. exists 0%R. split; [reflexivity|lra].
  Qed.

  Theorem C12_friedman_order norm s a s' g Xs :
    wf_frame (a_X a) -> fit (Friedman norm) s a = (s', Ok tt) -> m_X s' = Some Xs -> explains O xR a g Xs ->
    exists t, m_ovo s' = Some t /\ descending t.
  Proof.
    intros HX H HXs He. destruct (friedman_fit O xR HO Hnan R HR srt norm s a s' g Xs HX H HXs He) as (_ & _ & _ & Eo & _).
    eexists. split; [exact Eo|]. apply (table_sorted xR srt Hs xR_ord). intros r Hr. right.
    apply in_map_iff in Hr as (p & <- & _). apply H_value_nonneg.
  Qed.

  Theorem C13_friedman_ova_order norm s a s' g Xs :
    wf_frame (a_X a) -> fit (Friedman norm) s a = (s', Ok tt) -> m_X s' = Some Xs -> explains O xR a g Xs -> a_ova a = true ->
    exists t, m_ova s' = Some t /\ descending t.
  Proof.
    intros HX H HXs He Ho. destruct (friedman_fit O xR HO Hnan R HR srt norm s a s' g Xs HX H HXs He) as (_ & _ & _ & _ & Eo & _).
    rewrite Ho in Eo. eexists. split; [exact Eo|]. apply (table_sorted xR srt Hs xR_ord). intros r Hr. right.
    apply in_map_iff in Hr as (p & <- & _). apply H_value_nonneg.
  Qed.

  (** ** C14 *)
  Theorem C14_no_interaction_pair norm s a s' h Xs t f1 f2 v p q :
    wf_frame (a_X a) -> fit (Friedman norm) s a = (s', Ok tt) -> m_X s' = Some Xs -> explains O xR a (fin h) Xs ->
    m_ovo s' = Some t -> In (f1, f2, v) t ->
    nth_error (f_cols Xs) p = Some f1 -> nth_error (f_cols Xs) q = Some f2 ->
    additive_pair (length (f_cols Xs)) h p q -> v = Fin 0%R.
  Proof.
    intros HX H HXs He Ht Hv Hp Hq Hadd.
    destruct (friedman_fit O xR HO Hnan R HR srt norm s a s' _ Xs HX H HXs He) as (HwX & _).
    destruct (C12_friedman_pairs O xR HO xR_ord x0 R HR srt Hs norm s a s' _ Xs HX H HXs He) as (t' & Ht' & _ & Hval & _).
    rewrite Ht in Ht'; injection Ht' as <-. destruct (Hval f1 f2 v Hv) as (p' & q' & Hp' & Hq' & Hpq & ->).
    pose proof (posn_nth Xs p f1 HwX Hp) as E1. pose proof (posn_nth Xs q f2 HwX Hq) as E2.
    rewrite (posn_nth Xs p' f1 HwX Hp') in E1. rewrite (posn_nth Xs q' f2 HwX Hq') in E2. subst p' q'.
    apply (H_pair_zero (f_rows Xs) (length (f_cols Xs)) (wf_rows Xs HwX) h norm p q Hpq (pos_lt Xs p f1 Hp) (pos_lt Xs q f2 Hq) Hadd).
  Qed.

  Theorem C14_no_interaction_ova norm s a s' h Xs t f v p :
    wf_frame (a_X a) -> fit (Friedman norm) s a = (s', Ok tt) -> m_X s' = Some Xs -> explains O xR a (fin h) Xs -> a_ova a = true ->
    m_ova s' = Some t -> In (f, v) t -> nth_error (f_cols Xs) p = Some f ->
    additive_all (length (f_cols Xs)) h p -> v = Fin 0%R.
  Proof.
    intros HX H HXs He Ho Ht Hv Hp Hadd.
    destruct (friedman_fit O xR HO Hnan R HR srt norm s a s' _ Xs HX H HXs He) as (HwX & _).
    destruct (C13_friedman_ova O xR HO xR_ord x0 R HR srt Hs norm s a s' _ Xs HX H HXs He Ho) as (t' & Ht' & _ & Hval & _).
    rewrite Ht in Ht'; injection Ht' as <-. destruct (Hval f v Hv) as (p' & Hp' & ->).
    pose proof (posn_nth Xs p f HwX Hp) as E1. rewrite (posn_nth Xs p' f HwX Hp') in E1. subst p'.
    apply (H_all_zero (f_rows Xs) (length (f_cols Xs)) (wf_rows Xs HwX) h norm p (pos_lt Xs p f Hp) Hadd).
  Qed.

  (** ** C15 *)
  Theorem C15_nonnegative norm s a s' g Xs :
    wf_frame (a_X a) -> fit (Friedman norm) s a = (s', Ok tt) -> m_X s' = Some Xs -> explains O xR a g Xs ->
    (forall t f1 f2 v, m_ovo s' = Some t -> In (f1, f2, v) t -> v = PInf \/ exists x, v = Fin x /\ (0 <= x)%R)
    /\ (forall t f v, a_ova a = true -> m_ova s' = Some t -> In (f, v) t -> v = PInf \/ exists x, v = Fin x /\ (0 <= x)%R).
  Proof.
    intros HX H HXs He. split.
    - intros t f1 f2 v Ht Hv.
      destruct (C12_friedman_pairs O xR HO xR_ord x0 R HR srt Hs norm s a s' _ Xs HX H HXs He) as (t' & Ht' & _ & Hval & _).
      rewrite Ht in Ht'; injection Ht' as <-. destruct (Hval f1 f2 v Hv) as (p & q & _ & _ & _ & ->).
      apply or_zero_nonneg, H_value_nonneg.
    - intros t f v Ho Ht Hv.
      destruct (C13_friedman_ova O xR HO xR_ord x0 R HR srt Hs norm s a s' _ Xs HX H HXs He Ho) as (t' & Ht' & _ & Hval & _).
      rewrite Ht in Ht'; injection Ht' as <-. destruct (Hval f v Hv) as (p & _ & ->). apply or_zero_nonneg, H_value_nonneg.
  Qed.

  (** the value of a pair does not depend on the order in which its features are listed *)
  Theorem C15_symmetric norm s1 a1 s1' s2 a2 s2' g Xs t1 t2 f1 f2 v1 v2 :
    wf_frame (a_X a1) -> wf_frame (a_X a2) ->
    fit (Friedman norm) s1 a1 = (s1', Ok tt) -> m_X s1' = Some Xs -> explains O xR a1 g Xs ->
    fit (Friedman norm) s2 a2 = (s2', Ok tt) -> m_X s2' = Some Xs -> explains O xR a2 g Xs ->
    m_ovo s1' = Some t1 -> m_ovo s2' = Some t2 ->
    In (f1, f2, v1) t1 -> In (f2, f1, v2) t2 -> v1 = v2.
  Proof.
    intros HX1 HX2 H1 HXs1 He1 H2 HXs2 He2 Ht1 Ht2 Hv1 Hv2.
    destruct (friedman_fit O xR HO Hnan R HR srt norm s1 a1 s1' _ Xs HX1 H1 HXs1 He1) as (HwX & _).
    destruct (C12_friedman_pairs O xR HO xR_ord x0 R HR srt Hs norm s1 a1 s1' _ Xs HX1 H1 HXs1 He1) as (t & Ht & _ & Hval1 & _).
    rewrite Ht1 in Ht; injection Ht as <-.
    destruct (C12_friedman_pairs O xR HO xR_ord x0 R HR srt Hs norm s2 a2 s2' _ Xs HX2 H2 HXs2 He2) as (t & Ht & _ & Hval2 & _).
    rewrite Ht2 in Ht; injection Ht as <-.
    destruct (Hval1 _ _ _ Hv1) as (p & q & Hp & Hq & Hpq & ->). destruct (Hval2 _ _ _ Hv2) as (q' & p' & Hq' & Hp' & _ & ->).
    apply (posn_nth Xs _ _ HwX) in Hp' as <-. apply (posn_nth Xs _ _ HwX) in Hq' as <-.
    rewrite (posn_nth Xs p f1 HwX Hp), (posn_nth Xs q f2 HwX Hq). f_equal.
    apply (H_pair_swap g (f_rows Xs) norm p q (length (f_cols Xs)) (wf_rows Xs HwX) Hpq (pos_lt Xs p f1 Hp) (pos_lt Xs q f2 Hq)).
  Qed.

  (** predictions [h'] = c*h + k *)
  Theorem C15_affine norm s1 a1 s1' s2 a2 s2' h h' c k Xs :
    wf_frame (a_X a1) -> wf_frame (a_X a2) ->
    fit (Friedman norm) s1 a1 = (s1', Ok tt) -> m_X s1' = Some Xs -> explains O xR a1 (fin h) Xs ->
    fit (Friedman norm) s2 a2 = (s2', Ok tt) -> m_X s2' = Some Xs -> explains O xR a2 (fin h') Xs ->
    (c <> 0)%R -> (forall r, length r = length (f_cols Xs) -> h' r = c * h r + k)%R ->
    (forall t1 t2 f1 f2 v1 v2, m_ovo s1' = Some t1 -> m_ovo s2' = Some t2 -> In (f1, f2, v1) t1 -> In (f1, f2, v2) t2 ->
       v2 = if norm then v1 else n_mul xR (Fin (Rabs c)) v1)
    /\ (a_ova a1 = true -> a_ova a2 = true ->
        forall t1 t2 f v1 v2, m_ova s1' = Some t1 -> m_ova s2' = Some t2 -> In (f, v1) t1 -> In (f, v2) t2 ->
        v2 = if norm then v1 else n_mul xR (Fin (Rabs c)) v1).
  Proof.
    intros HX1 HX2 H1 HXs1 He1 H2 HXs2 He2 Hc Hh.
    destruct (friedman_fit O xR HO Hnan R HR srt norm s1 a1 s1' _ Xs HX1 H1 HXs1 He1) as (HwX & _). split.
    - intros t1 t2 f1 f2 v1 v2 Ht1 Ht2 Hv1 Hv2.
      destruct (C12_friedman_pairs O xR HO xR_ord x0 R HR srt Hs norm s1 a1 s1' _ Xs HX1 H1 HXs1 He1) as (t & Ht & _ & Hval1 & _).
      rewrite Ht1 in Ht; injection Ht as <-.
      destruct (C12_friedman_pairs O xR HO xR_ord x0 R HR srt Hs norm s2 a2 s2' _ Xs HX2 H2 HXs2 He2) as (t & Ht & _ & Hval2 & _).
      rewrite Ht2 in Ht; injection Ht as <-.
      destruct (Hval1 _ _ _ Hv1) as (p & q & Hp & Hq & Hpq & ->). destruct (Hval2 _ _ _ Hv2) as (p' & q' & Hp' & Hq' & _ & ->).
      apply (posn_nth Xs _ _ HwX) in Hp' as <-. apply (posn_nth Xs _ _ HwX) in Hq' as <-.
      rewrite (posn_nth Xs p f1 HwX Hp), (posn_nth Xs q f2 HwX Hq).
      apply (H_pair_affine (f_rows Xs) (length (f_cols Xs)) (wf_rows Xs HwX) h h' c k Hh norm p q Hc (pos_lt Xs p f1 Hp) (pos_lt Xs q f2 Hq)).
    - intros Ho1 Ho2 t1 t2 f v1 v2 Ht1 Ht2 Hv1 Hv2.
      destruct (C13_friedman_ova O xR HO xR_ord x0 R HR srt Hs norm s1 a1 s1' _ Xs HX1 H1 HXs1 He1 Ho1) as (t & Ht & _ & Hval1 & _).
      rewrite Ht1 in Ht; injection Ht as <-.
      destruct (C13_friedman_ova O xR HO xR_ord x0 R HR srt Hs norm s2 a2 s2' _ Xs HX2 H2 HXs2 He2 Ho2) as (t & Ht & _ & Hval2 & _).
      rewrite Ht2 in Ht; injection Ht as <-.
      destruct (Hval1 _ _ Hv1) as (p & Hp & ->). destruct (Hval2 _ _ Hv2) as (p' & Hp' & ->).
      apply (posn_nth Xs _ _ HwX) in Hp' as <-. rewrite (posn_nth Xs p f HwX Hp).
      apply (H_all_affine (f_rows Xs) (length (f_cols Xs)) (wf_rows Xs HwX) h h' c k Hh norm p Hc (pos_lt Xs p f Hp)).
  Qed.

  (** ** C16: the bound holds when the two columns are empirically independent *)
  Theorem C16_bounded_partial s a s' h Xs t f1 f2 v p q :
    wf_frame (a_X a) -> fit (Friedman true) s a = (s', Ok tt) -> m_X s' = Some Xs -> explains O xR a (fin h) Xs ->
    m_ovo s' = Some t -> In (f1, f2, v) t ->
    nth_error (f_cols Xs) p = Some f1 -> nth_error (f_cols Xs) q = Some f2 ->
    independent (f_rows Xs) p -> independent (f_rows Xs) q ->
    exists x, v = Fin x /\ (0 <= x <= 1)%R.
  Proof.
    intros HX H HXs He Ht Hv Hp Hq Ip Iq.
    destruct (friedman_fit O xR HO Hnan R HR srt true s a s' _ Xs HX H HXs He) as (HwX & _).
    destruct (C12_friedman_pairs O xR HO xR_ord x0 R HR srt Hs true s a s' _ Xs HX H HXs He) as (t' & Ht' & _ & Hval & _).
    rewrite Ht in Ht'; injection Ht' as <-. destruct (Hval f1 f2 v Hv) as (p' & q' & Hp' & Hq' & Hpq & ->).
    pose proof (posn_nth Xs p f1 HwX Hp) as E1. pose proof (posn_nth Xs q f2 HwX Hq) as E2.
    rewrite (posn_nth Xs p' f1 HwX Hp') in E1. rewrite (posn_nth Xs q' f2 HwX Hq') in E2. subst p' q'.
    apply (H_pair_le_1 (f_rows Xs) (length (f_cols Xs)) (wf_rows Xs HwX) h p q Hpq (pos_lt Xs p f1 Hp) (pos_lt Xs q f2 Hq) Ip Iq).
  Qed.

  (** ** C17 *)
  Notation values X p := (np_unique O (col_at p (f_rows X))).

  Lemma greenwell_raw_real X h fs (pr : string * string) v :
    wf_frame X -> In (fst pr) (f_cols X) -> In (snd pr) (f_cols X) -> fst pr <> snd pr ->
    greenwell_raw O xR X (fin h) fs pr = Ok v ->
    exists p q, nth_error (f_cols X) p = Some (fst (ordered X pr)) /\ nth_error (f_cols X) q = Some (snd (ordered X pr)) /\ p < q
      /\ 2 <= length (values X p) /\ 2 <= length (values X q)
      /\ v = Fin (Rgreenwell (is_numerical X fs (fst (ordered X pr))) (is_numerical X fs (snd (ordered X pr)))
                             (PD2 Rmean h (f_rows X) p q) (values X p) (values X q)).
  Proof.
    intros HX H1 H2 Hne H.
    assert (Hrows : f_rows X <> []).
    { intros E. unfold greenwell_raw, gmat, greenwell_value in H. rewrite E in H. cbn [col_at flat_map] in H.
      cbn in H. discriminate. }
    destruct (greenwell_raw_cases O xR HO X (fin h) fs pr HX Hrows H1 H2) as [_ B].
    apply In_nth_error in H1 as (i & Hi). apply In_nth_error in H2 as (j & Hj).
    assert (Hij : i <> j) by congruence.
    assert (Hl : 2 <= length (values X i) /\ 2 <= length (values X j)).
    { rewrite (posn_nth X i _ HX Hi), (posn_nth X j _ HX Hj) in B.
      destruct (Nat.lt_ge_cases (length (values X i)) 2); [rewrite B in H by auto; discriminate|].
      destruct (Nat.lt_ge_cases (length (values X j)) 2); [rewrite B in H by auto; discriminate|]. auto. }
    assert (Hord : exists p q, nth_error (f_cols X) p = Some (fst (ordered X pr)) /\ nth_error (f_cols X) q = Some (snd (ordered X pr)) /\ p < q
                    /\ 2 <= length (values X p) /\ 2 <= length (values X q)).
    { unfold ordered. rewrite (posn_nth X i _ HX Hi), (posn_nth X j _ HX Hj).
      destruct (Nat.ltb_spec i j); [exists i, j|exists j, i]; cbn [fst snd]; repeat split; try tauto; lia. }
    destruct Hord as (p & q & Hp & Hq & Hpq & L1 & L2). exists p, q. split; [exact Hp|]. split; [exact Hq|]. split; [exact Hpq|]. split; [exact L1|]. split; [exact L2|].
    unfold greenwell_raw in H. cbv zeta in H. rewrite (posn_nth X p _ HX Hp), (posn_nth X q _ HX Hq) in H.
    unfold gmat in H.
    rewrite (map_ext _ (fun v => map (fun u => Fin (PD2 Rmean h (f_rows X) p q v u)) (values X q))) in H.
    2:{ intros a. apply map_ext. intros b. eapply (PD2_fin _ _ (wf_rows X HX)), Hrows. }
    rewrite greenwell_value_fin in H by assumption. injection H as <-. reflexivity.
  Qed.

  Theorem C17_greenwell_pairs s a s' h Xs :
    wf_frame (a_X a) -> fit Greenwell s a = (s', Ok tt) -> m_X s' = Some Xs -> explains O xR a (fin h) Xs ->
    exists t, m_ovo s' = Some t
      (* one row per pair, named in column order *)
      /\ (exists keys, Permutation (map fst t) keys
            /\ Forall2 (fun pr key => key = pr \/ key = (snd pr, fst pr)) (combinations2 (all_features a)) keys)
      /\ (forall f1 f2 v, In (f1, f2, v) t ->
            exists p q, nth_error (f_cols Xs) p = Some f1 /\ nth_error (f_cols Xs) q = Some f2 /\ p < q
              /\ 2 <= length (values Xs p) /\ 2 <= length (values Xs q)
              /\ v = Fin (Rgreenwell (str_in f1 (f_num Xs)) (str_in f2 (f_num Xs)) (PD2 Rmean h (f_rows Xs) p q) (values Xs p) (values Xs q)))
      /\ descending t.
  Proof.
    intros HX H HXs He. destruct (greenwell_fit O xR HO xR_ord R HR srt s a s' _ Xs HX H HXs He) as (HwX & Hk & (l & Hl & Eo) & _).
    assert (Hval : forall f1 f2 v, In (f1, f2, v) l -> exists p q, nth_error (f_cols Xs) p = Some f1 /\ nth_error (f_cols Xs) q = Some f2 /\ p < q
              /\ 2 <= length (values Xs p) /\ 2 <= length (values Xs q)
              /\ v = Fin (Rgreenwell (str_in f1 (f_num Xs)) (str_in f2 (f_num Xs)) (PD2 Rmean h (f_rows Xs) p q) (values Xs p) (values Xs q))).
    { intros f1 f2 v Hv. apply (Forall2_In_r _ _ _ Hl) in Hv as (pr & Hin & Eq & Hraw). cbn [fst snd] in Eq, Hraw.
      destruct (Hk pr Hin) as (H1 & H2 & Hd).
      destruct (greenwell_raw_real Xs h _ pr v HwX H1 H2 Hd Hraw) as (p & q & Hp & Hq & Hpq & L1 & L2 & ->).
      assert (Hins : In f1 (all_features a) /\ In f2 (all_features a)).
      { apply combinations2_fst_snd in Hin. unfold ordered in Eq. destruct (_ <? _); [destruct pr|]; injection Eq as -> ->; tauto. }
      rewrite <- Eq in *. cbn [fst snd] in *. exists p, q. unfold is_numerical.
      replace (str_in f1 (all_features a)) with true by (symmetry; apply str_in_In; tauto).
      replace (str_in f2 (all_features a)) with true by (symmetry; apply str_in_In; tauto).
      cbn [andb]. auto 10. }
    eexists. split; [exact Eo|]. split; [|split].
    - exists (map fst l). split; [apply (table_keys xR srt Hs xR_ord)|]. 
      assert (Hl' : Forall2 (fun pr r => fst r = ordered Xs pr) (combinations2 (all_features a)) l) by (eapply Forall2_impl; [|exact Hl]; cbn; tauto).
      clear -Hl'. induction Hl' as [|pr r ps l E _ IH]; cbn; [constructor|]. constructor; [|exact IH].
      rewrite E. unfold ordered. destruct (_ <? _); auto.
    - intros f1 f2 v Hv. apply (table_In xR srt Hs xR_ord) in Hv as (w & Hw & ->). destruct (Hval _ _ _ Hw) as (p & q & Hp & Hq & Hpq & L1 & L2 & ->).
      exists p, q. cbn [fillna0 n_isnan xR ext_ops]. auto 10.
    - apply (table_sorted xR srt Hs xR_ord). intros [[f1 f2] v] Hin. right. apply (Forall2_In_r _ _ _ Hl) in Hin as (pr & _ & _ & Hraw).
      eapply greenwell_value_nonneg, Hraw.
  Qed.

  (** ** C18 *)
  Lemma Rmaxmin l : (Rminl l <= Rmaxl l)%R.
  Proof.
    destruct l as [|x t]; cbn [Rminl Rmaxl]; [lra|].
    assert (A : forall t y z, (y <= z)%R -> (fold_left Rmin t y <= fold_left Rmax t z)%R).
    { clear. induction t as [|b t IH]; intros y z Hyz; cbn; [exact Hyz|]. apply IH. pose proof (Rmin_l y b). pose proof (Rmax_l z b). lra. }
    apply A; lra.
  Qed.

  Theorem C18_greenwell_zero s a s' h Xs t f1 f2 v p q :
    wf_frame (a_X a) -> fit Greenwell s a = (s', Ok tt) -> m_X s' = Some Xs -> explains O xR a (fin h) Xs ->
    m_ovo s' = Some t -> In (f1, f2, v) t ->
    nth_error (f_cols Xs) p = Some f1 -> nth_error (f_cols Xs) q = Some f2 ->
    additive_pair (length (f_cols Xs)) h p q -> v = Fin 0%R.
  Proof.
    intros HX H HXs He Ht Hv Hp Hq (fa & fb & Hh & Ha & Hb).
    destruct (greenwell_fit O xR HO xR_ord R HR srt s a s' _ Xs HX H HXs He) as (HwX & _).
    destruct (C17_greenwell_pairs s a s' h Xs HX H HXs He) as (t' & Ht' & _ & Hval & _).
    rewrite Ht in Ht'; injection Ht' as <-. destruct (Hval f1 f2 v Hv) as (p' & q' & Hp' & Hq' & Hpq & _ & _ & ->).
    pose proof (posn_nth Xs p f1 HwX Hp) as E1. pose proof (posn_nth Xs q f2 HwX Hq) as E2.
    rewrite (posn_nth Xs p' f1 HwX Hp') in E1. rewrite (posn_nth Xs q' f2 HwX Hq') in E2. subst p' q'. f_equal.
    apply (Rgreenwell_zero _ _ _ (fun x => PD1 Rmean fb (f_rows Xs) p x) (fun u => PD1 Rmean fa (f_rows Xs) q u)).
    intros x u _ _.
    destruct (additive_PD2 (f_rows Xs) (length (f_cols Xs)) (wf_rows Xs HwX) h p q x u) with (a := fa) (b := fb) as [E _]; auto; [lia|eapply pos_lt; eassumption|eapply pos_lt; eassumption|].
    rewrite E. lra.
  Qed.

  Theorem C18_greenwell_nonnegative s a s' h Xs t f1 f2 v :
    wf_frame (a_X a) -> fit Greenwell s a = (s', Ok tt) -> m_X s' = Some Xs -> explains O xR a (fin h) Xs ->
    m_ovo s' = Some t -> In (f1, f2, v) t -> exists x, v = Fin x /\ (0 <= x)%R.
  Proof.
    intros HX H HXs He Ht Hv. destruct (C17_greenwell_pairs s a s' h Xs HX H HXs He) as (t' & Ht' & _ & Hval & _).
    rewrite Ht in Ht'; injection Ht' as <-. destruct (Hval f1 f2 v Hv) as (p' & q' & _ & _ & _ & _ & _ & ->).
    eexists. split; [reflexivity|]. unfold Rgreenwell.
    match goal with |- (0 <= (Rstdev ?a + Rstdev ?b) / 2)%R => pose proof (Rstdev_nonneg a); pose proof (Rstdev_nonneg b); lra end.
  Qed.

  (** ** C20 *)
  Lemma importance_table X fs c c' t m P b h :
    wf_frame X -> rowwise P (fin h) -> reachable O xR m X P b c -> pdp_importance O xR srt X fs c = (c', Ok t) ->
    Permutation (map fst t) fs
    /\ (forall f v, In (f, v) t -> exists p, nth_error (f_cols X) p = Some f
          /\ v = Fin (Rspread (str_in f (f_num X)) (map (PD1 Rmean h (f_rows X) p) (values X p))))
    /\ descending t.
  Proof.
    intros HX Hg Hr H. destruct (pdp_importance_spec O xR HO Hnan srt X fs c c' t m P b _ HX Hg Hr H) as (l & -> & Hkeys & _ & _ & Hin & Hl).
    split; [rewrite (table_keys xR srt Hs xR_ord), Hkeys; reflexivity|]. split.
    - intros f v Hv. apply (table_In xR srt Hs xR_ord) in Hv as (w & Hw & ->). apply (Forall2_In_r _ _ _ Hl) in Hw as (f' & Hf' & Ef & Hc).
      cbn [fst snd] in Ef, Hc. subst f'. specialize (Hin f Hf'). apply In_nth_error in Hin as (p & Hp). exists p. split; [exact Hp|].
      rewrite (posn_nth X p f HX Hp) in Hc. unfold is_numerical in Hc. replace (str_in f fs) with true in Hc by (symmetry; apply str_in_In, Hf'). cbn [andb] in Hc.
      destruct (values X p) as [|x0 t0] eqn:Ev.
      + cbn [map] in *. unfold calc_importance in Hc. destruct (str_in f (f_num X)); [|cbn in Hc; discriminate].
        assert (E0 : np_std xR [] = NaN) by (unfold np_std; cbn [center map]; rewrite xR_mean_nil; reflexivity). rewrite E0 in Hc. assert (w = NaN) by congruence. subst w. change (fillna0 xR NaN) with (@Fin Rdefinitions.R 0%R).
        f_equal. unfold Rspread, Rstd, Rmean. cbn [map Rcenter]. rewrite Rsum_nil. unfold Rdiv. rewrite Rmult_0_l, sqrt_0. reflexivity.
      + rewrite <- Ev in *. assert (Hrows : f_rows X <> []) by (intros E; rewrite E in Ev; discriminate).
        rewrite (map_ext _ (fun v => Fin (PD1 Rmean h (f_rows X) p v))) in Hc by (intros y; eapply (PD1_fin _ _ (wf_rows X HX)), Hrows).
        rewrite <- (map_map (PD1 Rmean h (f_rows X) p) Fin) in Hc. rewrite calc_importance_fin in Hc.
        * injection Hc as <-. reflexivity.
        * rewrite Ev. discriminate.
    - apply (table_sorted xR srt Hs xR_ord). intros [f v] Hv. right. apply (Forall2_In_r _ _ _ Hl) in Hv as (f' & _ & _ & Hc).
      eapply calc_importance_nonneg, Hc.
  Qed.

  Lemma Rspread_nonneg num l : (0 <= Rspread num l)%R.
  Proof. unfold Rspread. destruct num; [apply sqrt_pos|]. pose proof (Rmaxmin l); lra. Qed.

  (** the direct call; the calculator is the caller's or a new one *)
  Theorem C20_importance rng md X n pf features bs given c' t h :
    wf_frame X -> rowwise (callable (get_predict_function md pf)) (fin h) ->
    match given with
    | None => True
    | Some c => exists m P b, reachable O xR m (c_X c) P b c /\ rowwise P (fin h)
    end ->
    (forall x y, c_isnan O x = true -> c_isnan O y = true -> x = y) ->
    pd_importance O xR R srt rng md X n pf features bs given = (c', Ok t) ->
    exists Xs rng', sample_if_not_none R rng X n = Ok (Xs, rng')
      /\ Permutation (map fst t) (match features with None => f_cols X | Some l => l end)
      /\ (forall f v, In (f, v) t -> exists p, nth_error (f_cols Xs) p = Some f
            /\ v = Fin (Rspread (str_in f (f_num Xs)) (map (PD1 Rmean h (f_rows Xs) p) (values Xs p))))
      /\ descending t
      /\ (forall f v, In (f, v) t -> exists x, v = Fin x /\ (0 <= x)%R)
      /\ (forall f v p, In (f, v) t -> nth_error (f_cols Xs) p = Some f -> ignores (length (f_cols Xs)) h p -> v = Fin 0%R).
  Proof.
    intros HX Hpf Hgiven Hnu H. unfold pd_importance in H.
    destruct (sample_if_not_none R rng X n) as [[Xs rng']|e] eqn:Es; [|discriminate]. exists Xs, rng'. split; [reflexivity|].
    destruct (sample_wf R _ _ _ _ _ HR HX Es) as (HwX & _).
    destruct (pick_calc O xR md Xs (get_predict_function md pf) bs given) as [c|e] eqn:Ec; [|discriminate].
    destruct (pdp_importance O xR srt Xs (match features with None => f_cols X | Some l => l end) c) as [c2 r] eqn:Ei.
    injection H as _ ->.
    assert (Hr : exists m P b, reachable O xR m Xs P b c /\ rowwise P (fin h)).
    { unfold pick_calc in Ec. destruct given as [c0|].
      - destruct (negb (c_model c0 =? md_id md)); [discriminate|]. destruct (frame_equals O (c_X c0) Xs) eqn:Ef; [|discriminate].
        injection Ec as <-. apply (frame_equals_eq O HO) in Ef; [|exact Hnu]. rewrite <- Ef. exact Hgiven.
      - injection Ec as <-. exists (md_id md), (callable (get_predict_function md pf)), bs. split; [exists []; reflexivity|exact Hpf]. }
    destruct Hr as (m & P & b & Hr & Hg).
    destruct (importance_table Xs _ c c2 t m P b h HwX Hg Hr Ei) as (Hp & Hval & Hd).
    split; [exact Hp|]. split; [exact Hval|]. split; [exact Hd|]. split.
    - intros f v Hv. destruct (Hval f v Hv) as (p & _ & ->). eexists. split; [reflexivity|apply Rspread_nonneg].
    - intros f v p Hv Hpf' Hig. destruct (Hval f v Hv) as (p' & Hp' & ->). f_equal.
      pose proof (posn_nth Xs p f HwX Hpf') as E1. rewrite (posn_nth Xs p' f HwX Hp') in E1. subst p'.
      rewrite (map_ext _ (fun _ => Rmean (map h (f_rows Xs)))); [apply Rspread_const|].
      intros u. unfold PD1. apply Rmean_map_ext. intros r Hr1. apply Hig, (wf_rows Xs HwX), Hr1.
  Qed.

  (** the importance reported by a fitted method *)
  Theorem C20_fit_importance k s a s' h Xs :
    wf_frame (a_X a) -> fit k s a = (s', Ok tt) -> m_X s' = Some Xs -> explains O xR a (fin h) Xs ->
    exists t, m_fi s' = Some t
      /\ Permutation (map fst t) (all_features a)
      /\ (forall f v, In (f, v) t -> exists p, nth_error (f_cols Xs) p = Some f
            /\ v = Fin (Rspread (str_in f (f_num Xs)) (map (PD1 Rmean h (f_rows Xs) p) (values Xs p))))
      /\ descending t.
  Proof.
    intros HX H HXs He.
    assert (A : wf_frame Xs /\ exists c1 c2 fi m P b, reachable O xR m Xs P b c1 /\ rowwise P (fin h)
         /\ pdp_importance O xR srt Xs (all_features a) c1 = (c2, Ok fi) /\ m_fi s' = Some fi).
    { destruct k as [norm|].
      - destruct (friedman_fit O xR HO Hnan R HR srt norm s a s' _ Xs HX H HXs He) as (HwX & _ & _ & _ & _ & A); auto.
      - destruct (greenwell_fit O xR HO xR_ord R HR srt s a s' _ Xs HX H HXs He) as (HwX & _ & _ & A); auto. }
    destruct A as (HwX & c1 & c2 & fi & m & P & b & Hr & Hg & Ei & Efi). exists fi. split; [exact Efi|].
    exact (importance_table Xs _ c1 c2 fi m P b h HwX Hg Hr Ei).
  Qed.
End Real.

Print Assumptions C12_friedman_pairs.
Print Assumptions C13_friedman_ova.
Print Assumptions C19_greenwell_constant_feature.
Print Assumptions C12_friedman_order.
Print Assumptions C13_friedman_ova_order.
Print Assumptions C14_no_interaction_pair.
Print Assumptions C14_no_interaction_ova.
Print Assumptions C15_nonnegative.
Print Assumptions C15_symmetric.
Print Assumptions C15_affine.
Print Assumptions C16_bounded_partial.
Print Assumptions C17_greenwell_pairs.
Print Assumptions C18_greenwell_zero.
Print Assumptions C18_greenwell_nonnegative.
Print Assumptions C20_importance.
Print Assumptions C20_fit_importance.
