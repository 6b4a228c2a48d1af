(** C85-C87: what the results of the partial dependence methods depend on. *)
From Verif Require Import Py Num NumR Sorting Frame Rng PdCalc PdSpec PdFacts PdProofs PdTheorems PdErrors PdApi PdMethods MethodSpec
  PdMethodFacts PdMethodRun PdMethodReal PdMethodReal2 GreenwellFacts Props_Pd Props_Methods Props_Methods2 Additivity Props_Additivity Props_Visual3 Props_Zen2 Views.
From Coq Require Import Reals Lra QArith.
Open Scope string_scope.
Open Scope nat_scope.
Open Scope list_scope.

(** ** Specification *)

(** every row of [t1] about included features is also in [t2], possibly with the two features
    exchanged *)
Definition keeps {V} (fs2 : list string) (t1 t2 : list (string * string * V)) : Prop :=
  forall f g v, In (f, g, v) t1 -> In f fs2 -> In g fs2 -> In (f, g, v) t2 \/ In (g, f, v) t2.
Definition keeps1 {V} (fs2 : list string) (t1 t2 : list (string * V)) : Prop :=
  forall f v, In (f, v) t1 -> In f fs2 -> In (f, v) t2.

Notation all_features := PdMethodFacts.all_features.
Notation complete := PdMethodRun.complete.

Section Views.
  Context {C G : Type} (O : cell_ops C) (HO : cell_ok O) (Rg : rng_ops G) (HR : rng_ok Rg) (srt : sorter) (Hs : sorter_ok srt).
  Notation fit := (PdMethods.fit O xR Rg srt).
  Notation "'fin' h" := (fun r => Fin (h r)) (at level 10, only parsing).
  Notation Hnan := (no_isnan_nan xR xR_ord).

  Lemma perm_row {A V} (t : list (A * V)) ks k : Permutation (map fst t) ks -> In k ks -> exists v, In (k, v) t.
  Proof. intros HP Hk. apply (Permutation_in _ (Permutation_sym HP)) in Hk. apply in_map_iff in Hk as ([k' v] & E & Hin). cbn in E. subst k'. eauto. Qed.

  Lemma fit_complete k s a s' g Xs : wf_frame (a_X a) -> fit k s a = (s', Ok tt) -> m_X s' = Some Xs -> explains O xR a g Xs ->
    wf_frame Xs /\ complete O Xs /\ known_pairs Xs (combinations2 (all_features a)).
  Proof.
    intros HX H HXs He. destruct (fit_calc O xR HO xR_ord Rg HR srt k s a s' g Xs HX H HXs He) as (HwX & Hk & m & P & b & _ & _ & c2 & c3 & _ & _ & Hg & _ & Hr2 & Es & _).
    split; [exact HwX|]. split; [|exact Hk]. intros f p v Hp Hv. eapply (single_success_no_nan O xR HO Hnan m Xs P b c2 g None c3 HwX Hg Hr2 Es f p v); [|exact Hp|exact Hv]. eapply nth_error_In, Hp.
  Qed.

  Section Two.
    Context (s1 : mstate C (ext R) G) (a1 : fargs C (ext R)) (s1' : mstate C (ext R) G) (s2 : mstate C (ext R) G) (a2 : fargs C (ext R)) (s2' : mstate C (ext R) G)
            (h1 h2 : list C -> R) (X1 X2 : frame C).
    Context (HX1 : wf_frame (a_X a1)) (HX2 : wf_frame (a_X a2)) (E1 : m_X s1' = Some X1) (E2 : m_X s2' = Some X2)
            (He1 : explains O xR a1 (fin h1) X1) (He2 : explains O xR a2 (fin h2) X2)
            (HD : same_data X1 X2) (HM : same_model (f_cols X1) (f_cols X2) h1 h2).

    Lemma same_values k f p q : fit k s1 a1 = (s1', Ok tt) -> nth_error (f_cols X1) p = Some f -> nth_error (f_cols X2) q = Some f ->
      np_unique O (col_at p (f_rows X1)) = np_unique O (col_at q (f_rows X2)).
    Proof.
      intros F1 Hp Hq. destruct (fit_complete k s1 a1 s1' _ X1 HX1 F1 E1 He1) as (_ & Hc & _). destruct HD as (_ & _ & HV).
      apply (unique_ext O HO); [intros v; apply (Hc f p v Hp)|]. intros v. eapply col_view; eassumption.
    Qed.

    Lemma friedman_keeps norm t1 t2 : fit (Friedman norm) s1 a1 = (s1', Ok tt) -> fit (Friedman norm) s2 a2 = (s2', Ok tt) ->
      m_ovo s1' = Some t1 -> m_ovo s2' = Some t2 -> keeps (all_features a2) t1 t2.
    Proof.
      intros F1 F2 T1 T2 f g v Hin Hf Hg. destruct HD as (HP & _ & HV).
      destruct (fit_complete _ s1 a1 s1' _ X1 HX1 F1 E1 He1) as (W1 & _ & K1). destruct (fit_complete _ s2 a2 s2' _ X2 HX2 F2 E2 He2) as (W2 & _ & _).
      destruct (C12_friedman_pairs O xR HO xR_ord x0 Rg HR srt Hs norm s1 a1 s1' _ X1 HX1 F1 E1 He1) as (u1 & U1 & P1 & V1 & _). assert (u1 = t1) by congruence. subst u1.
      destruct (C12_friedman_pairs O xR HO xR_ord x0 Rg HR srt Hs norm s2 a2 s2' _ X2 HX2 F2 E2 He2) as (u2 & U2 & P2 & V2 & _). assert (u2 = t2) by congruence. subst u2.
      assert (Hne : f <> g) by (apply (K1 (f, g)), (Permutation_in _ P1), (in_map fst _ _ Hin)).
      destruct (V1 _ _ _ Hin) as (p & q & Hp & Hq & Hpq & ->).
      assert (Hv : forall p' q', nth_error (f_cols X2) p' = Some f -> nth_error (f_cols X2) q' = Some g ->
                 H_pair xR (fin h1) (f_rows X1) norm p q = H_pair xR (fin h2) (f_rows X2) norm p' q').
      { intros p' q' Hp' Hq'. eapply (H_pair_view (f_cols X1) (f_cols X2)); try eassumption; [apply W1|apply W2|apply (wf_rows X1 W1)|apply (wf_rows X2 W2)]. }
      destruct (combinations2_complete (all_features a2) f g Hf Hg Hne) as [Hc|Hc]; [left|right];
        destruct (perm_row t2 _ _ P2 Hc) as (v2 & Hv2); destruct (V2 _ _ _ Hv2) as (p' & q' & Hp' & Hq' & Hpq' & Ev).
      - rewrite (Hv p' q' Hp' Hq'), <- Ev. exact Hv2.
      - rewrite (Hv q' p' Hq' Hp'), (H_pair_swap _ (f_rows X2) norm q' p' (length (f_cols X2))), <- Ev; [exact Hv2|apply (wf_rows X2 W2)|auto|eapply pos_lt; eassumption..].
    Qed.

    Lemma friedman_keeps_ova norm t1 t2 : fit (Friedman norm) s1 a1 = (s1', Ok tt) -> fit (Friedman norm) s2 a2 = (s2', Ok tt) -> a_ova a1 = true -> a_ova a2 = true ->
      m_ova s1' = Some t1 -> m_ova s2' = Some t2 -> keeps1 (all_features a2) t1 t2.
    Proof.
      intros F1 F2 O1 O2 T1 T2 f v Hin Hf. destruct HD as (HP & _ & HV).
      destruct (fit_complete _ s1 a1 s1' _ X1 HX1 F1 E1 He1) as (W1 & _). destruct (fit_complete _ s2 a2 s2' _ X2 HX2 F2 E2 He2) as (W2 & _).
      destruct (C13_friedman_ova O xR HO xR_ord x0 Rg HR srt Hs norm s1 a1 s1' _ X1 HX1 F1 E1 He1 O1) as (u1 & U1 & P1 & V1 & _). assert (u1 = t1) by congruence. subst u1.
      destruct (C13_friedman_ova O xR HO xR_ord x0 Rg HR srt Hs norm s2 a2 s2' _ X2 HX2 F2 E2 He2 O2) as (u2 & U2 & P2 & V2 & _). assert (u2 = t2) by congruence. subst u2.
      destruct (perm_row t2 _ _ P2 Hf) as (v2 & Hv2). destruct (V1 _ _ Hin) as (p & Hp & ->). destruct (V2 _ _ Hv2) as (q & Hq & ->).
      rewrite (H_all_view (f_cols X1) (f_cols X2) (proj1 W1) (proj1 W2) (f_rows X1) (f_rows X2) HV h1 h2 HM (wf_rows X1 W1) (wf_rows X2 W2) norm f p q Hp Hq). exact Hv2.
    Qed.

    Lemma greenwell_keeps t1 t2 : fit Greenwell s1 a1 = (s1', Ok tt) -> fit Greenwell s2 a2 = (s2', Ok tt) ->
      m_ovo s1' = Some t1 -> m_ovo s2' = Some t2 -> keeps (all_features a2) t1 t2.
    Proof.
      intros F1 F2 T1 T2 f g v Hin Hf Hg. pose proof HD as (HP & Hnum & HV).
      destruct (fit_complete _ s1 a1 s1' _ X1 HX1 F1 E1 He1) as (W1 & _ & K1). destruct (fit_complete _ s2 a2 s2' _ X2 HX2 F2 E2 He2) as (W2 & _ & _).
      destruct (C17_greenwell_pairs O HO Rg HR srt Hs s1 a1 s1' h1 X1 HX1 F1 E1 He1) as (u1 & U1 & _ & V1 & _). assert (u1 = t1) by congruence. subst u1.
      destruct (C17_greenwell_pairs O HO Rg HR srt Hs s2 a2 s2' h2 X2 HX2 F2 E2 He2) as (u2 & U2 & (ks & P2 & L2) & V2 & _). assert (u2 = t2) by congruence. subst u2.
      destruct (V1 _ _ _ Hin) as (p & q & Hp & Hq & Hpq & _ & _ & ->).
      assert (Hne : f <> g) by (intros E; rewrite E in Hp; assert (p = q); [apply (proj1 (NoDup_nth_error _) (proj1 W1)); [eapply pos_lt; exact Hp|congruence]|lia]).
      assert (N1 : In f (f_cols X1)) by (eapply nth_error_In; eassumption). assert (N2 : In g (f_cols X1)) by (eapply nth_error_In; eassumption).
      assert (Hrow : exists v2, In (f, g, v2) t2 \/ In (g, f, v2) t2).
      { assert (Hk : In (f, g) ks \/ In (g, f) ks).
        { destruct (combinations2_complete (all_features a2) f g Hf Hg Hne) as [Hc|Hc]; destruct (Forall2_In_l _ _ _ L2 _ Hc) as (k & Hk & [E|E]); cbn [fst snd] in E; subst k; auto. }
        destruct Hk as [Hk|Hk]; destruct (perm_row t2 _ _ P2 Hk) as (v2 & Hv2); eauto. }
      destruct Hrow as (v2 & [Hv2|Hv2]); destruct (V2 _ _ _ Hv2) as (p' & q' & Hp' & Hq' & Hpq' & _ & _ & Ev); [left|right].
      - replace (Fin _) with v2; [exact Hv2|]. rewrite Ev. f_equal. rewrite (Hnum f N1), (Hnum g N2), (same_values _ f p p' F1 Hp Hp'), (same_values _ g q q' F1 Hq Hq'). apply Rgreenwell_ext. intros v u.
        symmetry. eapply (PD2_view (f_cols X1) (f_cols X2)); try eassumption; [apply W1|apply W2].
      - replace (Fin _) with v2; [exact Hv2|]. rewrite Ev. f_equal. rewrite (Hnum f N1), (Hnum g N2), (same_values _ f p q' F1 Hp Hq'), (same_values _ g q p' F1 Hq Hp'). apply Rgreenwell_swap. intros v u.
        transitivity (PD2 Rmean h2 (f_rows X2) q' p' u v).
        + unfold PD2. f_equal. apply map_ext_in. intros r Hr. rewrite with_value_swap; [reflexivity|lia|rewrite (wf_rows X2 W2 r Hr); eapply pos_lt; eassumption..].
        + symmetry. eapply (PD2_view (f_cols X1) (f_cols X2)); try eassumption; [apply W1|apply W2].
    Qed.

    Lemma importance_keeps k1 k2 t1 t2 : fit k1 s1 a1 = (s1', Ok tt) -> fit k2 s2 a2 = (s2', Ok tt) ->
      m_fi s1' = Some t1 -> m_fi s2' = Some t2 -> keeps1 (all_features a2) t1 t2.
    Proof.
      intros F1 F2 T1 T2 f v Hin Hf. pose proof HD as (HP & Hnum & HV).
      destruct (fit_complete _ s1 a1 s1' _ X1 HX1 F1 E1 He1) as (W1 & _). destruct (fit_complete _ s2 a2 s2' _ X2 HX2 F2 E2 He2) as (W2 & _).
      destruct (C20_fit_importance O HO Rg HR srt Hs k1 s1 a1 s1' h1 X1 HX1 F1 E1 He1) as (u1 & U1 & _ & V1 & _). assert (u1 = t1) by congruence. subst u1.
      destruct (C20_fit_importance O HO Rg HR srt Hs k2 s2 a2 s2' h2 X2 HX2 F2 E2 He2) as (u2 & U2 & P2 & V2 & _). assert (u2 = t2) by congruence. subst u2.
      destruct (perm_row t2 _ _ P2 Hf) as (v2 & Hv2). destruct (V1 _ _ Hin) as (p & Hp & ->). destruct (V2 _ _ Hv2) as (q & Hq & Ev). replace (Fin _) with v2; [exact Hv2|].
      rewrite Ev. f_equal. rewrite (Hnum f (nth_error_In _ _ Hp)), (same_values _ f p q F1 Hp Hq). f_equal. apply map_ext. intros x. symmetry. eapply (PD1_view (f_cols X1) (f_cols X2)); try eassumption; [apply W1|apply W2].
    Qed.
  End Two.

  (** ** C86: the layout of the data does not matter *)
  Theorem C86_layout k s1 a1 s1' s2 a2 s2' h1 h2 X1 X2 : wf_frame (a_X a1) -> wf_frame (a_X a2) ->
    fit k s1 a1 = (s1', Ok tt) -> m_X s1' = Some X1 -> explains O xR a1 (fin h1) X1 ->
    fit k s2 a2 = (s2', Ok tt) -> m_X s2' = Some X2 -> explains O xR a2 (fin h2) X2 ->
    same_data X1 X2 -> same_model (f_cols X1) (f_cols X2) h1 h2 ->
    (exists t1 t2, m_ovo s1' = Some t1 /\ m_ovo s2' = Some t2 /\ keeps (all_features a2) t1 t2)
    /\ (exists t1 t2, m_fi s1' = Some t1 /\ m_fi s2' = Some t2 /\ keeps1 (all_features a2) t1 t2)
    /\ (k <> Greenwell -> a_ova a1 = true -> a_ova a2 = true -> exists t1 t2, m_ova s1' = Some t1 /\ m_ova s2' = Some t2 /\ keeps1 (all_features a2) t1 t2).
  Proof.
    intros HX1 HX2 F1 E1 He1 F2 E2 He2 HD HM. split; [|split].
    - destruct (pd_tables O xR Rg srt Hs xR_ord x0 k s1 a1 s1' F1) as (t1 & _ & T1 & _). destruct (pd_tables O xR Rg srt Hs xR_ord x0 k s2 a2 s2' F2) as (t2 & _ & T2 & _).
      exists t1, t2. split; [exact T1|]. split; [exact T2|]. destruct k as [norm|]; [eapply (friedman_keeps s1 a1 s1' s2 a2 s2' h1 h2 X1 X2); eassumption|eapply (greenwell_keeps s1 a1 s1' s2 a2 s2' h1 h2 X1 X2); eassumption].
    - destruct (C20_fit_importance O HO Rg HR srt Hs k s1 a1 s1' h1 X1 HX1 F1 E1 He1) as (t1 & T1 & _). destruct (C20_fit_importance O HO Rg HR srt Hs k s2 a2 s2' h2 X2 HX2 F2 E2 He2) as (t2 & T2 & _).
      exists t1, t2. split; [exact T1|]. split; [exact T2|]. eapply (importance_keeps s1 a1 s1' s2 a2 s2' h1 h2 X1 X2); eassumption.
    - intros Hk O1 O2. destruct k as [norm|]; [|congruence].
      destruct (C13_friedman_ova O xR HO xR_ord x0 Rg HR srt Hs norm s1 a1 s1' _ X1 HX1 F1 E1 He1 O1) as (t1 & T1 & _). destruct (C13_friedman_ova O xR HO xR_ord x0 Rg HR srt Hs norm s2 a2 s2' _ X2 HX2 F2 E2 He2 O2) as (t2 & T2 & _).
      exists t1, t2. split; [exact T1|]. split; [exact T2|]. eapply (friedman_keeps_ova s1 a1 s1' s2 a2 s2' h1 h2 X1 X2); eassumption.
  Qed.

  Theorem C86_layout_additivity s1 a1 s1' v1 s2 a2 s2' v2 h1 h2 X1 X2 : wf_frame (aa_X a1) -> wf_frame (aa_X a2) ->
    ~ In "centered_prediction" (f_cols (aa_X a1)) -> ~ In "centered_prediction" (f_cols (aa_X a2)) ->
    add_fit O xR Rg s1 a1 = (s1', Ok v1) -> ad_X s1' = Some X1 -> add_explains O xR a1 (fin h1) X1 ->
    add_fit O xR Rg s2 a2 = (s2', Ok v2) -> ad_X s2' = Some X2 -> add_explains O xR a2 (fin h2) X2 ->
    NoDup (f_cols X1) -> NoDup (f_cols X2) -> same_data X1 X2 -> same_model (f_cols X1) (f_cols X2) h1 h2 -> v1 = v2.
  Proof.
    intros HX1 HX2 Hc1 Hc2 F1 E1 He1 F2 E2 He2 N1 N2 (HP & _ & HV) HM.
    destruct (index_real O HO Rg HR s1 a1 s1' v1 h1 X1 HX1 F1 E1 He1 Hc1) as [W1 ->]. destruct (index_real O HO Rg HR s2 a2 s2' v2 h2 X2 HX2 F2 E2 He2 Hc2) as [W2 ->].
    f_equal. apply (variation_view (f_cols X1) (f_cols X2) N1 N2 HP (f_rows X1) (f_rows X2) HV h1 h2 HM).
  Qed.

  (** ** C85: including fewer features (or naming them in another order) changes no value *)
  Lemma same_data_refl (X : frame C) : wf_frame X -> same_data X X.
  Proof.
    intros W. split; [reflexivity|]. split; [reflexivity|]. apply viewed_refl. intros r Hr. apply rearranged_refl; [apply W|apply (wf_rows X W r Hr)].
  Qed.
  Lemma same_model_refl (X : frame C) (h : list C -> R) : wf_frame X -> same_model (f_cols X) (f_cols X) h h.
  Proof.
    intros W r1 r2 (L1 & L2 & H). f_equal. apply nth_error_ext. intros i. destruct (nth_error (f_cols X) i) as [f|] eqn:Ef; [apply (H f i i Ef Ef)|].
    apply nth_error_None in Ef. rewrite !(proj2 (nth_error_None _ _)); [reflexivity|lia..].
  Qed.
  Theorem C85_features k s1 a1 s1' s2 a2 s2' h Xs : wf_frame (a_X a1) -> wf_frame (a_X a2) ->
    fit k s1 a1 = (s1', Ok tt) -> m_X s1' = Some Xs -> explains O xR a1 (fin h) Xs ->
    fit k s2 a2 = (s2', Ok tt) -> m_X s2' = Some Xs -> explains O xR a2 (fin h) Xs ->
    (exists t1 t2, m_ovo s1' = Some t1 /\ m_ovo s2' = Some t2 /\ keeps (all_features a2) t1 t2)
    /\ (exists t1 t2, m_fi s1' = Some t1 /\ m_fi s2' = Some t2 /\ keeps1 (all_features a2) t1 t2)
    /\ (k <> Greenwell -> a_ova a1 = true -> a_ova a2 = true -> exists t1 t2, m_ova s1' = Some t1 /\ m_ova s2' = Some t2 /\ keeps1 (all_features a2) t1 t2).
  Proof.
    intros HX1 HX2 F1 E1 He1 F2 E2 He2. destruct (fit_complete _ s1 a1 s1' _ Xs HX1 F1 E1 He1) as (W & _).
    eapply C86_layout; try eassumption; [apply same_data_refl, W|apply same_model_refl, W].
  Qed.

  (** ** C87: predictions on another scale *)
  Lemma Rmean_affine {A} (f f' : A -> R) c k l : l <> [] -> (forall x, In x l -> f' x = c * f x + k)%R -> (Rmean (map f' l) = c * Rmean (map f l) + k)%R.
  Proof.
    intros Hl H. unfold Rmean. rewrite !map_length. assert (0 < INR (length l))%R by (apply INR_pos_length, Hl).
    assert (E : (Rsum (map f' l) = c * Rsum (map f l) + INR (length l) * k)%R).
    { clear Hl H0. induction l as [|x l IH]; [cbn; rewrite !Rsum_nil; lra|]. cbn [map]. rewrite !Rsum_cons, IH by (intros; apply H; right; assumption). rewrite (H x (or_introl eq_refl)). cbn [length]. rewrite S_INR. lra. }
    rewrite E. field. lra.
  Qed.
  Lemma centered_affine (l : list R) c k : l <> [] -> Rsum (map Rsqr (Rcenter (map (fun x => c * x + k)%R l))) = (Rsqr c * Rsum (map Rsqr (Rcenter l)))%R.
  Proof.
    intros Hl. unfold Rcenter. rewrite (Rmean_affine (fun x => x) (fun x => c * x + k)%R c k l Hl (fun _ _ => eq_refl)). rewrite map_id, !map_map.
    generalize (Rmean l). intros m. clear Hl. induction l as [|x l IH]; [cbn; rewrite !Rsum_nil; lra|]. cbn [map]. rewrite !Rsum_cons, IH. unfold Rsqr. lra.
  Qed.
  Lemma center_nonneg (l : list R) : (0 <= Rsum (map Rsqr (Rcenter l)))%R.
  Proof. induction (Rcenter l) as [|x t IH]; [cbn; rewrite Rsum_nil; lra|]. cbn [map]. rewrite Rsum_cons. pose proof (Rle_0_sqr x). lra. Qed.
  Lemma sqrt_scale c x d : (0 <= x)%R -> (0 < d)%R -> (sqrt (Rsqr c * x / d) = Rabs c * sqrt (x / d))%R.
  Proof.
    intros Hx Hd. replace (Rsqr c * x / d)%R with (Rsqr c * (x / d))%R by (unfold Rdiv; lra). rewrite sqrt_mult_alt by apply Rle_0_sqr. rewrite sqrt_Rsqr_abs. reflexivity.
  Qed.
  Lemma Rstd_affine (l : list R) c k : l <> [] -> (Rstd (map (fun x => c * x + k)%R l) = Rabs c * Rstd l)%R.
  Proof.
    intros Hl. unfold Rstd, Rmean. rewrite centered_affine by exact Hl. unfold Rcenter. rewrite !map_length. apply sqrt_scale; [apply center_nonneg|]. apply INR_pos_length, Hl.
  Qed.
  Lemma Rstdev_affine (l : list R) c k : 2 <= length l -> (Rstdev (map (fun x => c * x + k)%R l) = Rabs c * Rstdev l)%R.
  Proof.
    intros Hl. unfold Rstdev. rewrite centered_affine by (destruct l; [cbn in Hl; lia|discriminate]). rewrite map_length. apply sqrt_scale; [apply center_nonneg|].
    apply le_INR in Hl. cbn in Hl. lra.
  Qed.
  Lemma range_affine (l : list R) c k : l <> [] -> (Rmaxl (map (fun x => c * x + k) l) - Rminl (map (fun x => c * x + k) l) = Rabs c * (Rmaxl l - Rminl l))%R.
  Proof.
    destruct l as [|x t]; [congruence|]. intros _. cbn [map Rmaxl Rminl].
    assert (E : forall t a b a' b', (if Rle_dec 0 c then a' = c * a + k /\ b' = c * b + k else a' = c * b + k /\ b' = c * a + k)%R ->
       (if Rle_dec 0 c then fold_left Rmax (map (fun x => c * x + k) t) a' = c * fold_left Rmax t a + k /\ fold_left Rmin (map (fun x => c * x + k) t) b' = c * fold_left Rmin t b + k
        else fold_left Rmax (map (fun x => c * x + k) t) a' = c * fold_left Rmin t b + k /\ fold_left Rmin (map (fun x => c * x + k) t) b' = c * fold_left Rmax t a + k)%R).
    { clear. intros t. induction t as [|y t IH]; intros a b a' b' H; [exact H|]. cbn [map fold_left]. apply IH. destruct (Rle_dec 0 c) as [Hc|Hc]; destruct H as [-> ->]; split.
      - unfold Rmax. destruct (Rle_dec (c * a + k) (c * y + k)), (Rle_dec a y); nra.
      - unfold Rmin. destruct (Rle_dec (c * b + k) (c * y + k)), (Rle_dec b y); nra.
      - unfold Rmax, Rmin. destruct (Rle_dec (c * b + k) (c * y + k)), (Rle_dec b y); nra.
      - unfold Rmax, Rmin. destruct (Rle_dec (c * a + k) (c * y + k)), (Rle_dec a y); nra. }
    specialize (E t x x (c * x + k)%R (c * x + k)%R). destruct (Rle_dec 0 c) as [Hc|Hc].
    - destruct E as [-> ->]; [auto|]. rewrite Rabs_right by lra. lra.
    - destruct E as [-> ->]; [auto|]. rewrite Rabs_left by lra. lra.
  Qed.
  Lemma Rspread_affine num (l : list R) c k : l <> [] -> (Rspread num (map (fun x => c * x + k)%R l) = Rabs c * Rspread num l)%R.
  Proof. intros Hl. unfold Rspread. destruct num; [apply Rstd_affine, Hl|]. rewrite range_affine by exact Hl. lra. Qed.
  Lemma Rimp_affine num (l : list R) c k : 2 <= length l -> (Rimp num (map (fun x => c * x + k)%R l) = Rabs c * Rimp num l)%R.
  Proof. intros Hl. unfold Rimp. destruct num; [apply Rstdev_affine, Hl|]. rewrite range_affine; [lra|destruct l; [cbn in Hl; lia|discriminate]]. Qed.
  Lemma Rgreenwell_affine {A} n1 n2 (F F' : A -> A -> R) gp gq c k : 2 <= length gp -> 2 <= length gq -> (forall v u, F' v u = c * F v u + k)%R ->
    (Rgreenwell n1 n2 F' gp gq = Rabs c * Rgreenwell n1 n2 F gp gq)%R.
  Proof.
    intros Hp Hq H. unfold Rgreenwell.
    assert (E1 : map (fun v => Rimp n2 (map (fun u => F' v u) gq)) gp = map (fun x => Rabs c * x + 0)%R (map (fun v => Rimp n2 (map (fun u => F v u) gq)) gp)).
    { rewrite map_map. apply map_ext. intros v. rewrite (map_ext _ _ (fun u => H v u)), <- (map_map (fun u => F v u) (fun x => c * x + k)%R), Rimp_affine by (rewrite map_length; exact Hq). lra. }
    assert (E2 : map (fun u => Rimp n1 (map (fun v => F' v u) gp)) gq = map (fun x => Rabs c * x + 0)%R (map (fun u => Rimp n1 (map (fun v => F v u) gp)) gq)).
    { rewrite map_map. apply map_ext. intros u. rewrite (map_ext _ _ (fun v => H v u)), <- (map_map (fun v => F v u) (fun x => c * x + k)%R), Rimp_affine by (rewrite map_length; exact Hp). lra. }
    rewrite E1, E2, !Rstdev_affine by (rewrite map_length; assumption). rewrite Rabs_Rabsolu. lra.
  Qed.

  Theorem C87_importance k1 k2 s1 a1 s1' s2 a2 s2' h h' c k Xs t1 t2 f v1 v2 : wf_frame (a_X a1) -> wf_frame (a_X a2) ->
    fit k1 s1 a1 = (s1', Ok tt) -> m_X s1' = Some Xs -> explains O xR a1 (fin h) Xs ->
    fit k2 s2 a2 = (s2', Ok tt) -> m_X s2' = Some Xs -> explains O xR a2 (fin h') Xs ->
    (forall r, length r = length (f_cols Xs) -> h' r = c * h r + k)%R ->
    m_fi s1' = Some t1 -> m_fi s2' = Some t2 -> In (f, v1) t1 -> In (f, v2) t2 -> v2 = n_mul xR (Fin (Rabs c)) v1.
  Proof.
    intros HX1 HX2 F1 E1 He1 F2 E2 He2 Hh T1 T2 I1 I2. destruct (fit_complete _ s1 a1 s1' _ Xs HX1 F1 E1 He1) as (W & Hc & _).
    destruct (C20_fit_importance O HO Rg HR srt Hs k1 s1 a1 s1' h Xs HX1 F1 E1 He1) as (u1 & U1 & _ & V1 & _). assert (u1 = t1) by congruence. subst u1.
    destruct (C20_fit_importance O HO Rg HR srt Hs k2 s2 a2 s2' h' Xs HX2 F2 E2 He2) as (u2 & U2 & _ & V2 & _). assert (u2 = t2) by congruence. subst u2.
    destruct (V1 _ _ I1) as (p & Hp & ->). destruct (V2 _ _ I2) as (q & Hq & ->). assert (q = p) by (apply (proj1 (NoDup_nth_error _) (proj1 W)); [eapply pos_lt; exact Hq|congruence]). subst q.
    change (n_mul xR (Fin (Rabs c)) (Fin ?x)) with (Fin (Rabs c * x)%R). 
    destruct (f_rows Xs) as [|r0 rows] eqn:Er.
    - cbn [col_at flat_map]. change (np_unique O []) with (@nil C). cbn [map]. f_equal. unfold Rspread. destruct (str_in f (f_num Xs)); [|cbn; lra].
      unfold Rstd. cbn. unfold Rmean. cbn. rewrite !Rsum_nil. unfold Rdiv. rewrite Rmult_0_l, sqrt_0. lra.
    - rewrite <- Er. f_equal. set (U := np_unique O (col_at p (f_rows Xs))).
      rewrite (map_ext _ (fun v => c * PD1 Rmean h (f_rows Xs) p v + k)%R) by (intros v; apply (PD1_affine (f_rows Xs) (length (f_cols Xs)) (wf_rows Xs W) h h' c k Hh); [rewrite Er; discriminate|eapply pos_lt; exact Hp]).
      rewrite <- (map_map (PD1 Rmean h (f_rows Xs) p) (fun x => c * x + k)%R). apply Rspread_affine. 
      assert (HU : U <> []).
      { assert (L0 : p < length r0) by (rewrite (wf_rows Xs W r0) by (rewrite Er; left; reflexivity); eapply pos_lt; exact Hp).
        destruct (nth_error r0 p) as [x|] eqn:Ex; [|apply nth_error_None in Ex; lia].
        assert (Hx : In x (col_at p (f_rows Xs))) by (apply col_at_In; exists r0; split; [rewrite Er; left; reflexivity|exact Ex]).
        assert (In x U) by (apply (np_unique_In O HO); [eapply Hc; eassumption|exact Hx]). intros E. rewrite E in H. exact H. }
      destruct U; [congruence|discriminate].
  Qed.

  Theorem C87_greenwell s1 a1 s1' s2 a2 s2' h h' c k Xs t1 t2 f g v1 v2 : wf_frame (a_X a1) -> wf_frame (a_X a2) ->
    fit Greenwell s1 a1 = (s1', Ok tt) -> m_X s1' = Some Xs -> explains O xR a1 (fin h) Xs ->
    fit Greenwell s2 a2 = (s2', Ok tt) -> m_X s2' = Some Xs -> explains O xR a2 (fin h') Xs ->
    (forall r, length r = length (f_cols Xs) -> h' r = c * h r + k)%R ->
    m_ovo s1' = Some t1 -> m_ovo s2' = Some t2 -> In (f, g, v1) t1 -> In (f, g, v2) t2 -> v2 = n_mul xR (Fin (Rabs c)) v1.
  Proof.
    intros HX1 HX2 F1 E1 He1 F2 E2 He2 Hh T1 T2 I1 I2. destruct (fit_complete _ s1 a1 s1' _ Xs HX1 F1 E1 He1) as (W & Hc & _).
    destruct (C17_greenwell_pairs O HO Rg HR srt Hs s1 a1 s1' h Xs HX1 F1 E1 He1) as (u1 & U1 & _ & V1 & _). assert (u1 = t1) by congruence. subst u1.
    destruct (C17_greenwell_pairs O HO Rg HR srt Hs s2 a2 s2' h' Xs HX2 F2 E2 He2) as (u2 & U2 & _ & V2 & _). assert (u2 = t2) by congruence. subst u2.
    destruct (V1 _ _ _ I1) as (p & q & Hp & Hq & Hpq & L1 & L2 & ->). destruct (V2 _ _ _ I2) as (p' & q' & Hp' & Hq' & _ & _ & _ & ->).
    assert (p' = p) by (apply (proj1 (NoDup_nth_error _) (proj1 W)); [eapply pos_lt; exact Hp'|congruence]). assert (q' = q) by (apply (proj1 (NoDup_nth_error _) (proj1 W)); [eapply pos_lt; exact Hq'|congruence]). subst p' q'.
    change (n_mul xR (Fin (Rabs c)) (Fin ?x)) with (Fin (Rabs c * x)%R). f_equal. apply (Rgreenwell_affine _ _ _ _ _ _ c k); [exact L1|exact L2|]. intros v u.
    apply (PD2_affine (f_rows Xs) (length (f_cols Xs)) (wf_rows Xs W) h h' c k Hh); [|eapply pos_lt; eassumption..]. intros E. rewrite E in L1. cbn in L1. lia.
  Qed.

  Theorem C87_additivity s1 a1 s1' s2 a2 s2' h h' c k Xs v1 v2 : wf_frame (aa_X a1) -> wf_frame (aa_X a2) ->
    ~ In "centered_prediction" (f_cols (aa_X a1)) -> ~ In "centered_prediction" (f_cols (aa_X a2)) ->
    add_fit O xR Rg s1 a1 = (s1', Ok v1) -> ad_X s1' = Some Xs -> add_explains O xR a1 (fin h) Xs ->
    add_fit O xR Rg s2 a2 = (s2', Ok v2) -> ad_X s2' = Some Xs -> add_explains O xR a2 (fin h') Xs ->
    (c <> 0)%R -> (forall r, length r = length (f_cols Xs) -> h' r = c * h r + k)%R -> v2 = v1.
  Proof.
    intros HX1 HX2 Hc1 Hc2 F1 E1 He1 F2 E2 He2 Hc Hh.
    destruct (index_real O HO Rg HR s1 a1 s1' v1 h Xs HX1 F1 E1 He1 Hc1) as [W1 ->]. destruct (index_real O HO Rg HR s2 a2 s2' v2 h' Xs HX2 F2 E2 He2 Hc2) as [_ ->]. f_equal.
    destruct (f_rows Xs) as [|r0 rows] eqn:Er; [reflexivity|]. rewrite <- Er in *. assert (Hne : f_rows Xs <> []) by (rewrite Er; discriminate). clear Er.
    assert (Em : (Rmean (map h' (f_rows Xs)) = c * Rmean (map h (f_rows Xs)) + k)%R) by (apply (Rmean_affine h h' c k); [exact Hne|]; intros r Hr; apply Hh, W1, Hr).
    assert (Eu : unexplained (f_rows Xs) (length (f_cols Xs)) h' = (Rsqr c * unexplained (f_rows Xs) (length (f_cols Xs)) h)%R).
    { unfold unexplained. rewrite <- Rsum_map_mult. f_equal. apply map_ext_in. intros r Hr.
      assert (Ee : (effects (f_rows Xs) (length (f_cols Xs)) h' r = c * effects (f_rows Xs) (length (f_cols Xs)) h r)%R).
      { unfold effects. rewrite <- Rsum_map_mult. f_equal. apply map_ext_in. intros p Hp. apply in_seq in Hp.
        rewrite (RPD1_at_affine (f_rows Xs) (length (f_cols Xs)) W1 h h' c k Hh p r) by (try lia; assumption). rewrite Em. lra. }
      rewrite Ee, Em, (Hh r (W1 r Hr)). unfold Rsqr. lra. }
    assert (Ev : variation (f_rows Xs) h' = (Rsqr c * variation (f_rows Xs) h)%R).
    { unfold variation. rewrite <- Rsum_map_mult. f_equal. apply map_ext_in. intros r Hr. rewrite Em, (Hh r (W1 r Hr)). unfold Rsqr. lra. }
    rewrite Eu, Ev. apply x_div_scale. apply Rsqr_pos_lt, Hc.
  Qed.
End Views.

(** ** Examples *)

(** [rX] of Props_Methods2.v with its rows doubled and reordered and its columns reordered *)
Definition rX2 : frame Z := {| f_cols := ["c"; "a"; "b"]; f_index := [1;2;3;4;5;6]%Z; f_num := ["b"; "a"; "c"];
                               f_rows := [[0;1;1];[2;1;0];[1;0;1];[1;0;1];[0;1;1];[2;1;0]]%Z |}.
Definition rh2 (r : list Z) : R := match r with [z; x; y] => rh [x; y; z] | _ => 0%R end.
Definition rargs2 h : fargs Z (ext R) := mkargs (rP h) rX2 (Some ["c"; "b"]) true None.
Lemma rX2_wf : wf_frame rX2.
Proof. repeat constructor; cbn; intuition congruence. Qed.
Lemma rargs2_explains h : explains Zcell xR (rargs2 h) (fun r => Fin (h r)) rX2.
Proof. split; [|exact I]. intros n rows ys E. injection E as <-. reflexivity. Qed.
Example C86_example_data : same_data rX rX2 /\ same_model (f_cols rX) (f_cols rX2) rh rh2.
Proof.
  split; [split; [|split]|].
  - apply (Permutation_trans (l' := "a" :: ["c"; "b"])); [apply perm_skip, perm_swap|apply perm_swap].
  - intros f Hf. cbn in Hf. destruct Hf as [<-|[<-|[<-|[]]]]; reflexivity.
  - exists 1, 0, [[1;1;0];[1;0;2];[0;1;1];[0;1;1];[1;1;0];[1;0;2]]%Z, (f_rows rX2). split; [|split].
    + apply (perm_by_key (fun r => match r with [x; y; z]%Z => Z.to_nat (x + 2 * y) | _ => 0 end)). reflexivity.
    + repeat constructor; intros f [|[|[|p]]] q Hp Hq; cbn in Hp; try (destruct p; discriminate Hp); injection Hp as <-; destruct q as [|[|[|q]]]; cbn in Hq; try discriminate Hq; try reflexivity; destruct q; discriminate Hq.
    + reflexivity.
  - intros r1 r2 (L1 & L2 & H). destruct r1 as [|x [|y [|z [|]]]]; try discriminate L1. destruct r2 as [|z' [|x' [|y' [|]]]]; try discriminate L2.
    pose proof (H "a" 0 1 eq_refl eq_refl) as Ea. pose proof (H "b" 1 2 eq_refl eq_refl) as Eb. pose proof (H "c" 2 0 eq_refl eq_refl) as Ec. cbn in Ea, Eb, Ec. injection Ea as <-. injection Eb as <-. injection Ec as <-. reflexivity.
Qed.
Lemma rfit2_ok norm h : exists s', fit Zcell xR rotR isort (Friedman norm) init0 (rargs2 h) = (s', Ok tt) /\ m_X s' = Some rX2.
Proof.
  destruct (fit Zcell xR rotR isort (Friedman norm) init0 (rargs2 h)) as [s' r] eqn:E. exists s'.
  assert (r = Ok tt) as ->.
  { eapply (C66_fit_succeeds_partial Zcell xR Zcell_ok xR_ord rotR rotR_ok isort norm init0 (rargs2 h) s' r _ rX2); [exact rX2_wf|reflexivity| |apply Z_complete|discriminate| | |exact E].
    - split; [exact (proj1 (rargs2_explains h))|]. split; [|exact I]. intros n rows. eexists. reflexivity.
    - repeat constructor; cbn; intuition congruence.
    - intros f Hf. cbn in Hf |- *. intuition congruence. }
  split; [reflexivity|]. exact (mX_ok Zcell xR rotR isort (Friedman norm) init0 (rargs2 h) s' eq_refl E).
Qed.
(** the value of the pair b, c is the same in both layouts *)
Example C86_example norm : exists s1' s2' t1 t2 v,
  fit Zcell xR rotR isort (Friedman norm) init0 (rargs rh true) = (s1', Ok tt) /\ fit Zcell xR rotR isort (Friedman norm) init0 (rargs2 rh2) = (s2', Ok tt)
  /\ m_ovo s1' = Some t1 /\ m_ovo s2' = Some t2 /\ In ("b", "c", v) t1 /\ In ("c", "b", v) t2.
Proof.
  destruct (rfit_ok norm rh true) as (s1' & E1 & EX1). destruct (rfit2_ok norm rh2) as (s2' & E2 & EX2). destruct C86_example_data as [HD HM].
  destruct (C86_layout Zcell Zcell_ok rotR rotR_ok isort isort_ok (Friedman norm) init0 (rargs rh true) s1' init0 (rargs2 rh2) s2' rh rh2 rX rX2 rX_wf rX2_wf E1 EX1 (rargs_explains rh true) E2 EX2 (rargs2_explains rh2) HD HM) as ((t1 & t2 & T1 & T2 & K) & _).
  destruct (C12_friedman_pairs Zcell xR Zcell_ok xR_ord eq_refl rotR rotR_ok isort isort_ok norm init0 (rargs rh true) s1' _ rX rX_wf E1 EX1 (rargs_explains rh true)) as (t & Ht & Hk & _). assert (t = t1) by congruence. subst t.
  destruct (C12_friedman_pairs Zcell xR Zcell_ok xR_ord eq_refl rotR rotR_ok isort isort_ok norm init0 (rargs2 rh2) s2' _ rX2 rX2_wf E2 EX2 (rargs2_explains rh2)) as (t & Ht2 & Hk2 & _). assert (t = t2) by congruence. subst t.
  assert (Hin : In ("b", "c") (map fst t1)) by (rewrite Hk; cbn; auto). apply in_map_iff in Hin as ([[f g] v] & E & Hin). injection E as -> ->.
  exists s1', s2', t1, t2, v. repeat (split; [assumption|]). destruct (K _ _ _ Hin) as [H|H]; [cbn; auto..| |exact H].
  exfalso. apply (in_map fst) in H. apply (Permutation_in _ Hk2) in H. cbn in H. destruct H as [H|[]]. discriminate H.
Qed.
(** two fits of Greenwell's method with predictions h and -2*h + 3, and both indices *)
Definition vX : frame Z := {| f_cols := ["a"; "b"]; f_index := [0;1;2;3]%Z; f_num := ["a"]; f_rows := [[0;0];[0;1];[1;0];[1;1]]%Z |}.
Definition vh c k (r : list Z) : ext Q := match r with [x; y]%Z => Fin (inject_Z (c * (x * y) + k)) | _ => Fin 0%Q end.
Definition vP c k : nat -> list (list Z) -> result (list (ext Q)) := fun _ rows => Ok (map (vh c k) rows).
Example C87_example :
  (exists s1 s2 v1 v2, fitQ Greenwell init0 (mkargs (vP 1 0) vX None true None) = (s1, Ok tt) /\ fitQ Greenwell init0 (mkargs (vP (-2) 3) vX None true None) = (s2, Ok tt)
     /\ m_fi s1 = Some [("a", v1); ("b", Fin (1 # 8)%Q)] /\ m_fi s2 = Some [("a", v2); ("b", Fin (1 # 4)%Q)])
  /\ snd (add_fit Zcell xQ rotR ad0 (mkadd (vP 1 0) vX)) = Ok (Fin (2 # 3)%Q) /\ snd (add_fit Zcell xQ rotR ad0 (mkadd (vP (-2) 3) vX)) = Ok (Fin (2 # 3)%Q).
Proof.
  split; [|split; vm_compute; reflexivity]. eexists _, _, _, _. split; [vm_compute; reflexivity|]. split; [vm_compute; reflexivity|]. split; vm_compute; reflexivity.
Qed.

Print Assumptions C86_layout.
Print Assumptions C86_layout_additivity.
Print Assumptions C85_features.
Print Assumptions C87_importance.
Print Assumptions C87_greenwell.
Print Assumptions C87_additivity.
