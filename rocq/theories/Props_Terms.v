(** C127: which terms of the model a value of a partial dependence based method does not see. *)
From Verif Require Import Py Num NumR Sorting Frame Rng PdCalc PdSpec PdFacts PdProofs PdTheorems PdErrors PdApi PdMethods MethodSpec
  PdMethodFacts PdMethodRun PdMethodReal PdMethodReal2 GreenwellFacts Props_Pd Props_Methods Props_Methods2 Views Props_Views.
From Coq Require Import Reals Lra QArith.
Open Scope string_scope.
Open Scope nat_scope.
Open Scope list_scope.

(** ** Specification *)

(** [e], a function of rows with [w] cells, does not use its [p]-th cell *)
Definition does_not_use {C} (w : nat) (e : list C -> R) (p : nat) : Prop := forall r v, length r = w -> e (with_value p v r) = e r.
(** a term using [p] but not [q] plus a term using [q] but not [p], both free to use all other cells *)
Definition not_together {C} (w : nat) (e : list C -> R) (p q : nat) : Prop :=
  exists a b, (forall r, length r = w -> e r = a r + b r)%R /\ does_not_use w a p /\ does_not_use w b q.
(** a term of [p] alone plus a term without it *)
Definition not_mixed {C} (w : nat) (e : list C -> R) (p : nat) : Prop :=
  exists a b, (forall r, length r = w -> e r = a (nth_error r p) + b r)%R /\ does_not_use w b p.

(** ** The real forms *)
Lemma RHnum_shift {A} (rows : list A) f12 f1 f2 f12' f1' f2' k :
  (forall r, In r rows -> f12' r - f1' r - f2' r = f12 r - f1 r - f2 r + k)%R -> RHnum rows f12' f1' f2' = RHnum rows f12 f1 f2.
Proof.
  intros H. destruct rows as [|r0 t] eqn:Er; [reflexivity|]. rewrite <- Er in *. assert (Hne : rows <> []) by (rewrite Er; discriminate). clear Er.
  unfold RHnum. apply Rsum_map_ext. intros r Hr. f_equal. unfold rdev.
  assert (Hm : (Rmean (map f12' rows) - Rmean (map f1' rows) - Rmean (map f2' rows) = Rmean (map f12 rows) - Rmean (map f1 rows) - Rmean (map f2 rows) + k)%R).
  { rewrite <- !Rmean_map_sub. rewrite <- (Rmean_map_const k rows) at 1 by exact Hne. rewrite <- Rmean_map_add. apply Rmean_map_ext. exact H. }
  specialize (H r Hr). lra.
Qed.
Lemma RHden_shift {A} (rows : list A) f12 f12' k : (forall r, In r rows -> f12' r = f12 r + k)%R -> RHden rows f12' = RHden rows f12.
Proof.
  intros H. destruct rows as [|r0 t] eqn:Er; [reflexivity|]. rewrite <- Er in *. assert (Hne : rows <> []) by (rewrite Er; discriminate). clear Er.
  unfold RHden. apply Rsum_map_ext. intros r Hr. f_equal. unfold rdev.
  assert (Hm : (Rmean (map f12' rows) = Rmean (map f12 rows) + k)%R).
  { rewrite <- (Rmean_map_const k rows) at 1 by exact Hne. rewrite <- Rmean_map_add. apply Rmean_map_ext. exact H. }
  specialize (H r Hr). lra.
Qed.

Section Sum.
  Context {C : Type} (rows : list (list C)) (w : nat) (Hw : forall r, In r rows -> length r = w) (h e h' : list C -> R)
          (Hh : forall r, length r = w -> h' r = (h r + e r)%R).
  Let Hl r j x : In r rows -> j < w -> length (with_value j x r) = w.
  Proof. intros Hr Hj. rewrite with_value_length by (rewrite (Hw r Hr); exact Hj). apply Hw, Hr. Qed.
  Lemma PD1_sum p v : p < w -> (PD1 Rmean h' rows p v = PD1 Rmean h rows p v + PD1 Rmean e rows p v)%R.
  Proof. intros Hp. unfold PD1. rewrite <- Rmean_map_add. apply Rmean_map_ext. intros r Hr. apply Hh, Hl; assumption. Qed.
  Lemma PD2_sum p q v u : p < w -> q < w -> (PD2 Rmean h' rows p q v u = PD2 Rmean h rows p q v u + PD2 Rmean e rows p q v u)%R.
  Proof.
    intros Hp Hq. unfold PD2. rewrite <- Rmean_map_add. apply Rmean_map_ext. intros r Hr. apply Hh. rewrite with_value_length; rewrite (Hl r p v Hr Hp); auto.
  Qed.
  Lemma PDminus_sum p r : In r rows -> p < w -> (RPDminus rows h' p r = RPDminus rows h p r + RPDminus rows e p r)%R.
  Proof.
    intros Hr Hp. unfold RPDminus. rewrite <- Rmean_map_add. apply Rmean_map_ext. intros s Hs.
    destruct (nth_error s p) as [v|]; [apply Hh, Hl; assumption|lra].
  Qed.

  Lemma PD1_ignored p v : rows <> [] -> does_not_use w e p -> PD1 Rmean e rows p v = Rmean (map e rows).
  Proof. intros Hne H. unfold PD1. apply Rmean_map_ext. intros r Hr. apply H, Hw, Hr. Qed.
  Lemma PD2_ignored p q v u : p < w -> does_not_use w e p -> does_not_use w e q -> PD2 Rmean e rows p q v u = Rmean (map e rows).
  Proof. intros Hp H1 H2. unfold PD2. apply Rmean_map_ext. intros r Hr. rewrite H2 by (apply Hl; assumption). apply H1, Hw, Hr. Qed.

  Lemma H_pair_terms (norm : bool) p q : p <> q -> p < w -> q < w ->
    (if norm then does_not_use w e p /\ does_not_use w e q else not_together w e p q) ->
    H_pair xR (fun r => Fin (h' r)) rows norm p q = H_pair xR (fun r => Fin (h r)) rows norm p q.
  Proof.
    intros Hpq Hp Hq He. destruct rows as [|r0 t] eqn:Er; [reflexivity|]. rewrite <- Er in *. assert (Hne : rows <> []) by (rewrite Er; discriminate). clear Er.
    unfold H_pair. rewrite (H_value_fin rows norm _ _ _ (RPD2_at rows h' p q) (RPD1_at rows h' p) (RPD1_at rows h' q)) by (first [apply (PD2_at_fin rows w Hw)|apply (PD1_at_fin rows w Hw)]; assumption).
    rewrite (H_value_fin rows norm _ _ _ (RPD2_at rows h p q) (RPD1_at rows h p) (RPD1_at rows h q)) by (first [apply (PD2_at_fin rows w Hw)|apply (PD1_at_fin rows w Hw)]; assumption).
    assert (Ht : not_together w e p q).
    { destruct norm; [|exact He]. destruct He as [He1 He2]. exists e, (fun _ => 0%R). split; [intros; lra|]. split; [exact He1|intros r v _; reflexivity]. }
    assert (EN : RHnum rows (RPD2_at rows h' p q) (RPD1_at rows h' p) (RPD1_at rows h' q) = RHnum rows (RPD2_at rows h p q) (RPD1_at rows h p) (RPD1_at rows h q)).
    { destruct Ht as (a & b & Hab & Ha & Hb). apply (RHnum_shift _ _ _ _ _ _ _ (- (Rmean (map a rows) + Rmean (map b rows)))%R). intros r Hr. unfold RPD2_at, RPD1_at. pose proof (Hw r Hr) as Hr'.
      destruct (nth_error r p) as [v|] eqn:E; [|apply nth_error_None in E; lia]. destruct (nth_error r q) as [u|] eqn:E2; [|apply nth_error_None in E2; lia].
      rewrite PD2_sum, !PD1_sum by assumption. destruct (additive_PD2 rows w Hw e p q v u Hpq Hp Hq a b Hab Ha Hb) as (-> & -> & ->). lra. }
    rewrite EN. destruct norm; [|reflexivity]. do 2 f_equal. destruct He as [He1 He2]. apply (RHden_shift _ _ _ (Rmean (map e rows))). intros r Hr. unfold RPD2_at. pose proof (Hw r Hr) as Hr'.
    destruct (nth_error r p) as [v|] eqn:E; [|apply nth_error_None in E; lia]. destruct (nth_error r q) as [u|] eqn:E2; [|apply nth_error_None in E2; lia].
    rewrite PD2_sum by assumption. rewrite PD2_ignored by assumption. reflexivity.
  Qed.

  Lemma H_all_terms p : p < w -> not_mixed w e p ->
    H_all xR (fun r => Fin (h' r)) rows false p = H_all xR (fun r => Fin (h r)) rows false p.
  Proof.
    intros Hp (a & b & Hab & Hb). destruct rows as [|r0 t] eqn:Er; [reflexivity|]. rewrite <- Er in *. assert (Hne : rows <> []) by (rewrite Er; discriminate). clear Er.
    unfold H_all. rewrite (H_value_fin rows false _ _ _ h' (RPD1_at rows h' p) (RPDminus rows h' p)) by (first [intros r _; reflexivity|apply (PD1_at_fin rows w Hw)|apply (PDminus_at_fin rows w Hw)]; assumption).
    rewrite (H_value_fin rows false _ _ _ h (RPD1_at rows h p) (RPDminus rows h p)) by (first [intros r _; reflexivity|apply (PD1_at_fin rows w Hw)|apply (PDminus_at_fin rows w Hw)]; assumption).
    do 3 f_equal. apply (RHnum_shift _ _ _ _ _ _ _ (- (Rmean (map b rows) + Rmean (map (fun r => a (nth_error r p)) rows)))%R). intros r Hr. pose proof (Hw r Hr) as Hr'.
    assert (H1 : (RPD1_at rows e p r = a (nth_error r p) + Rmean (map b rows))%R).
    { unfold RPD1_at. destruct (nth_error r p) as [v|] eqn:E; [|apply nth_error_None in E; lia].
      unfold PD1. rewrite <- (Rmean_map_const (a (Some v)) rows Hne), <- Rmean_map_add. apply Rmean_map_ext. intros s Hs.
      rewrite Hab by (apply Hl; assumption). rewrite with_value_nth, Nat.eqb_refl by (rewrite (Hw s Hs); exact Hp). rewrite Hb by (apply Hw, Hs). reflexivity. }
    assert (H2 : (RPDminus rows e p r = Rmean (map (fun r => a (nth_error r p)) rows) + b r)%R).
    { unfold RPDminus. rewrite <- (Rmean_map_const (b r) rows Hne), <- Rmean_map_add. apply Rmean_map_ext. intros s Hs.
      destruct (nth_error s p) as [v|] eqn:E; [|apply nth_error_None in E; rewrite (Hw s Hs) in E; lia].
      rewrite Hab by (apply Hl; assumption). rewrite with_value_nth, Nat.eqb_refl by (rewrite Hr'; exact Hp). rewrite Hb by exact Hr'. reflexivity. }
    assert (H3 : (RPD1_at rows h' p r = RPD1_at rows h p r + RPD1_at rows e p r)%R).
    { unfold RPD1_at. destruct (nth_error r p) as [v|] eqn:E; [|apply nth_error_None in E; lia]. apply PD1_sum, Hp. }
    rewrite H3, PDminus_sum, H1, H2, (Hh r Hr'), (Hab r Hr') by assumption. lra.
  Qed.
End Sum.

(** ** C127 *)
Section Terms.
  Context {C G : Type} (O : cell_ops C) (HO : cell_ok O) (Rg : rng_ops G) (HR : rng_ok Rg) (srt : sorter) (Hs : sorter_ok srt).
  Notation fit := (PdMethods.fit O xR Rg srt).
  Notation "'fin' h" := (fun r => Fin (h r)) (at level 10, only parsing).
  Notation Hnan := (no_isnan_nan xR xR_ord).

  Lemma x0 : n_isnan xR (n_ofZ xR 0) = false. Proof. reflexivity. Qed.

  (** Friedman's pairs: terms without one of the two features, for the normalised statistic
      without both *)
  Theorem C127_pairs norm s1 a1 s1' s2 a2 s2' h e h' Xs p q f1 f2 t1 t2 v1 v2 :
    wf_frame (a_X a1) -> wf_frame (a_X a2) ->
    fit (Friedman norm) s1 a1 = (s1', Ok tt) -> m_X s1' = Some Xs -> explains O xR a1 (fin h) Xs ->
    fit (Friedman norm) s2 a2 = (s2', Ok tt) -> m_X s2' = Some Xs -> explains O xR a2 (fin h') Xs ->
    (forall r, length r = length (f_cols Xs) -> h' r = h r + e r)%R ->
    nth_error (f_cols Xs) p = Some f1 -> nth_error (f_cols Xs) q = Some f2 ->
    (if norm then does_not_use (length (f_cols Xs)) e p /\ does_not_use (length (f_cols Xs)) e q
     else not_together (length (f_cols Xs)) e p q) ->
    m_ovo s1' = Some t1 -> m_ovo s2' = Some t2 -> In (f1, f2, v1) t1 -> In (f1, f2, v2) t2 -> v2 = v1.
  Proof.
    intros HX1 HX2 H1 HXs1 He1 H2 HXs2 He2 Hh Hp Hq He Ht1 Ht2 Hv1 Hv2.
    destruct (friedman_fit O xR HO Hnan Rg HR srt norm s1 a1 s1' _ Xs HX1 H1 HXs1 He1) as (HwX & _).
    destruct (C12_friedman_pairs O xR HO xR_ord x0 Rg HR srt Hs norm s1 a1 s1' _ Xs HX1 H1 HXs1 He1) as (t & Ht & _ & Hval1 & _).
    rewrite Ht1 in Ht; injection Ht as <-.
    destruct (C12_friedman_pairs O xR HO xR_ord x0 Rg HR srt Hs norm s2 a2 s2' _ Xs HX2 H2 HXs2 He2) as (t & Ht & _ & Hval2 & _).
    rewrite Ht2 in Ht; injection Ht as <-.
    destruct (Hval1 _ _ _ Hv1) as (p1 & q1 & Hp1 & Hq1 & Hpq & ->). destruct (Hval2 _ _ _ Hv2) as (p2 & q2 & Hp2 & Hq2 & _ & ->).
    apply (posn_nth Xs _ _ HwX) in Hp1 as <-. apply (posn_nth Xs _ _ HwX) in Hq1 as <-. apply (posn_nth Xs _ _ HwX) in Hp2 as <-. apply (posn_nth Xs _ _ HwX) in Hq2 as <-.
    rewrite (posn_nth Xs p f1 HwX Hp), (posn_nth Xs q f2 HwX Hq) in *. f_equal.
    apply (H_pair_terms (f_rows Xs) (length (f_cols Xs)) (wf_rows Xs HwX) h e h' Hh norm p q Hpq (pos_lt Xs p f1 Hp) (pos_lt Xs q f2 Hq) He).
  Qed.

  (** one versus all: terms not mixing the feature with others *)
  Theorem C127_one_versus_all s1 a1 s1' s2 a2 s2' h e h' Xs p f t1 t2 v1 v2 :
    wf_frame (a_X a1) -> wf_frame (a_X a2) ->
    fit (Friedman false) s1 a1 = (s1', Ok tt) -> m_X s1' = Some Xs -> explains O xR a1 (fin h) Xs -> a_ova a1 = true ->
    fit (Friedman false) s2 a2 = (s2', Ok tt) -> m_X s2' = Some Xs -> explains O xR a2 (fin h') Xs -> a_ova a2 = true ->
    (forall r, length r = length (f_cols Xs) -> h' r = h r + e r)%R ->
    nth_error (f_cols Xs) p = Some f -> not_mixed (length (f_cols Xs)) e p ->
    m_ova s1' = Some t1 -> m_ova s2' = Some t2 -> In (f, v1) t1 -> In (f, v2) t2 -> v2 = v1.
  Proof.
    intros HX1 HX2 H1 HXs1 He1 Ho1 H2 HXs2 He2 Ho2 Hh Hp He Ht1 Ht2 Hv1 Hv2.
    destruct (friedman_fit O xR HO Hnan Rg HR srt false s1 a1 s1' _ Xs HX1 H1 HXs1 He1) as (HwX & _).
    destruct (C13_friedman_ova O xR HO xR_ord x0 Rg HR srt Hs false s1 a1 s1' _ Xs HX1 H1 HXs1 He1 Ho1) as (t & Ht & _ & Hval1 & _).
    rewrite Ht1 in Ht; injection Ht as <-.
    destruct (C13_friedman_ova O xR HO xR_ord x0 Rg HR srt Hs false s2 a2 s2' _ Xs HX2 H2 HXs2 He2 Ho2) as (t & Ht & _ & Hval2 & _).
    rewrite Ht2 in Ht; injection Ht as <-.
    destruct (Hval1 _ _ Hv1) as (p1 & Hp1 & ->). destruct (Hval2 _ _ Hv2) as (p2 & Hp2 & ->).
    apply (posn_nth Xs _ _ HwX) in Hp1 as <-. apply (posn_nth Xs _ _ HwX) in Hp2 as <-.
    rewrite (posn_nth Xs p f HwX Hp) in *. f_equal.
    apply (H_all_terms (f_rows Xs) (length (f_cols Xs)) (wf_rows Xs HwX) h e h' Hh p (pos_lt Xs p f Hp) He).
  Qed.

  (** Greenwell's pairs: terms without the two features *)
  Theorem C127_greenwell s1 a1 s1' s2 a2 s2' h e h' Xs p q f1 f2 t1 t2 v1 v2 :
    wf_frame (a_X a1) -> wf_frame (a_X a2) ->
    fit Greenwell s1 a1 = (s1', Ok tt) -> m_X s1' = Some Xs -> explains O xR a1 (fin h) Xs ->
    fit Greenwell s2 a2 = (s2', Ok tt) -> m_X s2' = Some Xs -> explains O xR a2 (fin h') Xs ->
    (forall r, length r = length (f_cols Xs) -> h' r = h r + e r)%R ->
    nth_error (f_cols Xs) p = Some f1 -> nth_error (f_cols Xs) q = Some f2 ->
    does_not_use (length (f_cols Xs)) e p -> does_not_use (length (f_cols Xs)) e q ->
    m_ovo s1' = Some t1 -> m_ovo s2' = Some t2 -> In (f1, f2, v1) t1 -> In (f1, f2, v2) t2 -> v2 = v1.
  Proof.
    intros HX1 HX2 F1 E1 He1 F2 E2 He2 Hh Hp Hq N1 N2 T1 T2 I1 I2. destruct (fit_complete O HO Rg HR srt _ s1 a1 s1' _ Xs HX1 F1 E1 He1) as (W & Hc & _).
    destruct (C17_greenwell_pairs O HO Rg HR srt Hs s1 a1 s1' h Xs HX1 F1 E1 He1) as (u1 & U1 & _ & V1 & _). assert (u1 = t1) by congruence. subst u1.
    destruct (C17_greenwell_pairs O HO Rg HR srt Hs s2 a2 s2' h' Xs HX2 F2 E2 He2) as (u2 & U2 & _ & V2 & _). assert (u2 = t2) by congruence. subst u2.
    assert (Inj : forall i j f, nth_error (f_cols Xs) i = Some f -> nth_error (f_cols Xs) j = Some f -> i = j) by (intros i j f Hi Hj; apply (proj1 (NoDup_nth_error _) (proj1 W)); [eapply pos_lt; exact Hi|congruence]).
    destruct (V1 _ _ _ I1) as (p1 & q1 & Hp1 & Hq1 & _ & L1 & L2 & ->). rewrite (Inj _ _ _ Hp1 Hp), (Inj _ _ _ Hq1 Hq) in *. clear p1 q1 Hp1 Hq1.
    destruct (V2 _ _ _ I2) as (p2 & q2 & Hp2 & Hq2 & _ & _ & _ & ->). rewrite (Inj _ _ _ Hp2 Hp), (Inj _ _ _ Hq2 Hq) in *. clear p2 q2 Hp2 Hq2.
    f_equal. rewrite <- (Rmult_1_l (Rgreenwell _ _ (fun v u => PD2 Rmean h _ _ _ v u) _ _)). rewrite <- (Rabs_R1) at 1.
    apply (Rgreenwell_affine _ _ _ _ _ _ 1 (Rmean (map e (f_rows Xs)))); [exact L1|exact L2|]. intros v u.
    rewrite (PD2_sum (f_rows Xs) (length (f_cols Xs)) (wf_rows Xs W) h e h' Hh), (PD2_ignored (f_rows Xs) (length (f_cols Xs)) (wf_rows Xs W) e) by (first [eapply pos_lt; eassumption|assumption]). lra.
  Qed.

  (** the importance of a feature: terms without it *)
  Theorem C127_importance k1 k2 s1 a1 s1' s2 a2 s2' h e h' Xs p f t1 t2 v1 v2 :
    wf_frame (a_X a1) -> wf_frame (a_X a2) ->
    fit k1 s1 a1 = (s1', Ok tt) -> m_X s1' = Some Xs -> explains O xR a1 (fin h) Xs ->
    fit k2 s2 a2 = (s2', Ok tt) -> m_X s2' = Some Xs -> explains O xR a2 (fin h') Xs ->
    (forall r, length r = length (f_cols Xs) -> h' r = h r + e r)%R ->
    nth_error (f_cols Xs) p = Some f -> does_not_use (length (f_cols Xs)) e p ->
    m_fi s1' = Some t1 -> m_fi s2' = Some t2 -> In (f, v1) t1 -> In (f, v2) t2 -> v2 = v1.
  Proof.
    intros HX1 HX2 F1 E1 He1 F2 E2 He2 Hh Hp N1 T1 T2 I1 I2. destruct (fit_complete O HO Rg HR srt _ s1 a1 s1' _ Xs HX1 F1 E1 He1) as (W & Hc & _).
    destruct (C20_fit_importance O HO Rg HR srt Hs k1 s1 a1 s1' h Xs HX1 F1 E1 He1) as (u1 & U1 & _ & V1 & _). assert (u1 = t1) by congruence. subst u1.
    destruct (C20_fit_importance O HO Rg HR srt Hs k2 s2 a2 s2' h' Xs HX2 F2 E2 He2) as (u2 & U2 & _ & V2 & _). assert (u2 = t2) by congruence. subst u2.
    assert (Inj : forall i j f, nth_error (f_cols Xs) i = Some f -> nth_error (f_cols Xs) j = Some f -> i = j) by (intros i j f0 Hi Hj; apply (proj1 (NoDup_nth_error _) (proj1 W)); [eapply pos_lt; exact Hi|congruence]).
    destruct (V1 _ _ I1) as (p1 & Hp1 & ->). rewrite (Inj _ _ _ Hp1 Hp) in *. destruct (V2 _ _ I2) as (p2 & Hp2 & ->). rewrite (Inj _ _ _ Hp2 Hp) in *. clear p1 p2 Hp1 Hp2. f_equal.
    destruct (f_rows Xs) as [|r0 rows] eqn:Er; [reflexivity|]. rewrite <- Er. set (U := np_unique O (col_at p (f_rows Xs))).
    assert (Hne : f_rows Xs <> []) by (rewrite Er; discriminate).
    assert (HU : U <> []).
    { assert (L0 : p < length r0) by (rewrite (wf_rows Xs W r0) by (rewrite Er; left; reflexivity); eapply pos_lt; exact Hp).
      destruct (nth_error r0 p) as [x|] eqn:Ex; [|apply nth_error_None in Ex; lia].
      assert (Hx : In x (col_at p (f_rows Xs))) by (apply col_at_In; exists r0; split; [rewrite Er; left; reflexivity|exact Ex]).
      assert (In x U) by (apply (np_unique_In O HO); [eapply Hc; eassumption|exact Hx]). intros E. rewrite E in H. exact H. }
    rewrite (map_ext _ (fun v => 1 * PD1 Rmean h (f_rows Xs) p v + Rmean (map e (f_rows Xs)))%R).
    2:{ intros v. rewrite (PD1_sum (f_rows Xs) (length (f_cols Xs)) (wf_rows Xs W) h e h' Hh) by (eapply pos_lt; exact Hp). rewrite (PD1_ignored (f_rows Xs) (length (f_cols Xs)) (wf_rows Xs W) e) by assumption. lra. }
    rewrite <- (map_map (PD1 Rmean h (f_rows Xs) p) (fun x => 1 * x + Rmean (map e (f_rows Xs)))%R). rewrite Rspread_affine by (destruct U; [congruence|discriminate]). rewrite Rabs_R1. lra.
  Qed.
End Terms.

(** ** Example: the model [x*y] and the same model with the terms [x*z + 2*y*z] (without normalisation)
    or [z*z] (with it) *)
Definition cell3 (f : R -> R -> R -> R) (r : list Z) : R := match r with [x; y; z] => f (IZR x) (IZR y) (IZR z) | _ => 0%R end.
Definition th : list Z -> R := cell3 (fun x y z => x * y)%R.
Definition te (norm : bool) : list Z -> R := if norm then cell3 (fun x y z => z * z)%R else cell3 (fun x y z => x * z + 2 * y * z)%R.
Definition th' norm (r : list Z) : R := (th r + te norm r)%R.

Example C127_example norm :
  exists s1 s2 t1 t2 v, PdMethods.fit Zcell xR rotR isort (Friedman norm) init0 (rargs th true) = (s1, Ok tt)
    /\ PdMethods.fit Zcell xR rotR isort (Friedman norm) init0 (rargs (th' norm) true) = (s2, Ok tt)
    /\ m_ovo s1 = Some t1 /\ m_ovo s2 = Some t2 /\ In ("a", "b", v) t1 /\ In ("a", "b", v) t2.
Proof.
  destruct (rfit_ok norm th true) as (s1 & E1 & X1). destruct (rfit_ok norm (th' norm) true) as (s2 & E2 & X2).
  destruct (C12_friedman_pairs Zcell xR Zcell_ok xR_ord eq_refl rotR rotR_ok isort isort_ok norm init0 (rargs th true) s1 _ rX rX_wf E1 X1 (rargs_explains _ true)) as (t1 & T1 & K1 & _).
  destruct (C12_friedman_pairs Zcell xR Zcell_ok xR_ord eq_refl rotR rotR_ok isort isort_ok norm init0 (rargs (th' norm) true) s2 _ rX rX_wf E2 X2 (rargs_explains _ true)) as (t2 & T2 & K2 & _).
  assert (I1 : In ("a", "b") (map fst t1)) by (rewrite K1; cbn; auto). assert (I2 : In ("a", "b") (map fst t2)) by (rewrite K2; cbn; auto).
  apply in_map_iff in I1 as ([[f1 f2] v1] & F1 & I1). injection F1 as -> ->. apply in_map_iff in I2 as ([[f1 f2] v2] & F2 & I2). injection F2 as -> ->.
  assert (v2 = v1).
  { refine (C127_pairs Zcell Zcell_ok rotR rotR_ok isort isort_ok norm init0 (rargs th true) s1 init0 (rargs (th' norm) true) s2 th (te norm) (th' norm) rX 0 1 "a" "b" t1 t2 v1 v2
              rX_wf rX_wf E1 X1 (rargs_explains _ true) E2 X2 (rargs_explains _ true) (fun r _ => eq_refl) eq_refl eq_refl _ T1 T2 I1 I2).
    destruct norm.
    - split; intros r v Hl; destruct r as [|x [|y [|z [|]]]]; try discriminate Hl; unfold te, cell3, with_value; cbn [firstn skipn app]; reflexivity.
    - exists (cell3 (fun x y z => 2 * y * z)%R), (cell3 (fun x y z => x * z)%R). split; [|split]; intros r; [intros Hl|intros v Hl..]; destruct r as [|x [|y [|z [|]]]]; try discriminate Hl; unfold te, cell3, with_value; cbn [firstn skipn app]; try reflexivity; lra. }
  subst v2. exists s1, s2, t1, t2, v1. repeat split; assumption.
Qed.

Print Assumptions C127_pairs.
Print Assumptions C127_one_versus_all.
Print Assumptions C127_greenwell.
Print Assumptions C127_importance.
