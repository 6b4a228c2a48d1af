(** C133, continued: the normalised H statistic of nearby models, when the joint effect of the pair is not small. *)
From Verif Require Import Py Num NumR Sorting Frame Rng PdCalc PdSpec PdFacts PdProofs PdTheorems PdErrors PdApi PdMethods MethodSpec
  PdMethodFacts PdMethodRun PdMethodReal PdMethodReal2 Props_Pd Props_Methods Props_Methods2 Views Props_Views Props_Terms Props_Stable.
From Coq Require Import Reals Lra QArith.
Open Scope string_scope.
Open Scope nat_scope.
Open Scope list_scope.

(** ** Specification *)
(** the roots of two normalised values differ little compared with the spread [sigma] of the joint effect of the first model *)
Definition roots_close (eps sigma : R) (v v' : ext R) : Prop :=
  exists x x', v = Fin x /\ v' = Fin x' /\ (0 <= x)%R /\ (0 <= x')%R /\ (Rabs (sqrt x' - sqrt x) <= eps * (3 + sqrt x) / (sigma - eps))%R.
(** joint partial dependence of columns [p] and [q] at the rows of the data, and its standard deviation *)
Definition joint_spread {C} (rows : list (list C)) (h : list C -> R) (p q : nat) : R :=
  Rstd (map (fun r => match nth_error r p, nth_error r q with Some v, Some u => PD2 Rmean h rows p q v u | _, _ => 0%R end) rows).

Section Root.
  Context {C : Type} (rows : list (list C)) (Hne : rows <> []) (eps : R) (He : (0 <= eps)%R).
  Open Scope R_scope.
  Lemma ratio_close a a' b b' : 0 <= a -> 0 <= a' -> eps < b -> Rabs (a' - a) <= 3 * eps -> Rabs (b' - b) <= eps ->
    0 < b' /\ Rabs (a' / b' - a / b) <= eps * (3 + a / b) / (b - eps).
  Proof.
    intros Ha Ha' Hb Da Db. assert (Hb' : 0 < b - eps <= b') by (revert Db; unfold Rabs; destruct (Rcase_abs _); lra). split; [lra|].
    assert (Hx : 0 <= a / b) by (apply Rmult_le_pos; [exact Ha|left; apply Rinv_0_lt_compat; lra]).
    replace (a' / b' - a / b) with (((a' - a) - (a / b) * (b' - b)) * / b') by (field; lra).
    rewrite Rabs_mult, (Rabs_pos_eq (/ b')) by (left; apply Rinv_0_lt_compat; lra).
    apply Rmult_le_compat; [apply Rabs_pos|left; apply Rinv_0_lt_compat; lra| |apply Rinv_le_contravar; lra].
    assert (K : Rabs (a / b * (b' - b)) <= a / b * eps) by (rewrite Rabs_mult, (Rabs_pos_eq (a / b)) by exact Hx; apply Rmult_le_compat_l; assumption).
    eapply Rle_trans; [apply Rabs_triang|]. rewrite Rabs_Ropp. lra.
  Qed.
  Lemma H_root_close f12 f1 f2 f12' f1' f2' g12 g1 g2 g12' g1' g2' :
    is_fin rows g12 f12 -> is_fin rows g1 f1 -> is_fin rows g2 f2 -> is_fin rows g12' f12' -> is_fin rows g1' f1' -> is_fin rows g2' f2' ->
    (forall r, In r rows -> Rabs (f12' r - f12 r) <= eps) -> (forall r, In r rows -> Rabs (f1' r - f1 r) <= eps) -> (forall r, In r rows -> Rabs (f2' r - f2 r) <= eps) ->
    eps < Rstd (map f12 rows) -> roots_close eps (Rstd (map f12 rows)) (H_value xR rows true g12 g1 g2) (H_value xR rows true g12' g1' g2').
  Proof.
    intros A12 A1 A2 B12 B1 B2 D12 D1 D2 Hsig. rewrite (H_value_fin rows true g12 g1 g2 f12 f1 f2 A12 A1 A2), (H_value_fin rows true g12' g1' g2' f12' f1' f2' B12 B1 B2).
    pose proof (INR_pos_length rows Hne) as Hp. set (n := INR (length rows)) in *.
    set (a := sqrt (RHnum rows f12 f1 f2 / n)). set (a' := sqrt (RHnum rows f12' f1' f2' / n)).
    assert (Da : Rabs (a' - a) <= 3 * eps).
    { unfold a, a'. rewrite !RHnum_sum. rewrite <- (Rmult_1_l (3 * eps)).
      apply (rms_close rows _ _ (fun r => (f12' r - f1' r - f2' r) - (f12 r - f1 r - f2 r))); fold n; try lra.
      - intros r Hr. specialize (D12 r Hr). specialize (D1 r Hr). specialize (D2 r Hr). revert D12 D1 D2. unfold Rabs. repeat match goal with |- context [Rcase_abs ?p] => destruct (Rcase_abs p) end; lra.
      - apply rdev_add. intros; ring. }
    pose proof (Rstd_close rows f12 f12' eps Hne He D12) as Db.
    assert (S : forall f, Rstd (map f rows) = sqrt (RHden rows f / n)) by (intros f; unfold Rstd, Rmean, RHden; rewrite center_map, !map_map, !map_length; reflexivity).
    destruct (ratio_close a a' (Rstd (map f12 rows)) (Rstd (map f12' rows)) (sqrt_pos _) (sqrt_pos _) Hsig Da Db) as [Hb' K].
    assert (P : forall f, 0 < Rstd (map f rows) -> 0 < RHden rows f).
    { intros f Hf. destruct (Rle_lt_dec (RHden rows f) 0) as [L|L]; [|exact L]. exfalso. rewrite S, sqrt_neg_0 in Hf; [lra|]. unfold Rdiv. rewrite <- (Rmult_0_l (/ n)). apply Rmult_le_compat_r; [left; apply Rinv_0_lt_compat; exact Hp|exact L]. }
    assert (P1 : 0 < RHden rows f12) by (apply P; lra). assert (P2 : 0 < RHden rows f12') by (apply P, Hb').
    assert (E : forall g g1 g2, 0 < RHden rows g -> sqrt (RHnum rows g g1 g2 / RHden rows g) = sqrt (RHnum rows g g1 g2 / n) / Rstd (map g rows)).
    { intros g k1 k2 Hg. rewrite S, <- sqrt_div; [|apply Rmult_le_pos; [rewrite RHnum_sum; apply Lsum_nonneg|left; apply Rinv_0_lt_compat; exact Hp]|apply Rmult_lt_0_compat; [exact Hg|apply Rinv_0_lt_compat; exact Hp]].
      f_equal. field. split; lra. }
    rewrite !xR_div_fin by lra. eexists _, _. split; [reflexivity|]. split; [reflexivity|].
    split; [apply Rmult_le_pos; [rewrite RHnum_sum; apply Lsum_nonneg|left; apply Rinv_0_lt_compat; exact P1]|]. split; [apply Rmult_le_pos; [rewrite RHnum_sum; apply Lsum_nonneg|left; apply Rinv_0_lt_compat; exact P2]|].
    rewrite !E by assumption. exact K.
  Qed.
End Root.

Section Close.
  Context {C : Type} (rows : list (list C)) (w : nat) (Hw : forall r, In r rows -> length r = w) (Hne : rows <> []) (h h' : list C -> R) (eps : R)
          (Hh : models_close rows w eps h h').
  Open Scope R_scope.
  Lemma H_pair_root_close p q : (p < w)%nat -> (q < w)%nat -> eps < joint_spread rows h p q ->
    roots_close eps (joint_spread rows h p q) (H_pair xR (fun r => Fin (h r)) rows true p q) (H_pair xR (fun r => Fin (h' r)) rows true p q).
  Proof.
    intros Hp Hq Hsig. unfold H_pair. pose proof (eps_nonneg rows w Hw Hne h h' eps Hh) as He.
    apply (H_root_close rows Hne eps He (RPD2_at rows h p q) (RPD1_at rows h p) (RPD1_at rows h q) (RPD2_at rows h' p q) (RPD1_at rows h' p) (RPD1_at rows h' q));
      try (first [apply (PD2_at_fin rows w Hw)|apply (PD1_at_fin rows w Hw)]; assumption).
    - intros r Hr. unfold RPD2_at. pose proof (Hw r Hr) as Hr'.
      destruct (nth_error r p) as [v|] eqn:E; [|apply nth_error_None in E; lia]. destruct (nth_error r q) as [u|] eqn:E2; [|apply nth_error_None in E2; lia]. apply (PD2_close rows w Hw Hne h h' eps Hh); eauto.
    - intros r Hr. unfold RPD1_at. pose proof (Hw r Hr) as Hr'. destruct (nth_error r p) as [v|] eqn:E; [|apply nth_error_None in E; lia]. apply (PD1_close rows w Hw Hne h h' eps Hh); eauto.
    - intros r Hr. unfold RPD1_at. pose proof (Hw r Hr) as Hr'. destruct (nth_error r q) as [v|] eqn:E; [|apply nth_error_None in E; lia]. apply (PD1_close rows w Hw Hne h h' eps Hh); eauto.
    - exact Hsig.
  Qed.
  Lemma H_all_root_close p : (p < w)%nat -> eps < Rstd (map h rows) ->
    roots_close eps (Rstd (map h rows)) (H_all xR (fun r => Fin (h r)) rows true p) (H_all xR (fun r => Fin (h' r)) rows true p).
  Proof.
    intros Hp Hsig. unfold H_all. pose proof (eps_nonneg rows w Hw Hne h h' eps Hh) as He.
    apply (H_root_close rows Hne eps He h (RPD1_at rows h p) (RPDminus rows h p) h' (RPD1_at rows h' p) (RPDminus rows h' p));
      try (first [intros r _; reflexivity|apply (PD1_at_fin rows w Hw)|apply (PDminus_at_fin rows w Hw)]; assumption).
    - intros r Hr. apply Hh, (made_row rows w Hw), Hr.
    - intros r Hr. unfold RPD1_at. pose proof (Hw r Hr) as Hr'. destruct (nth_error r p) as [v|] eqn:E; [|apply nth_error_None in E; lia]. apply (PD1_close rows w Hw Hne h h' eps Hh); eauto.
    - intros r Hr. apply (PDminus_close rows w Hw Hne h h' eps Hh); assumption.
    - exact Hsig.
  Qed.
End Close.

(** ** C133 *)
Section Stable.
  Context {C G : Type} (O : cell_ops C) (HO : cell_ok O) (Rg : rng_ops G) (HR : rng_ok Rg) (srt : sorter) (Hs : sorter_ok srt).
  Notation fit := (PdMethods.fit O xR Rg srt).
  Notation "'fin' h" := (fun r => Fin (h r)) (at level 10, only parsing).
  Notation Hnan := (no_isnan_nan xR xR_ord).
  Notation close Xs := (models_close (f_rows Xs) (length (f_cols Xs))).

  Lemma or_zero_roots eps sg v v' : roots_close eps sg v v' -> roots_close eps sg (or_zero xR v) (or_zero xR v').
  Proof. intros (x & x' & -> & -> & H). exists x, x'. split; [reflexivity|]. split; [reflexivity|exact H]. Qed.

  (** normalised pair values: as close as the models are compared with the spread of the joint effect *)
  Theorem C133_normalised_pairs_partial s1 a1 s1' s2 a2 s2' h h' Xs eps p q f1 f2 t1 t2 v1 v2 :
    wf_frame (a_X a1) -> wf_frame (a_X a2) ->
    fit (Friedman true) s1 a1 = (s1', Ok tt) -> m_X s1' = Some Xs -> explains O xR a1 (fin h) Xs ->
    fit (Friedman true) s2 a2 = (s2', Ok tt) -> m_X s2' = Some Xs -> explains O xR a2 (fin h') Xs ->
    f_rows Xs <> [] -> close Xs eps h h' ->
    nth_error (f_cols Xs) p = Some f1 -> nth_error (f_cols Xs) q = Some f2 -> (eps < joint_spread (f_rows Xs) h p q)%R ->
    m_ovo s1' = Some t1 -> m_ovo s2' = Some t2 -> In (f1, f2, v1) t1 -> In (f1, f2, v2) t2 -> roots_close eps (joint_spread (f_rows Xs) h p q) v1 v2.
  Proof.
    intros HX1 HX2 H1 HXs1 He1 H2 HXs2 He2 Hne Hh Hpf Hqf Hsig Ht1 Ht2 Hv1 Hv2.
    destruct (friedman_fit O xR HO Hnan Rg HR srt true s1 a1 s1' _ Xs HX1 H1 HXs1 He1) as (HwX & _).
    destruct (C12_friedman_pairs O xR HO xR_ord x0 Rg HR srt Hs true s1 a1 s1' _ Xs HX1 H1 HXs1 He1) as (t & Ht & _ & Hval1 & _).
    rewrite Ht1 in Ht; injection Ht as <-.
    destruct (C12_friedman_pairs O xR HO xR_ord x0 Rg HR srt Hs true s2 a2 s2' _ Xs HX2 H2 HXs2 He2) as (t & Ht & _ & Hval2 & _).
    rewrite Ht2 in Ht; injection Ht as <-.
    destruct (Hval1 _ _ _ Hv1) as (p1 & q1 & Hp1 & Hq1 & Hpq & ->). destruct (Hval2 _ _ _ Hv2) as (p2 & q2 & Hp2 & Hq2 & _ & ->).
    apply (posn_nth Xs _ _ HwX) in Hp1 as <-. apply (posn_nth Xs _ _ HwX) in Hq1 as <-. apply (posn_nth Xs _ _ HwX) in Hp2 as <-. apply (posn_nth Xs _ _ HwX) in Hq2 as <-.
    rewrite (posn_nth Xs p f1 HwX Hpf), (posn_nth Xs q f2 HwX Hqf) in *. apply or_zero_roots.
    apply (H_pair_root_close (f_rows Xs) (length (f_cols Xs)) (wf_rows Xs HwX) Hne h h' eps Hh p q (pos_lt Xs p f1 Hpf) (pos_lt Xs q f2 Hqf) Hsig).
  Qed.
  (** one versus all: compared with the spread of the predictions *)
  Theorem C133_normalised_one_versus_all_partial s1 a1 s1' s2 a2 s2' h h' Xs eps f t1 t2 v1 v2 :
    wf_frame (a_X a1) -> wf_frame (a_X a2) ->
    fit (Friedman true) s1 a1 = (s1', Ok tt) -> m_X s1' = Some Xs -> explains O xR a1 (fin h) Xs -> a_ova a1 = true ->
    fit (Friedman true) s2 a2 = (s2', Ok tt) -> m_X s2' = Some Xs -> explains O xR a2 (fin h') Xs -> a_ova a2 = true ->
    f_rows Xs <> [] -> close Xs eps h h' -> (eps < Rstd (map h (f_rows Xs)))%R ->
    m_ova s1' = Some t1 -> m_ova s2' = Some t2 -> In (f, v1) t1 -> In (f, v2) t2 -> roots_close eps (Rstd (map h (f_rows Xs))) v1 v2.
  Proof.
    intros HX1 HX2 H1 HXs1 He1 Ho1 H2 HXs2 He2 Ho2 Hne Hh Hsig Ht1 Ht2 Hv1 Hv2.
    destruct (friedman_fit O xR HO Hnan Rg HR srt true s1 a1 s1' _ Xs HX1 H1 HXs1 He1) as (HwX & _).
    destruct (C13_friedman_ova O xR HO xR_ord x0 Rg HR srt Hs true s1 a1 s1' _ Xs HX1 H1 HXs1 He1 Ho1) as (t & Ht & _ & Hval1 & _).
    rewrite Ht1 in Ht; injection Ht as <-.
    destruct (C13_friedman_ova O xR HO xR_ord x0 Rg HR srt Hs true s2 a2 s2' _ Xs HX2 H2 HXs2 He2 Ho2) as (t & Ht & _ & Hval2 & _).
    rewrite Ht2 in Ht; injection Ht as <-.
    destruct (Hval1 _ _ Hv1) as (p & Hp & ->). destruct (Hval2 _ _ Hv2) as (p2 & Hp2 & ->).
    apply (posn_nth Xs _ _ HwX) in Hp2 as <-. rewrite (posn_nth Xs p f HwX Hp) in *. apply or_zero_roots.
    apply (H_all_root_close (f_rows Xs) (length (f_cols Xs)) (wf_rows Xs HwX) Hne h h' eps Hh p (pos_lt Xs p f Hp) Hsig).
  Qed.

  (** a model near one without the interaction: its normalised value is small compared with the joint effect *)
  Theorem C133_normalised_nearly_additive_partial s a s' h0 h Xs eps p q f1 f2 t v :
    wf_frame (a_X a) -> fit (Friedman true) s a = (s', Ok tt) -> m_X s' = Some Xs -> explains O xR a (fin h) Xs ->
    f_rows Xs <> [] -> close Xs eps h0 h ->
    nth_error (f_cols Xs) p = Some f1 -> nth_error (f_cols Xs) q = Some f2 -> additive_pair (length (f_cols Xs)) h0 p q -> (eps < joint_spread (f_rows Xs) h0 p q)%R ->
    m_ovo s' = Some t -> In (f1, f2, v) t -> exists x, v = Fin x /\ (0 <= x)%R /\ (sqrt x <= 3 * eps / (joint_spread (f_rows Xs) h0 p q - eps))%R.
  Proof.
    intros HX2 H2 HXs2 He2 Hne Hh Hpf Hqf Hadd Hsig Ht Hv.
    destruct (friedman_fit O xR HO Hnan Rg HR srt true s a s' _ Xs HX2 H2 HXs2 He2) as (HwX & _).
    destruct (C12_friedman_pairs O xR HO xR_ord x0 Rg HR srt Hs true s a s' _ Xs HX2 H2 HXs2 He2) as (u & Hu & _ & Hval & _).
    rewrite Ht in Hu; injection Hu as <-. destruct (Hval _ _ _ Hv) as (p1 & q1 & Hp1 & Hq1 & Hpq & ->).
    apply (posn_nth Xs _ _ HwX) in Hp1 as <-. apply (posn_nth Xs _ _ HwX) in Hq1 as <-. rewrite (posn_nth Xs p f1 HwX Hpf), (posn_nth Xs q f2 HwX Hqf) in *.
    pose proof (H_pair_root_close (f_rows Xs) (length (f_cols Xs)) (wf_rows Xs HwX) Hne h0 h eps Hh p q (pos_lt Xs p f1 Hpf) (pos_lt Xs q f2 Hqf) Hsig) as K. apply or_zero_roots in K.
    pose proof (H_pair_zero (f_rows Xs) (length (f_cols Xs)) (wf_rows Xs HwX) h0 true p q Hpq (pos_lt Xs p f1 Hpf) (pos_lt Xs q f2 Hqf) Hadd) as Z. rewrite Z in K.
    destruct K as (x & x' & E1 & E2 & _ & Hx' & K). injection E1 as <-. exists x'. split; [exact E2|]. split; [exact Hx'|]. rewrite sqrt_0, Rminus_0_r, Rplus_0_r, (Rmult_comm eps 3) in K. eapply Rle_trans; [apply Rle_abs|exact K].
  Qed.
End Stable.

(** ** A case meeting the hypotheses: every model within 1/50 of [x*y] reports the interaction of (a, b), also normalised *)
Lemma th_spread : joint_spread (f_rows rX) th 0 1 = sqrt (2 / 9).
Proof.
  assert (ED : RHden (f_rows rX) (RPD2_at (f_rows rX) th 0 1) = (6 / 9)%R) by (expand_H; unfold Rsqr; field).
  assert (S : forall f : list Z -> R, Rstd (map f (f_rows rX)) = sqrt (RHden (f_rows rX) f / 3)) by (intros f; unfold Rstd, Rmean, RHden; rewrite center_map, !map_map, !map_length; cbn [f_rows rX length INR]; do 2 f_equal; lra).
  unfold joint_spread. fold (RPD2_at (f_rows rX) th 0 1). rewrite S.
  rewrite ED. f_equal. field.
Qed.
Example C133_normalised_example h' : models_close (f_rows rX) 3 (1 / 50) th h' ->
  exists s t x, PdMethods.fit Zcell xR rotR isort (Friedman true) init0 (rargs h' true) = (s, Ok tt) /\ m_ovo s = Some t /\ In ("a", "b", Fin x) t /\ (1 / 40 < x)%R.
Proof.
  intros Hh. destruct (rfit_ok true th true) as (s1 & E1 & X1). destruct (rfit_ok true h' true) as (s2 & E2 & X2).
  destruct (C12_friedman_pairs Zcell xR Zcell_ok xR_ord eq_refl rotR rotR_ok isort isort_ok true init0 (rargs th true) s1 _ rX rX_wf E1 X1 (rargs_explains _ true)) as (t1 & T1 & K1 & V1 & _).
  destruct (C12_friedman_pairs Zcell xR Zcell_ok xR_ord eq_refl rotR rotR_ok isort isort_ok true init0 (rargs h' true) s2 _ rX rX_wf E2 X2 (rargs_explains _ true)) as (t2 & T2 & K2 & _).
  assert (I1 : In ("a", "b") (map fst t1)) by (rewrite K1; cbn; auto). assert (I2 : In ("a", "b") (map fst t2)) by (rewrite K2; cbn; auto).
  apply in_map_iff in I1 as ([[f1 f2] v1] & F1 & I1). injection F1 as -> ->. apply in_map_iff in I2 as ([[f1 f2] v2] & F2 & I2). injection F2 as -> ->.
  assert (B : (47 / 100 < sqrt (2 / 9))%R). { rewrite <- (sqrt_Rsqr (47 / 100)) by lra. apply sqrt_lt_1_alt. unfold Rsqr. lra. }
  assert (Hsig : (1 / 50 < joint_spread (f_rows rX) th 0 1)%R) by (rewrite th_spread; lra). assert (Hne : f_rows rX <> []) by discriminate.
  destruct (C133_normalised_pairs_partial Zcell Zcell_ok rotR rotR_ok isort isort_ok init0 (rargs th true) s1 init0 (rargs h' true) s2 th h' rX (1 / 50) 0 1 "a" "b" t1 t2 v1 v2
              rX_wf rX_wf E1 X1 (rargs_explains _ true) E2 X2 (rargs_explains _ true) Hne Hh eq_refl eq_refl Hsig T1 T2 I1 I2) as (x & x' & Ev1 & Ev2 & Hx & Hx' & K).
  exists s2, t2, x'. split; [exact E2|]. split; [exact T2|]. split; [rewrite <- Ev2; exact I2|].
  destruct (V1 _ _ _ I1) as (p & q & Hp & Hq & _ & Ev). 
  assert (p = 0) as -> by (apply (proj1 (NoDup_nth_error (f_cols rX)) (proj1 rX_wf)); [apply nth_error_Some; rewrite Hp; discriminate|rewrite Hp; reflexivity]).
  assert (q = 1) as -> by (apply (proj1 (NoDup_nth_error (f_cols rX)) (proj1 rX_wf)); [apply nth_error_Some; rewrite Hq; discriminate|rewrite Hq; reflexivity]).
  rewrite (th_H true) in Ev. rewrite Ev1 in Ev. cbn in Ev. injection Ev as ->.
  assert (R3 : sqrt (1 / 9) = (1 / 3)%R) by (replace (1 / 9)%R with (Rsqr (1 / 3)) by (unfold Rsqr; lra); apply sqrt_Rsqr; lra). rewrite R3, th_spread in K.
  assert (K' : (1 / 50 * (3 + 1 / 3) / (sqrt (2 / 9) - 1 / 50) <= 15 / 100)%R).
  { apply (Rmult_le_reg_r (sqrt (2 / 9) - 1 / 50)); [lra|]. unfold Rdiv at 1. rewrite Rmult_assoc, Rinv_l by lra. lra. }
  assert (L : (18 / 100 <= sqrt x')%R) by (revert K; unfold Rabs; destruct (Rcase_abs _); lra).
  rewrite <- (sqrt_sqrt x' Hx'). nra.
Qed.
Print Assumptions C133_normalised_pairs_partial.
Print Assumptions C133_normalised_one_versus_all_partial.
Print Assumptions C133_normalised_nearly_additive_partial.
