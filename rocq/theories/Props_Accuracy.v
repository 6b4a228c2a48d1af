(** C136: how far the values computed in doubles are from the exact ones. *)
From Verif Require Import Py Num NumR Float FloatRound FloatMono FloatOps FloatErr FloatInt FloatReal Sorting Frame Rng PdCalc PdSpec PdFacts PdProofs PdTheorems PdErrors PdApi PdMethods MethodSpec
  PdMethodFacts PdMethodRun PdMethodReal PdMethodReal2 GreenwellFacts Props_Pd Props_Methods Props_Methods2 Props_Float Views Props_Views Comparator Props_Compare Props_Terms Props_Stable.
From Coq Require Import ZArith SpecFloat Reals Lra Lia.
Open Scope string_scope.
Open Scope nat_scope.
Open Scope list_scope.

(** ** Specification *)

(** every prediction on a row made of cells of the data is a number, at most [B] in absolute value *)
Definition numbers_within {C} (rows : list (list C)) (w : nat) (B : R) (g : list C -> F) : Prop :=
  forall r, made_of rows w r -> finite (g r) /\ (Rabs (fv (g r)) <= B)%R.
(** the model with the same predictions, as real numbers *)
Definition exactly {C} (g : list C -> F) : list C -> R := fun r => fv (g r).
(** the root mean square deviation of a function from its mean over the data *)
Definition deviation {A} (rows : list A) (f : A -> R) : R := sqrt (Rmean (map (fun r => Rsqr (f r - Rmean (map f rows))) rows)).
(** a double that is a number, at most [e] from [r] *)
Definition within (e : R) (x : F) (r : R) : Prop := finite x /\ (Rabs (fv x - r) <= e)%R.

(** ** Rounding errors of the steps *)
Definition near (x : F) (r e b : R) : Prop := finite x /\ (Rabs (fv x - r) <= e)%R /\ (Rabs r <= b)%R.

Ltac abs := unfold Rabs in *; repeat match goal with |- context [Rcase_abs ?p] => destruct (Rcase_abs p) | H : context [Rcase_abs ?p] |- _ => destruct (Rcase_abs p) end.

Lemma near_le x r e b e' b' : near x r e b -> (e <= e')%R -> (b <= b')%R -> near x r e' b'.
Proof. intros (H1 & H2 & H3) A B. split; [exact H1|]. split; lra. Qed.
Lemma near_pos x r e b : near x r e b -> (0 <= e)%R /\ (0 <= b)%R.
Proof. intros (_ & H1 & H2). pose proof (Rabs_pos (fv x - r)). pose proof (Rabs_pos r). lra. Qed.
Lemma near_abs x r e b : near x r e b -> (Rabs (fv x) <= b + e)%R.
Proof. intros (_ & H1 & H2). abs; lra. Qed.
Lemma near_sub x y r s e d b c : near x r e b -> near y s d c -> (e + d + b + c <= P2 1023)%R ->
  near (fsub x y) (r - s) (e + d + ulp * (e + d + b + c)) (b + c).
Proof.
  intros H1 H2 Hb. pose proof (near_abs _ _ _ _ H1) as A1. pose proof (near_abs _ _ _ _ H2) as A2. destruct H1 as (F1 & E1 & B1). destruct H2 as (F2 & E2 & B2). pose proof ulp_pos as Hu.
  assert (S : (Rabs (fv x - fv y) <= e + d + b + c)%R) by (clear - A1 A2; abs; lra).
  destruct (sub_real x y F1 F2 ltac:(lra)) as [G E]. split; [exact G|]. split; [|clear - B1 B2; abs; lra].
  pose proof (Rmult_le_compat_l ulp _ _ (Rlt_le _ _ Hu) S) as M. set (v := fv (fsub x y)) in *. set (U := (ulp * (e + d + b + c))%R) in *. set (W := (ulp * Rabs (fv x - fv y))%R) in *.
  clearbody U W v. clear - E1 E2 E M. abs; lra.
Qed.

Section Mean.
  Context (sum : list F -> F) (Hsum : forall l, added l (sum l)).
  Lemma Rsum_bound {A} (f : A -> R) b (l : list A) : (forall a, In a l -> f a <= b)%R -> (Rsum (map f l) <= INR (length l) * b)%R.
  Proof.
    induction l as [|a l IH]; intros H; [cbn; rewrite Rsum_nil; lra|]. cbn [map length]. rewrite Rsum_cons, S_INR. specialize (IH (fun x Hx => H x (or_intror Hx))). specialize (H a (or_introl eq_refl)). lra.
  Qed.
  Lemma Rmean_bound {A} (f : A -> R) b (l : list A) : l <> [] -> (forall a, In a l -> f a <= b)%R -> (Rmean (map f l) <= b)%R.
  Proof.
    intros Hne H. pose proof (Rsum_bound f b l H) as S. pose proof (INR_pos_length l Hne) as P. unfold Rmean. rewrite map_length. apply (Rmult_le_reg_r (INR (length l))); [exact P|]. unfold Rdiv. rewrite Rmult_assoc, Rinv_l by lra. lra.
  Qed.
  Lemma Rmean_abs {A} (f : A -> R) b (l : list A) : l <> [] -> (forall a, In a l -> Rabs (f a) <= b)%R -> (Rabs (Rmean (map f l)) <= b)%R.
  Proof.
    intros Hne H. apply Rabs_le. split; [|apply Rmean_bound; [exact Hne|]; intros a Ha; specialize (H a Ha); abs; lra].
    assert (E : (Rmean (map (fun a => - f a) l) <= b)%R) by (apply Rmean_bound; [exact Hne|]; intros a Ha; specialize (H a Ha); abs; lra).
    assert (Z : (Rmean (map (fun a => - f a) l) + Rmean (map f l) = 0)%R) by (rewrite <- Rmean_map_add, <- (Rmean_map_const 0 l Hne); apply Rmean_map_ext; intros; lra). lra.
  Qed.

  Lemma Rmean_le {A} (f g : A -> R) (l : list A) : l <> [] -> (forall a, In a l -> f a <= g a)%R -> (Rmean (map f l) <= Rmean (map g l))%R.
  Proof.
    intros Hne H. pose proof (Rmean_bound (fun a => f a - g a)%R 0 l Hne (fun a Ha => ltac:(specialize (H a Ha); lra))) as E. rewrite Rmean_map_sub in E. lra.
  Qed.
  Lemma Rmean_abs_le {A} (f : A -> R) (l : list A) : l <> [] -> (Rabs (Rmean (map f l)) <= Rmean (map (fun a => Rabs (f a)) l))%R.
  Proof.
    intros Hne. apply Rabs_le. split; [|apply Rmean_le; [exact Hne|]; intros; apply Rle_abs].
    assert (E : (Rmean (map (fun a => -1 * f a) l) <= Rmean (map (fun a => Rabs (f a)) l))%R) by (apply Rmean_le; [exact Hne|]; intros a _; abs; lra).
    rewrite Rmean_map_mult in E. lra.
  Qed.

  Lemma near_mean {A} (f : A -> F) (h : A -> R) e b (l : list A) : l <> [] -> (forall a, In a l -> near (f a) (h a) e b) ->
    (4 * (INR (length l) * ulp) <= 1)%R -> (INR (length l) * (b + e) <= P2 1021)%R ->
    near (np_mean (fl64 sum) (map f l)) (Rmean (map h l)) (e + 2 * (INR (length l) * ulp) * (b + e) + eta) b.
  Proof.
    intros Hne H Hn Hb. assert (Hf : Forall finite (map f l)) by (apply Forall_forall; intros x Hx; apply in_map_iff in Hx as (a & <- & Ha); apply (H a Ha)).
    assert (Ha : forall a, In a l -> (Rabs (fv (f a)) <= b + e)%R) by (intros a Hin; apply (near_abs _ (h a)), H, Hin).
    destruct (mean_real sum Hsum (map f l)) as [G E]; [destruct l; [congruence|discriminate]|exact Hf|rewrite map_length; exact Hn| |].
    { unfold fabs. rewrite map_map. eapply Rle_trans; [apply (Rsum_bound _ (b + e)%R), Ha|exact Hb]. }
    unfold fabs, fvs in E. rewrite !map_map, map_length in E. pose proof (Rmean_bound _ _ l Hne Ha) as M. pose proof (pos_INR (length l)) as Pn. pose proof ulp_pos as Hu.
    assert (M2 : (2 * (INR (length l) * ulp) * Rmean (map (fun a => Rabs (fv (f a))) l) <= 2 * (INR (length l) * ulp) * (b + e))%R) by (apply Rmult_le_compat_l; [nra|exact M]).
    pose proof (mean_map_close e (fun a => h a) (fun a => fv (f a)) l Hne (fun a Hin => proj1 (proj2 (H a Hin)))) as D. change (map (fun a => h a) l) with (map h l) in D.
    split; [exact G|]. split; [|apply Rmean_abs; [exact Hne|]; intros a Hin; apply (H a Hin)].
    set (k2 := (2 * (INR (length l) * ulp) * (b + e))%R) in *. set (k3 := (2 * (INR (length l) * ulp) * Rmean (map (fun a => Rabs (fv (f a))) l))%R) in *.
    set (m := fv (np_mean (fl64 sum) (map f l))) in *. change (fun x => fv (f x)) with (fun a => fv (f a)) in *. set (m2 := Rmean (map (fun a => fv (f a)) l)) in *. clearbody k2 k3 m m2. clear - E M2 D. abs; lra.
  Qed.
End Mean.

(** ** The statistic *)
Section Value.
  Context {C : Type} (sum : list F -> F) (Hsum : forall l, added l (sum l)) (rows : list (list C)) (Hne : rows <> []) (B : R).
  Notation N := (fl64 sum).
  Notation n := (length rows).
  Notation k := (INR n * ulp)%R.
  Context (Hn : (INR n <= P2 40)%R) (HB : (B <= P2 480)%R).
  Open Scope R_scope.

  Lemma n_1 : 1 <= INR n.
  Proof. change 1 with (INR 1). apply le_INR. destruct rows; [congruence|cbn; lia]. Qed.
  Lemma k_small : k <= P2 (-13).
  Proof. change (-13)%Z with (40 + -53)%Z. rewrite P2_add. fold ulp. apply Rmult_le_compat_r; [apply Rlt_le, ulp_pos|exact Hn]. Qed.
  Lemma P2_m13 : P2 (-13) = / 8192. Proof. change (P2 (-13)) with (/ (2 ^ 13)). f_equal. simpl. lra. Qed.
  Lemma ulp_k : ulp <= k.
  Proof. pose proof n_1. pose proof ulp_pos. nra. Qed.
  Lemma eta_1 : eta <= / 8192. Proof. rewrite <- P2_m13. apply P2_le. lia. Qed.
  Lemma big_1 : 1024 <= P2 480 /\ P2 490 = 1024 * P2 480.
  Proof.
    assert (E : P2 10 = 1024) by (change (P2 10) with (2 ^ 10); simpl; lra). split; [rewrite <- E; apply P2_le; lia|]. change 490%Z with (10 + 480)%Z. rewrite P2_add, E. reflexivity.
  Qed.
  Lemma small_n x : 0 <= x <= P2 490 -> INR n * x <= P2 1021.
  Proof.
    intros [H0 H]. apply Rle_trans with (P2 40 * P2 490); [apply Rmult_le_compat; [apply pos_INR|exact H0|exact Hn|exact H]|]. rewrite <- P2_add. apply P2_le. lia.
  Qed.
  Lemma small_1 x : x <= P2 490 -> x <= P2 1023.
  Proof. intros H. eapply Rle_trans; [exact H|apply P2_le; lia]. Qed.

  Lemma near_dev f h e : 0 <= B -> 0 <= e -> e <= 2 * k * B + eta -> (forall r, In r rows -> near (f r) (h r) e B) ->
    forall r, In r rows -> near (dev N rows f r) (rdev rows h r) (10 * (k * B) + 5 * eta) (2 * B).
  Proof.
    intros HB0 He0 He H r Hr. pose proof k_small as K. rewrite P2_m13 in K. pose proof ulp_k as UK. pose proof ulp_pos as U. pose proof eta_pos as ET. pose proof eta_1 as E1. destruct big_1 as [G1 G2].
    assert (KB : 0 <= k * B) by (apply Rmult_le_pos; lra). assert (KB2 : k * B <= / 8192 * B) by (apply Rmult_le_compat_r; lra).
    assert (KE : k * eta <= / 8192 * eta) by (apply Rmult_le_compat_r; lra). assert (KE0 : 0 <= k * eta) by (apply Rmult_le_pos; lra).
    assert (KKB : k * (k * B) <= / 8192 * (k * B)) by (apply Rmult_le_compat_r; lra).
    assert (M : near (np_mean N (map f rows)) (Rmean (map h rows)) (5 * (k * B) + 3 * eta) B).
    { eapply near_le; [apply (near_mean sum Hsum f h e B rows Hne H)| |lra].
      - lra.
      - apply small_n. lra.
      - assert (k * e <= k * (2 * k * B + eta)) by (apply Rmult_le_compat_l; lra). lra. }
    unfold dev, rdev. cbn [n_sub fl64]. eapply near_le; [apply (near_sub _ _ _ _ _ _ _ _ (H r Hr) M)| |lra].
    - apply small_1. lra.
    - assert (ulp * (e + (5 * (k * B) + 3 * eta) + B + B) <= k * (e + (5 * (k * B) + 3 * eta) + B + B)) by (apply Rmult_le_compat_r; lra).
      assert (k * e <= k * (2 * k * B + eta)) by (apply Rmult_le_compat_l; lra). lra.
  Qed.

  Definition hdiff f12 f1 f2 r : F := fsub (fsub (dev N rows f12 r) (dev N rows f1 r)) (dev N rows f2 r).
  Definition rdiff (h12 h1 h2 : list C -> R) r : R := rdev rows h12 r - rdev rows h1 r - rdev rows h2 r.
  Lemma near_diff f12 f1 f2 h12 h1 h2 e : 0 <= B -> 0 <= e -> e <= 2 * k * B + eta ->
    (forall r, In r rows -> near (f12 r) (h12 r) e B) -> (forall r, In r rows -> near (f1 r) (h1 r) e B) -> (forall r, In r rows -> near (f2 r) (h2 r) e B) ->
    forall r, In r rows -> near (hdiff f12 f1 f2 r) (rdiff h12 h1 h2 r) (42 * (k * B) + 17 * eta) (6 * B).
  Proof.
    intros HB0 He0 He H12 H1 H2 r Hr. pose proof k_small as K. rewrite P2_m13 in K. pose proof ulp_k as UK. pose proof ulp_pos as U. pose proof eta_pos as ET. pose proof eta_1 as E1. destruct big_1 as [G1 G2].
    assert (KB : 0 <= k * B) by (apply Rmult_le_pos; lra). assert (KB2 : k * B <= / 8192 * B) by (apply Rmult_le_compat_r; lra).
    assert (KE : k * eta <= / 8192 * eta) by (apply Rmult_le_compat_r; lra). assert (KE0 : 0 <= k * eta) by (apply Rmult_le_pos; lra).
    assert (KKB : k * (k * B) <= / 8192 * (k * B)) by (apply Rmult_le_compat_r; lra).
    pose proof (near_dev f12 h12 e HB0 He0 He H12 r Hr) as D12. pose proof (near_dev f1 h1 e HB0 He0 He H1 r Hr) as D1. pose proof (near_dev f2 h2 e HB0 He0 He H2 r Hr) as D2.
    assert (D : near (fsub (dev N rows f12 r) (dev N rows f1 r)) (rdev rows h12 r - rdev rows h1 r) (25 * (k * B) + 11 * eta) (4 * B)).
    { eapply near_le; [apply (near_sub _ _ _ _ _ _ _ _ D12 D1)| |lra]; [apply small_1; lra|].
      assert (ulp * (10 * (k * B) + 5 * eta + (10 * (k * B) + 5 * eta) + 2 * B + 2 * B) <= k * (10 * (k * B) + 5 * eta + (10 * (k * B) + 5 * eta) + 2 * B + 2 * B)) by (apply Rmult_le_compat_r; lra). lra. }
    unfold hdiff, rdiff. eapply near_le; [apply (near_sub _ _ _ _ _ _ _ _ D D2)| |lra]; [apply small_1; lra|].
    assert (ulp * (25 * (k * B) + 11 * eta + (10 * (k * B) + 5 * eta) + 4 * B + 2 * B) <= k * (25 * (k * B) + 11 * eta + (10 * (k * B) + 5 * eta) + 4 * B + 2 * B)) by (apply Rmult_le_compat_r; lra). lra.
  Qed.

  (** the root of the mean of the squares *)
  Lemma rms_float (d : list C -> F) M : 0 <= M <= P2 490 -> (forall r, In r rows -> finite (d r) /\ Rabs (fv (d r)) <= M) ->
    within (7 * k * M + 2 * sqrt (3 * eta)) (fsqrt (np_mean N (map (fun r => fmul (d r) (d r)) rows))) (sqrt (Rmean (map (fun r => Rsqr (fv (d r))) rows))).
  Proof.
    intros HM Hd. pose proof k_small as K. rewrite P2_m13 in K. pose proof ulp_k as UK. pose proof ulp_pos as U. pose proof eta_pos as ET. pose proof eta_1 as E1. destruct big_1 as [G1 G2].
    assert (HM2 : M * M <= P2 980) by (change 980%Z with (490 + 490)%Z; rewrite P2_add; apply Rmult_le_compat; lra).
    assert (SQ : forall r, In r rows -> 0 <= Rsqr (fv (d r)) <= M * M).
    { intros r Hr. split; [apply Rle_0_sqr|]. change (M * M) with (Rsqr M). apply Rsqr_le_abs_1. rewrite (Rabs_pos_eq M) by lra. apply Hd, Hr. }
    assert (ML : forall r, In r rows -> finite (fmul (d r) (d r)) /\ Rabs (fv (fmul (d r) (d r)) - Rsqr (fv (d r))) <= ulp * Rsqr (fv (d r)) + eta).
    { intros r Hr. destruct (Hd r Hr) as [F1 _]. specialize (SQ r Hr). unfold Rsqr in SQ |- *. destruct (mul_real (d r) (d r) F1 F1) as [F2 E].
      - rewrite Rabs_pos_eq by lra. eapply Rle_trans; [apply SQ|]. eapply Rle_trans; [exact HM2|apply P2_le; lia].
      - split; [exact F2|]. rewrite (Rabs_pos_eq (fv (d r) * fv (d r))) in E by lra. exact E. }
    set (Q := Rmean (map (fun r => Rsqr (fv (d r))) rows)).
    assert (HQ : 0 <= Q <= M * M).
    { split; [apply Rmult_le_pos; [apply Rsum_nonneg; intros x Hx; apply in_map_iff in Hx as (r & <- & _); apply Rle_0_sqr|left; apply Rinv_0_lt_compat; rewrite map_length; apply INR_pos_length, Hne]|apply Rmean_bound; [exact Hne|apply SQ]]. }
    assert (P1 : 1 <= P2 980) by (change 1 with (P2 0); apply P2_le; lia).
    destruct (mean_real sum Hsum (map (fun r => fmul (d r) (d r)) rows)) as [Gm Em].
    { destruct rows; [congruence|discriminate]. }
    { apply Forall_forall. intros x Hx. apply in_map_iff in Hx as (r & <- & Hr). apply ML, Hr. }
    { rewrite map_length. lra. }
    { unfold fabs. rewrite map_map. eapply Rle_trans; [apply (Rsum_bound _ (2 * P2 980))|].
      - intros r Hr. destruct (ML r Hr) as [_ E]. specialize (SQ r Hr). assert (ulp * Rsqr (fv (d r)) <= / 8192 * Rsqr (fv (d r))) by (apply Rmult_le_compat_r; lra). revert E. unfold Rabs. repeat match goal with |- context [Rcase_abs ?p] => destruct (Rcase_abs p) end; lra.
      - apply Rle_trans with (P2 40 * P2 981).
        + apply Rmult_le_compat; [apply pos_INR|clear - P1; lra|exact Hn|]. change 981%Z with (1 + 980)%Z. rewrite P2_add. change (P2 1) with (2 * 1). clear - P1; lra.
        + rewrite <- P2_add. apply P2_le. lia. }
    unfold fabs, fvs in Em. rewrite !map_map, map_length in Em.
    assert (A1 : Rmean (map (fun r => Rabs (fv (fmul (d r) (d r)))) rows) <= (1 + ulp) * Q + eta).
    { unfold Q. rewrite <- Rmean_map_mult, <- (Rmean_map_const eta rows Hne), <- Rmean_map_add. apply Rmean_le; [exact Hne|]. intros r Hr. destruct (ML r Hr) as [_ E]. specialize (SQ r Hr). revert E. unfold Rabs. repeat match goal with |- context [Rcase_abs ?p] => destruct (Rcase_abs p) end; lra. }
    assert (A2 : Rabs (Rmean (map (fun r => fv (fmul (d r) (d r))) rows) - Q) <= ulp * Q + eta).
    { unfold Q. rewrite <- Rmean_map_sub. eapply Rle_trans; [apply Rmean_abs_le, Hne|]. rewrite <- Rmean_map_mult, <- (Rmean_map_const eta rows Hne), <- Rmean_map_add. apply Rmean_le; [exact Hne|]. intros r Hr. apply (ML r Hr). }
    set (m := fv (np_mean N (map (fun r => fmul (d r) (d r)) rows))) in *. set (m2 := Rmean (map (fun r => fv (fmul (d r) (d r))) rows)) in *. set (m3 := Rmean (map (fun r => Rabs (fv (fmul (d r) (d r)))) rows)) in *.
    assert (UQ : ulp * Q <= k * Q) by (apply Rmult_le_compat_r; lra). assert (KQ : 0 <= k * Q) by (apply Rmult_le_pos; lra).
    assert (A3 : k * m3 <= k * ((1 + ulp) * Q + eta)) by (apply Rmult_le_compat_l; lra).
    assert (A4 : k * (ulp * Q) <= / 8192 * (ulp * Q)) by (apply Rmult_le_compat_r; [apply Rmult_le_pos; lra|exact K]).
    assert (A5 : k * eta <= / 8192 * eta) by (apply Rmult_le_compat_r; lra).
    assert (A6 : Rabs (m - Q) <= 4 * k * Q + 3 * eta).
    { assert (Rabs (m - Q) <= Rabs (m - m2) + Rabs (m2 - Q)) by (replace (m - Q) with ((m - m2) + (m2 - Q)) by ring; apply Rabs_triang). lra. }
    assert (M0 : 0 <= m).
    { apply fge0_fv; [exact Gm|]. unfold np_mean. cbn [n_div n_sum fl64]. apply fdiv_nonneg; [|apply f_ofZ_nonneg; lia]. apply (added_nonneg _ _ (Hsum _)). apply Forall_forall. intros x Hx. apply in_map_iff in Hx as (r & <- & _). apply sq_nonneg. }
    destruct (sqrt_real _ Gm M0) as [Gs Es]. fold m in Es. split; [exact Gs|].
    pose proof (sqrt_near Q m (4 * k) (3 * eta) (proj1 HQ) M0 ltac:(lra) ltac:(lra) A6) as S.
    set (v := fv (fsqrt (np_mean N (map (fun r => fmul (d r) (d r)) rows)))) in *.
    assert (SM : sqrt Q <= M) by (rewrite <- (sqrt_Rsqr M) by lra; apply sqrt_le_1_alt, HQ).
    pose proof (sqrt_pos Q) as SP. pose proof (sqrt_pos (3 * eta)) as SE. set (q := sqrt Q) in *. set (z := sqrt (3 * eta)) in *. set (y := sqrt m) in *.
    assert (B1 : y <= q + (4 * k * q + z)) by (clear - S; abs; lra).
    assert (B2 : ulp * y <= ulp * (q + (4 * k * q + z))) by (apply Rmult_le_compat_l; lra).
    assert (K0 : 0 < k) by lra.
    assert (B3 : ulp * (q + (4 * k * q + z)) <= k * (q + (4 * k * q + z))) by (apply Rmult_le_compat_r; [assert (0 <= k * q) by (apply Rmult_le_pos; lra); lra|exact UK]).
    assert (B4 : k * (k * q) <= / 8192 * (k * q)) by (apply Rmult_le_compat_r; [apply Rmult_le_pos; lra|exact K]).
    assert (B5 : k * z <= / 8192 * z) by (apply Rmult_le_compat_r; lra).
    assert (B6 : k * q <= k * M) by (apply Rmult_le_compat_l; lra).
    assert (Rabs (v - q) <= Rabs (v - y) + Rabs (y - q)) by (replace (v - q) with ((v - y) + (y - q)) by ring; apply Rabs_triang).
    assert (0 <= k * q) by (apply Rmult_le_pos; lra). lra.
  Qed.

  Lemma eta_root : 34 * eta + 2 * sqrt (3 * eta) <= P2 (-530).
  Proof.
    assert (E1 : 64 * eta <= P2 (-535)).
    { replace 64 with (P2 6) by (change (P2 6) with (2 ^ 6); simpl; lra). unfold eta. rewrite <- P2_add. apply P2_le. lia. }
    assert (E2 : sqrt (3 * eta) <= P2 (-536)).
    { rewrite <- (sqrt_Rsqr (P2 (-536))) by (left; apply P2_pos). apply sqrt_le_1_alt. unfold Rsqr. rewrite <- P2_add. apply Rle_trans with (P2 3 * eta); [|unfold eta; rewrite <- P2_add; apply P2_le; lia].
      apply Rmult_le_compat_r; [left; apply eta_pos|]. change (P2 3) with (2 ^ 3). simpl. lra. }
    assert (E3 : P2 (-530) = 32 * P2 (-535)) by (change (-530)%Z with (5 + -535)%Z; rewrite P2_add; f_equal; change (P2 5) with (2 ^ 5); simpl; lra).
    assert (E4 : P2 (-536) <= P2 (-535)) by (apply P2_le; lia). pose proof eta_pos. pose proof (P2_pos (-535)). lra.
  Qed.

  Theorem H_value_float f12 f1 f2 h12 h1 h2 e : 0 <= B -> 0 <= e -> e <= 2 * k * B + eta ->
    (forall r, In r rows -> near (f12 r) (h12 r) e B) -> (forall r, In r rows -> near (f1 r) (h1 r) e B) -> (forall r, In r rows -> near (f2 r) (h2 r) e B) ->
    within (100 * k * B + P2 (-530)) (H_value N rows false f12 f1 f2) (sqrt (RHnum rows h12 h1 h2 / INR n)).
  Proof.
    intros HB0 He0 He H12 H1 H2. pose proof k_small as K. rewrite P2_m13 in K. pose proof ulp_k as UK. pose proof ulp_pos as U. pose proof eta_pos as ET. pose proof eta_1 as E1. destruct big_1 as [G1 G2].
    pose proof (near_diff f12 f1 f2 h12 h1 h2 e HB0 He0 He H12 H1 H2) as D.
    assert (KB : 0 <= k * B) by (apply Rmult_le_pos; lra). assert (KB2 : k * B <= / 8192 * B) by (apply Rmult_le_compat_r; lra).
    assert (KE : k * eta <= / 8192 * eta) by (apply Rmult_le_compat_r; lra).
    destruct (rms_float (hdiff f12 f1 f2) (7 * B + 17 * eta)) as [G S].
    { lra. }
    { intros r Hr. split; [apply (D r Hr)|]. eapply Rle_trans; [apply (near_abs _ _ _ _ (D r Hr))|]. lra. }
    split; [exact G|]. change (H_value N rows false f12 f1 f2) with (fsqrt (np_mean N (map (fun r => fmul (hdiff f12 f1 f2 r) (hdiff f12 f1 f2 r)) rows))).
    set (v := fv (fsqrt (np_mean N (map (fun r => fmul (hdiff f12 f1 f2 r) (hdiff f12 f1 f2 r)) rows)))) in *. set (q := sqrt (Rmean (map (fun r => Rsqr (fv (hdiff f12 f1 f2 r))) rows))) in *.
    assert (T : Rabs (q - sqrt (RHnum rows h12 h1 h2 / INR n)) <= 42 * (k * B) + 17 * eta).
    { pose proof (INR_pos_length rows Hne) as Pn. unfold q, Rmean. rewrite map_length.
      change (Rsum (map (fun r => Rsqr (fv (hdiff f12 f1 f2 r))) rows)) with (Lsum rows (fun r => fv (hdiff f12 f1 f2 r))).
      change (RHnum rows h12 h1 h2) with (Lsum rows (rdiff h12 h1 h2)).
      rewrite !sqrt_div by (try apply Lsum_nonneg; exact Pn). pose proof (sqrt_lt_R0 _ Pn) as Sn.
      pose proof (Lnorm_close rows (rdiff h12 h1 h2) (fun r => fv (hdiff f12 f1 f2 r)) (fun r => fv (hdiff f12 f1 f2 r) - rdiff h12 h1 h2 r) ltac:(intros; cbn beta; ring)) as L.
      assert (L2 : Lnorm rows (fun r => fv (hdiff f12 f1 f2 r) - rdiff h12 h1 h2 r) <= sqrt (INR n) * (42 * (k * B) + 17 * eta)).
      { unfold Lnorm. rewrite <- (sqrt_Rsqr (42 * (k * B) + 17 * eta)) by lra. rewrite <- sqrt_mult by (try apply Rle_0_sqr; lra). apply sqrt_le_1_alt. apply Lsum_bound. intros r Hr. apply (D r Hr). }
      unfold Lnorm in L at 1 2. set (x := sqrt (Lsum rows (fun r => fv (hdiff f12 f1 f2 r)))) in *. set (y := sqrt (Lsum rows (rdiff h12 h1 h2))) in *. set (z := sqrt (INR n)) in *.
      replace (x / z - y / z) with ((x - y) * / z) by (field; lra). rewrite Rabs_mult, (Rabs_pos_eq (/ z)) by (left; apply Rinv_0_lt_compat, Sn).
      apply (Rmult_le_reg_r z); [exact Sn|]. rewrite Rmult_assoc, Rinv_l, Rmult_1_r by lra. lra. }
    assert (Rabs (v - sqrt (RHnum rows h12 h1 h2 / INR n)) <= Rabs (v - q) + Rabs (q - sqrt (RHnum rows h12 h1 h2 / INR n))) by (replace (v - sqrt (RHnum rows h12 h1 h2 / INR n)) with ((v - q) + (q - sqrt (RHnum rows h12 h1 h2 / INR n))) by ring; apply Rabs_triang).
    pose proof eta_root. pose proof (sqrt_pos (3 * eta)). lra.
  Qed.
  (** the sum of the squares, as a root of a mean *)
  Lemma square_sum_float (d : list C -> F) M : 0 <= M <= P2 490 -> (forall r, In r rows -> finite (d r) /\ Rabs (fv (d r)) <= M) ->
    let S := sum (map (fun r => fmul (d r) (d r)) rows) in
    finite S /\ 0 <= fv S /\ Rabs (sqrt (fv S / INR n) - sqrt (Rmean (map (fun r => Rsqr (fv (d r))) rows))) <= 7 * k * M + 2 * sqrt (3 * eta).
  Proof.
    intros HM Hd S. pose proof k_small as K. rewrite P2_m13 in K. pose proof ulp_k as UK. pose proof ulp_pos as U. pose proof eta_pos as ET. pose proof eta_1 as E1. destruct big_1 as [G1 G2].
    assert (HM2 : M * M <= P2 980) by (change 980%Z with (490 + 490)%Z; rewrite P2_add; apply Rmult_le_compat; lra).
    assert (SQ : forall r, In r rows -> 0 <= Rsqr (fv (d r)) <= M * M).
    { intros r Hr. split; [apply Rle_0_sqr|]. change (M * M) with (Rsqr M). apply Rsqr_le_abs_1. rewrite (Rabs_pos_eq M) by lra. apply Hd, Hr. }
    assert (ML : forall r, In r rows -> finite (fmul (d r) (d r)) /\ Rabs (fv (fmul (d r) (d r)) - Rsqr (fv (d r))) <= ulp * Rsqr (fv (d r)) + eta).
    { intros r Hr. destruct (Hd r Hr) as [F1 _]. specialize (SQ r Hr). unfold Rsqr in SQ |- *. destruct (mul_real (d r) (d r) F1 F1) as [F2 E].
      - rewrite Rabs_pos_eq by lra. eapply Rle_trans; [apply SQ|]. eapply Rle_trans; [exact HM2|apply P2_le; lia].
      - split; [exact F2|]. rewrite (Rabs_pos_eq (fv (d r) * fv (d r))) in E by lra. exact E. }
    set (Q := Rmean (map (fun r => Rsqr (fv (d r))) rows)).
    assert (HQ : 0 <= Q <= M * M).
    { split; [apply Rmult_le_pos; [apply Rsum_nonneg; intros x Hx; apply in_map_iff in Hx as (r & <- & _); apply Rle_0_sqr|left; apply Rinv_0_lt_compat; rewrite map_length; apply INR_pos_length, Hne]|apply Rmean_bound; [exact Hne|apply SQ]]. }
    assert (P1 : 1 <= P2 980) by (change 1 with (P2 0); apply P2_le; lia).
    destruct (sum_real (map (fun r => fmul (d r) (d r)) rows) S (Hsum _)) as [Gm Em].
    { apply Forall_forall. intros x Hx. apply in_map_iff in Hx as (r & <- & Hr). apply ML, Hr. }
    { rewrite map_length. lra. }
    { unfold fabs. rewrite map_map. eapply Rle_trans; [apply (Rsum_bound _ (2 * P2 980))|].
      - intros r Hr. destruct (ML r Hr) as [_ E]. specialize (SQ r Hr). assert (ulp * Rsqr (fv (d r)) <= / 8192 * Rsqr (fv (d r))) by (apply Rmult_le_compat_r; lra). revert E. unfold Rabs. repeat match goal with |- context [Rcase_abs ?p] => destruct (Rcase_abs p) end; lra.
      - apply Rle_trans with (P2 40 * P2 981).
        + apply Rmult_le_compat; [apply pos_INR|clear - P1; lra|exact Hn|]. change 981%Z with (1 + 980)%Z. rewrite P2_add. change (P2 1) with (2 * 1). clear - P1; lra.
        + rewrite <- P2_add. apply P2_le. lia. }
    unfold fabs, fvs in Em. rewrite !map_map, map_length in Em.
    assert (A1 : Rmean (map (fun r => Rabs (fv (fmul (d r) (d r)))) rows) <= (1 + ulp) * Q + eta).
    { unfold Q. rewrite <- Rmean_map_mult, <- (Rmean_map_const eta rows Hne), <- Rmean_map_add. apply Rmean_le; [exact Hne|]. intros r Hr. destruct (ML r Hr) as [_ E]. specialize (SQ r Hr). revert E. unfold Rabs. repeat match goal with |- context [Rcase_abs ?p] => destruct (Rcase_abs p) end; lra. }
    assert (A2 : Rabs (Rmean (map (fun r => fv (fmul (d r) (d r))) rows) - Q) <= ulp * Q + eta).
    { unfold Q. rewrite <- Rmean_map_sub. eapply Rle_trans; [apply Rmean_abs_le, Hne|]. rewrite <- Rmean_map_mult, <- (Rmean_map_const eta rows Hne), <- Rmean_map_add. apply Rmean_le; [exact Hne|]. intros r Hr. apply (ML r Hr). }
    assert (M0 : 0 <= fv S).
    { apply fge0_fv; [exact Gm|]. apply (added_nonneg _ _ (Hsum _)). apply Forall_forall. intros x Hx. apply in_map_iff in Hx as (r & <- & _). apply sq_nonneg. }
    split; [exact Gm|]. split; [exact M0|]. pose proof (INR_pos_length rows Hne) as Pn. assert (Pi : 0 < / INR n) by (apply Rinv_0_lt_compat, Pn).
    set (m := fv S / INR n). set (m2 := Rmean (map (fun r => fv (fmul (d r) (d r))) rows)) in *. set (m3 := Rmean (map (fun r => Rabs (fv (fmul (d r) (d r)))) rows)) in *.
    assert (A0 : Rabs (m - m2) <= 2 * k * m3).
    { unfold m, m2, m3, Rmean, Rdiv. rewrite !map_length, <- Rmult_minus_distr_r, Rabs_mult, (Rabs_pos_eq (/ INR n)) by lra.
      set (T := Rsum (map (fun x => Rabs (fv (fmul (d x) (d x)))) rows)) in *. assert (T0 : 0 <= T) by (apply Rsum_nonneg; intros x Hx; apply in_map_iff in Hx as (r & <- & _); apply Rabs_pos).
      assert (L1 : INR (n - 1) <= INR n) by (apply le_INR; lia).
      assert (L2 : 2 * INR (n - 1) * ulp * T <= 2 * k * T) by (apply Rmult_le_compat_r; [exact T0|]; assert (INR (n - 1) * ulp <= k) by (apply Rmult_le_compat_r; lra); lra).
      replace (2 * k * (T * / INR n)) with (2 * k * T * / INR n) by ring. apply Rmult_le_compat_r; [lra|]. eapply Rle_trans; [exact Em|exact L2]. }
    assert (M1 : 0 <= m) by (apply Rmult_le_pos; lra).
    assert (UQ : ulp * Q <= k * Q) by (apply Rmult_le_compat_r; lra). assert (KQ : 0 <= k * Q) by (apply Rmult_le_pos; lra).
    assert (A3 : k * m3 <= k * ((1 + ulp) * Q + eta)) by (apply Rmult_le_compat_l; lra).
    assert (A4 : k * (ulp * Q) <= / 8192 * (ulp * Q)) by (apply Rmult_le_compat_r; [apply Rmult_le_pos; lra|exact K]).
    assert (A5 : k * eta <= / 8192 * eta) by (apply Rmult_le_compat_r; lra).
    assert (A6 : Rabs (m - Q) <= 4 * k * Q + 3 * eta).
    { assert (Rabs (m - Q) <= Rabs (m - m2) + Rabs (m2 - Q)) by (replace (m - Q) with ((m - m2) + (m2 - Q)) by ring; apply Rabs_triang). lra. }
    pose proof (sqrt_near Q m (4 * k) (3 * eta) (proj1 HQ) M1 ltac:(lra) ltac:(lra) A6) as Sq.
    assert (SM : sqrt Q <= M) by (rewrite <- (sqrt_Rsqr M) by lra; apply sqrt_le_1_alt, HQ).
    pose proof (sqrt_pos (3 * eta)) as SE. assert (B6 : k * sqrt Q <= k * M) by (apply Rmult_le_compat_l; lra). assert (0 <= k * M) by (apply Rmult_le_pos; lra). lra.
  Qed.

  (** roots of means of squares of nearby functions *)
  Lemma root_near (d : list C -> R) (h : list C -> R) e : 0 <= e -> (forall r, In r rows -> Rabs (d r - h r) <= e) ->
    Rabs (sqrt (Rmean (map (fun r => Rsqr (d r)) rows)) - sqrt (Rmean (map (fun r => Rsqr (h r)) rows))) <= e.
  Proof.
    intros He D. pose proof (INR_pos_length rows Hne) as Pn. unfold Rmean. rewrite !map_length.
    change (Rsum (map (fun r => Rsqr (d r)) rows)) with (Lsum rows d). change (Rsum (map (fun r => Rsqr (h r)) rows)) with (Lsum rows h).
    rewrite !sqrt_div by (try apply Lsum_nonneg; exact Pn). pose proof (sqrt_lt_R0 _ Pn) as Sn.
    pose proof (Lnorm_close rows h d (fun r => d r - h r) ltac:(intros; cbn beta; ring)) as L.
    assert (L2 : Lnorm rows (fun r => d r - h r) <= sqrt (INR n) * e).
    { unfold Lnorm. rewrite <- (sqrt_Rsqr e) by lra. rewrite <- sqrt_mult by (try apply Rle_0_sqr; lra). apply sqrt_le_1_alt. apply Lsum_bound, D. }
    unfold Lnorm in L at 1 2. set (x := sqrt (Lsum rows d)) in *. set (y := sqrt (Lsum rows h)) in *. set (z := sqrt (INR n)) in *.
    replace (x / z - y / z) with ((x - y) * / z) by (field; lra). rewrite Rabs_mult, (Rabs_pos_eq (/ z)) by (left; apply Rinv_0_lt_compat, Sn).
    apply (Rmult_le_reg_r z); [exact Sn|]. rewrite Rmult_assoc, Rinv_l, Rmult_1_r by lra. lra.
  Qed.
  Lemma square_sum_near (d : list C -> F) (h : list C -> R) : 0 <= B -> (forall r, In r rows -> near (d r) (h r) (42 * (k * B) + 17 * eta) (6 * B)) ->
    let S := sum (map (fun r => fmul (d r) (d r)) rows) in
    finite S /\ 0 <= fv S /\ Rabs (sqrt (fv S / INR n) - sqrt (Rmean (map (fun r => Rsqr (h r)) rows))) <= 100 * k * B + P2 (-530).
  Proof.
    intros HB0 D S. pose proof k_small as K. rewrite P2_m13 in K. pose proof ulp_k as UK. pose proof ulp_pos as U. pose proof eta_pos as ET. pose proof eta_1 as E1. destruct big_1 as [G1 G2].
    assert (KB : 0 <= k * B) by (apply Rmult_le_pos; lra). assert (KB2 : k * B <= / 8192 * B) by (apply Rmult_le_compat_r; lra). assert (KE : k * eta <= / 8192 * eta) by (apply Rmult_le_compat_r; lra).
    destruct (square_sum_float d (7 * B + 17 * eta)) as (G & P & E).
    { lra. }
    { intros r Hr. split; [apply (D r Hr)|]. eapply Rle_trans; [apply (near_abs _ _ _ _ (D r Hr))|]. lra. }
    fold S in G, P, E. split; [exact G|]. split; [exact P|].
    pose proof (root_near (fun r => fv (d r)) h (42 * (k * B) + 17 * eta) ltac:(lra) (fun r Hr => proj1 (proj2 (D r Hr)))) as T. cbn beta in T.
    set (x := sqrt (fv S / INR n)) in *. set (y := sqrt (Rmean (map (fun r => Rsqr (fv (d r))) rows))) in *. set (z := sqrt (Rmean (map (fun r => Rsqr (h r)) rows))) in *.
    assert (Rabs (x - z) <= Rabs (x - y) + Rabs (y - z)) by (replace (x - z) with ((x - y) + (y - z)) by ring; apply Rabs_triang).
    pose proof eta_root. pose proof (sqrt_pos (3 * eta)). lra.
  Qed.

  Lemma ratio_close a s a' s' E v : 0 <= a -> 0 <= a' -> 0 < s -> 0 <= E -> Rabs (a' - a) <= E -> Rabs (s' - s) <= E -> 4 * E <= s -> 50 * ulp * s <= E ->
    Rabs (v - Rsqr a' / Rsqr s') <= ulp * (Rsqr a' / Rsqr s') + eta -> Rabs (v - Rsqr a / Rsqr s) <= 8 * (E / s) * (1 + Rsqr a / Rsqr s).
  Proof.
    intros Ha Ha' Hs HE Da Ds H4 H50 Hv. pose proof ulp_pos as U. pose proof eta_pos as ET. assert (EU : eta <= ulp) by (apply P2_le; lia).
    assert (Hs' : 3 / 4 * s <= s') by (clear - Ds H4; abs; lra). assert (Hi : 0 < / s) by (apply Rinv_0_lt_compat, Hs). assert (Ps' : 0 < s') by lra.
    set (H := a / s). set (r := a' / s'). set (p := E / s). assert (EH : a = H * s) by (unfold H; field; lra). assert (Er : a' = r * s') by (unfold r; field; lra). assert (Ep : E = p * s) by (unfold p; field; lra).
    assert (Q1 : Rsqr a / Rsqr s = H * H) by (unfold H, Rsqr; field; lra). assert (Q2 : Rsqr a' / Rsqr s' = r * r) by (unfold r, Rsqr; field; lra). rewrite Q1. rewrite Q2 in Hv. clear Q1 Q2.
    assert (H0 : 0 <= H) by (apply Rmult_le_pos; lra). assert (r0 : 0 <= r) by (apply Rmult_le_pos; [exact Ha'|left; apply Rinv_0_lt_compat, Ps']). assert (p0 : 0 <= p) by (apply Rmult_le_pos; lra).
    assert (p4 : 4 * p <= 1) by (apply (Rmult_le_reg_r s); [exact Hs|]; rewrite Rmult_assoc, <- Ep; lra). assert (pu : 50 * ulp <= p) by (apply (Rmult_le_reg_r s); [exact Hs|]; rewrite <- Ep; lra).
    assert (D : Rabs (r - H) <= 4 / 3 * p * (1 + H)).
    { apply (Rmult_le_reg_r s'); [exact Ps'|]. rewrite <- (Rabs_pos_eq s') at 1 by lra. rewrite <- Rabs_mult. replace ((r - H) * s') with ((a' - a) - H * (s' - s)) by (rewrite Er, EH; ring).
      eapply Rle_trans; [apply Rabs_triang|]. rewrite Rabs_Ropp, Rabs_mult, (Rabs_pos_eq H) by lra. assert (H * Rabs (s' - s) <= H * E) by (apply Rmult_le_compat_l; lra).
      assert (X : 4 / 3 * p * (1 + H) * (3 / 4 * s) <= 4 / 3 * p * (1 + H) * s') by (apply Rmult_le_compat_l; [|exact Hs']; apply Rmult_le_pos; lra).
      replace (4 / 3 * p * (1 + H) * (3 / 4 * s)) with (E * (1 + H)) in X by (rewrite Ep; field). lra. }
    assert (D1 : 4 / 3 * p * (1 + H) <= / 3 * (1 + H)) by (apply Rmult_le_compat_r; lra).
    assert (Dr : r <= H + / 3 * (1 + H)) by (clear - D D1; abs; lra).
    assert (D2 : Rabs (r * r - H * H) <= 4 / 3 * p * (1 + H) * (7 / 3 * (1 + H))).
    { replace (r * r - H * H) with ((r - H) * (r + H)) by ring. rewrite Rabs_mult, (Rabs_pos_eq (r + H)) by lra. apply Rmult_le_compat; [apply Rabs_pos|lra|exact D|lra]. }
    assert (W : (1 + H) * (1 + H) <= 2 * (1 + H * H)) by (pose proof (Rle_0_sqr (1 - H)) as Z; unfold Rsqr in Z; lra).
    assert (R2 : r * r <= (4 / 3 * (1 + H)) * (4 / 3 * (1 + H))) by (apply Rmult_le_compat; lra).
    assert (V : Rabs (v - H * H) <= Rabs (v - r * r) + Rabs (r * r - H * H)) by (replace (v - H * H) with ((v - r * r) + (r * r - H * H)) by ring; apply Rabs_triang).
    assert (HH : 0 <= H * H) by (apply Rmult_le_pos; lra). set (q := 1 + H * H) in *. assert (q1 : 1 <= q) by (unfold q; lra).
    assert (T1 : 4 / 3 * p * (1 + H) * (7 / 3 * (1 + H)) <= 56 / 9 * (p * q)).
    { replace (4 / 3 * p * (1 + H) * (7 / 3 * (1 + H))) with (28 / 9 * p * ((1 + H) * (1 + H))) by field. apply Rle_trans with (28 / 9 * p * (2 * q)); [apply Rmult_le_compat_l; [lra|exact W]|]. right. field. }
    assert (T2 : ulp * (r * r) <= 4 * (ulp * q)).
    { apply Rle_trans with (ulp * (32 / 9 * q)); [apply Rmult_le_compat_l; lra|]. assert (0 <= ulp * q) by (apply Rmult_le_pos; lra). lra. }
    assert (T3 : 50 * (ulp * q) <= p * q) by (rewrite <- Rmult_assoc; apply Rmult_le_compat_r; lra).
    assert (T4 : eta <= ulp * q) by (apply Rle_trans with (ulp * 1); [lra|apply Rmult_le_compat_l; lra]). fold p. lra.
  Qed.
  Theorem H_value_float_normalised f12 f1 f2 h12 h1 h2 e : 0 <= B -> 0 <= e -> e <= 2 * k * B + eta ->
    (forall r, In r rows -> near (f12 r) (h12 r) e B) -> (forall r, In r rows -> near (f1 r) (h1 r) e B) -> (forall r, In r rows -> near (f2 r) (h2 r) e B) ->
    let E := 100 * k * B + P2 (-530) in let s := deviation rows h12 in 4 * E <= s ->
    0 < RHden rows h12 /\ within (8 * (E / s) * (1 + RHnum rows h12 h1 h2 / RHden rows h12)) (H_value N rows true f12 f1 f2) (RHnum rows h12 h1 h2 / RHden rows h12).
  Proof.
    intros HB0 He0 He H12 H1 H2 E s H4. pose proof k_small as K. rewrite P2_m13 in K. pose proof ulp_k as UK. pose proof ulp_pos as U. pose proof eta_pos as ET. pose proof (P2_pos (-530)) as P5.
    assert (KB : 0 <= k * B) by (apply Rmult_le_pos; lra). assert (HE : 0 < E) by (unfold E; lra). assert (Hs : 0 < s) by lra.
    pose proof (near_diff f12 f1 f2 h12 h1 h2 e HB0 He0 He H12 H1 H2) as D. pose proof (near_dev f12 h12 e HB0 He0 He H12) as D12.
    destruct (square_sum_near (hdiff f12 f1 f2) (rdiff h12 h1 h2) HB0 D) as (Ga & Pa & Ea).
    destruct (square_sum_near (dev N rows f12) (rdev rows h12) HB0) as (Gs & Ps & Es); [intros r Hr; eapply near_le; [apply (D12 r Hr)|lra|lra]|].
    pose proof (INR_pos_length rows Hne) as Pn. assert (Pi : 0 < / INR n) by (apply Rinv_0_lt_compat, Pn).
    change (sqrt (Rmean (map (fun r => Rsqr (rdev rows h12 r)) rows))) with s in Es. fold E in Ea, Es.
    set (a := sqrt (Rmean (map (fun r => Rsqr (rdiff h12 h1 h2 r)) rows))) in *.
    assert (Qs : Rsqr s = RHden rows h12 / INR n).
    { change s with (sqrt (Rmean (map (fun r => Rsqr (rdev rows h12 r)) rows))). rewrite Rsqr_sqrt; [unfold Rmean at 1, RHden; rewrite map_length; reflexivity|]. unfold Rmean at 1. apply Rmult_le_pos; [apply RHden_nonneg|rewrite map_length; lra]. }
    assert (Qa : Rsqr a = RHnum rows h12 h1 h2 / INR n).
    { unfold a. rewrite Rsqr_sqrt; [unfold Rmean at 1, RHnum; rewrite map_length; reflexivity|]. unfold Rmean at 1. apply Rmult_le_pos; [apply RHnum_nonneg|rewrite map_length; lra]. }
    assert (PD : 0 < RHden rows h12).
    { assert (X : 0 < Rsqr s) by (unfold Rsqr; apply Rmult_lt_0_compat; exact Hs). rewrite Qs in X. apply (Rmult_lt_reg_r (/ INR n)); [exact Pi|]. rewrite Rmult_0_l. exact X. }
    split; [exact PD|].
    assert (S2 : s <= 2 * B).
    { unfold s, deviation. rewrite <- (sqrt_Rsqr (2 * B)) by lra. apply sqrt_le_1_alt. apply Rmean_bound; [exact Hne|]. intros r Hr. apply Rsqr_le_abs_1. rewrite (Rabs_pos_eq (2 * B)) by lra. apply (D12 r Hr). }
    assert (H50 : 50 * ulp * s <= E).
    { assert (ulp * s <= ulp * (2 * B)) by (apply Rmult_le_compat_l; lra). assert (ulp * B <= k * B) by (apply Rmult_le_compat_r; lra). unfold E. lra. }
    set (Sa := sum (map (fun r => fmul (hdiff f12 f1 f2 r) (hdiff f12 f1 f2 r)) rows)) in *. set (Ss := sum (map (fun r => fmul (dev N rows f12 r) (dev N rows f12 r)) rows)) in *.
    change (H_value N rows true f12 f1 f2) with (fdiv Sa Ss). set (a' := sqrt (fv Sa / INR n)) in *. set (s' := sqrt (fv Ss / INR n)) in *.
    assert (Hs' : 3 / 4 * s <= s') by (clear - Es H4; clearbody s' s E; abs; lra).
    assert (Qs' : Rsqr s' = fv Ss / INR n) by (unfold s'; rewrite Rsqr_sqrt; [reflexivity|apply Rmult_le_pos; lra]).
    assert (Qa' : Rsqr a' = fv Sa / INR n) by (unfold a'; rewrite Rsqr_sqrt; [reflexivity|apply Rmult_le_pos; lra]).
    assert (PS : 0 < fv Ss).
    { assert (X : 0 < Rsqr s') by (unfold Rsqr; apply Rmult_lt_0_compat; lra). rewrite Qs' in X. apply (Rmult_lt_reg_r (/ INR n)); [exact Pi|]. rewrite Rmult_0_l. exact X. }
    assert (Eq : fv Sa / fv Ss = Rsqr a' / Rsqr s') by (rewrite Qs', Qa'; field; lra).
    assert (A6 : a <= 6 * B).
    { unfold a. rewrite <- (sqrt_Rsqr (6 * B)) by lra. apply sqrt_le_1_alt. apply Rmean_bound; [exact Hne|]. intros r Hr. apply Rsqr_le_abs_1. rewrite (Rabs_pos_eq (6 * B)) by lra. apply (D r Hr). }
    assert (a0 : 0 <= a) by apply sqrt_pos. assert (a0' : 0 <= a') by apply sqrt_pos.
    assert (Big : Rabs (fv Sa / fv Ss) <= P2 1022).
    { assert (X : a' / s' <= P2 53).
      { apply (Rmult_le_reg_r s'); [lra|]. unfold Rdiv. rewrite Rmult_assoc, Rinv_l, Rmult_1_r by lra. assert (A7 : a' <= 6 * B + E) by (clear - Ea A6; clearbody a' a E; abs; lra).
        assert (L : 100 * ulp * B <= E) by (assert (ulp * B <= k * B) by (apply Rmult_le_compat_r; lra); unfold E; lra).
        assert (L2 : P2 53 * E <= P2 53 * (/ 3 * s')) by (apply Rmult_le_compat_l; [left; apply P2_pos|lra]).
        assert (L3 : P2 53 * (100 * ulp * B) <= P2 53 * E) by (apply Rmult_le_compat_l; [left; apply P2_pos|exact L]).
        replace (P2 53 * (100 * ulp * B)) with (P2 53 * ulp * (100 * B)) in L3 by ring. assert (EP : P2 53 * ulp = 1) by (unfold ulp; rewrite <- P2_add; reflexivity). rewrite EP, Rmult_1_l in L3. lra. }
      assert (X0 : 0 <= a' / s') by (apply Rmult_le_pos; [exact a0'|left; apply Rinv_0_lt_compat; lra]).
      rewrite Eq. replace (Rsqr a' / Rsqr s') with ((a' / s') * (a' / s')) by (unfold Rsqr; field; lra). rewrite Rabs_pos_eq by (apply Rmult_le_pos; exact X0).
      apply Rle_trans with (P2 53 * P2 53); [apply Rmult_le_compat; assumption|]. rewrite <- P2_add. apply P2_le. lia. }
    destruct (quot_real Sa Ss Ga Gs PS Big) as [Gv Ev]. split; [exact Gv|].
    assert (Eq2 : RHnum rows h12 h1 h2 / RHden rows h12 = Rsqr a / Rsqr s) by (rewrite Qs, Qa; field; lra). rewrite Eq2.
    rewrite Eq in Ev. rewrite (Rabs_pos_eq (Rsqr a' / Rsqr s')) in Ev by (apply Rmult_le_pos; [apply Rle_0_sqr|left; apply Rinv_0_lt_compat; unfold Rsqr; apply Rmult_lt_0_compat; lra]).
    apply (ratio_close a s a' s' E _ a0 a0' Hs (Rlt_le _ _ HE) Ea Es H4 H50 Ev).
  Qed.
End Value.

(** ** Partial dependence *)
Section Pd.
  Context {C : Type} (sum : list F -> F) (Hsum : forall l, added l (sum l)) (rows : list (list C)) (w : nat) (Hw : forall r, In r rows -> length r = w) (Hne : rows <> []) (B : R) (g : list C -> F).
  Notation N := (fl64 sum).
  Notation n := (length rows).
  Notation k := (INR n * ulp)%R.
  Context (Hn : (INR n <= P2 40)%R) (HB : (B <= P2 480)%R) (Hg : numbers_within rows w B g).
  Notation h := (exactly g).
  Open Scope R_scope.

  Lemma B_nonneg : 0 <= B.
  Proof.
    destruct rows as [|r t] eqn:E; [congruence|]. rewrite <- E in *. destruct (Hg r (made_row rows w Hw r ltac:(rewrite E; left; reflexivity))) as [_ H]. pose proof (Rabs_pos (fv (g r))). lra.
  Qed.
  Lemma near_model r : made_of rows w r -> near (g r) (h r) 0 B.
  Proof. intros H. destruct (Hg r H) as [F1 A]. split; [exact F1|]. split; [|exact A]. unfold exactly. rewrite Rminus_diag_eq, Rabs_R0 by reflexivity. lra. Qed.
  Lemma near_average {A} (l : list A) (f : A -> list C) : length l = n -> (forall a, In a l -> made_of rows w (f a)) ->
    near (np_mean N (map (fun a => g (f a)) l)) (Rmean (map (fun a => h (f a)) l)) (2 * k * B + eta) B.
  Proof.
    intros Hl Hf. pose proof B_nonneg as B0. pose proof (k_small rows Hn) as K. rewrite P2_m13 in K. eapply near_le.
    - apply (near_mean sum Hsum (fun a => g (f a)) (fun a => h (f a)) 0 B l).
      + intros ->. apply Hne. destruct rows; [reflexivity|discriminate].
      + intros a Ha. apply near_model, Hf, Ha.
      + rewrite Hl. pose proof (pos_INR n). lra.
      + rewrite Hl. apply (small_n rows Hn). destruct big_1. lra.
    - rewrite Hl. lra.
    - lra.
  Qed.
  Lemma near_PD1 p v : (p < w)%nat -> (exists s, In s rows /\ nth_error s p = Some v) -> near (PD1 (np_mean N) g rows p v) (PD1 Rmean h rows p v) (2 * k * B + eta) B.
  Proof. intros Hp Hv. apply (near_average rows (with_value p v) eq_refl). intros r Hr. apply made_with; auto using made_row. Qed.
  Lemma near_PD2 p q v u : (p < w)%nat -> (q < w)%nat -> (exists s, In s rows /\ nth_error s p = Some v) -> (exists s, In s rows /\ nth_error s q = Some u) ->
    near (PD2 (np_mean N) g rows p q v u) (PD2 Rmean h rows p q v u) (2 * k * B + eta) B.
  Proof. intros Hp Hq Hv Hu. apply (near_average rows (fun r => with_value q u (with_value p v r)) eq_refl). intros r Hr. auto using made_with, made_row. Qed.
  Lemma near_PDminus p r : In r rows -> (p < w)%nat -> near (PDminus (np_mean N) g rows p r) (RPDminus rows h p r) (2 * k * B + eta) B.
  Proof.
    intros Hr Hp. set (row := fun s : list C => match nth_error s p with Some v => with_value p v r | None => r end).
    assert (E : forall s, In s rows -> exists v, nth_error s p = Some v) by (intros s Hs; destruct (nth_error s p) as [v|] eqn:E; [eauto|apply nth_error_None in E; rewrite (Hw s Hs) in E; lia]).
    unfold PDminus, RPDminus. replace (flat_map _ rows) with (map (fun s => g (row s)) rows).
    - replace (map (fun s => match nth_error s p with Some v => h (with_value p v r) | None => 0 end) rows) with (map (fun s => h (row s)) rows).
      + apply (near_average rows row eq_refl). intros s Hs. unfold row. destruct (E s Hs) as [v Ev]. rewrite Ev. apply made_with; eauto using made_row.
      + apply map_ext_in. intros s Hs. unfold row. destruct (E s Hs) as [v ->]. reflexivity.
    - clear - E. induction rows as [|s l IH]; [reflexivity|]. cbn [map flat_map]. rewrite IH by (intros; apply E; right; assumption). destruct (E s (or_introl eq_refl)) as [v Ev]. unfold row at 1. rewrite Ev. reflexivity.
  Qed.
  Lemma near_PD1_at p r : (p < w)%nat -> In r rows -> near (PD1_at N g rows p r) (RPD1_at rows h p r) (2 * k * B + eta) B.
  Proof.
    intros Hp Hr. unfold PD1_at, RPD1_at. pose proof (Hw r Hr). destruct (nth_error r p) as [v|] eqn:E; [|apply nth_error_None in E; lia]. apply near_PD1; eauto.
  Qed.
  Lemma near_PD2_at p q r : (p < w)%nat -> (q < w)%nat -> In r rows -> near (PD2_at N g rows p q r) (RPD2_at rows h p q r) (2 * k * B + eta) B.
  Proof.
    intros Hp Hq Hr. unfold PD2_at, RPD2_at. pose proof (Hw r Hr). destruct (nth_error r p) as [v|] eqn:E; [|apply nth_error_None in E; lia].
    destruct (nth_error r q) as [u|] eqn:E2; [|apply nth_error_None in E2; lia]. apply near_PD2; eauto.
  Qed.
  Lemma err_nonneg : 0 <= 2 * k * B + eta.
  Proof. pose proof B_nonneg. pose proof (pos_INR n). pose proof ulp_pos. pose proof eta_pos. assert (0 <= k * B) by (repeat apply Rmult_le_pos; lra). lra. Qed.

  Definition exact_value (v : F) (x : ext R) (e : R) : Prop := exists y, x = Fin y /\ within e v y.
  Lemma H_pair_float p q : (p < w)%nat -> (q < w)%nat -> exact_value (H_pair N g rows false p q) (H_pair xR (fun r => Fin (h r)) rows false p q) (100 * k * B + P2 (-530)).
  Proof.
    intros Hp Hq. exists (sqrt (RHnum rows (RPD2_at rows h p q) (RPD1_at rows h p) (RPD1_at rows h q) / INR n)). pose proof (INR_pos_length rows Hne) as Pn. split.
    - unfold H_pair. rewrite (H_value_fin rows false _ _ _ (RPD2_at rows h p q) (RPD1_at rows h p) (RPD1_at rows h q)) by (first [apply (PD2_at_fin rows w Hw)|apply (PD1_at_fin rows w Hw)]; assumption).
      rewrite xR_div_fin by lra. apply xR_sqrt_fin. apply Rmult_le_pos; [apply RHnum_nonneg|left; apply Rinv_0_lt_compat, Pn].
    - apply (H_value_float sum Hsum rows Hne B Hn HB _ _ _ _ _ _ (2 * k * B + eta) B_nonneg err_nonneg ltac:(lra)); intros r Hr; [apply near_PD2_at|apply near_PD1_at|apply near_PD1_at]; assumption.
  Qed.
  Lemma H_all_float p : (p < w)%nat -> exact_value (H_all N g rows false p) (H_all xR (fun r => Fin (h r)) rows false p) (100 * k * B + P2 (-530)).
  Proof.
    intros Hp. exists (sqrt (RHnum rows h (RPD1_at rows h p) (RPDminus rows h p) / INR n)). pose proof (INR_pos_length rows Hne) as Pn. split.
    - unfold H_all. rewrite (H_value_fin rows false _ _ _ h (RPD1_at rows h p) (RPDminus rows h p)) by (first [intros r _; reflexivity|apply (PD1_at_fin rows w Hw)|apply (PDminus_at_fin rows w Hw)]; assumption).
      rewrite xR_div_fin by lra. apply xR_sqrt_fin. apply Rmult_le_pos; [apply RHnum_nonneg|left; apply Rinv_0_lt_compat, Pn].
    - apply (H_value_float sum Hsum rows Hne B Hn HB _ _ _ _ _ _ (2 * k * B + eta) B_nonneg err_nonneg ltac:(lra)); intros r Hr; [|apply near_PD1_at; assumption|apply near_PDminus; assumption].
      eapply near_le; [apply near_model, made_row; assumption|apply err_nonneg|lra].
  Qed.
  (** the default: the share of the variance of the joint effect *)
  Notation E := (100 * k * B + P2 (-530)).
  Lemma H_pair_float_normalised p q : (p < w)%nat -> (q < w)%nat -> 4 * E <= deviation rows (RPD2_at rows h p q) ->
    exists y, H_pair xR (fun r => Fin (h r)) rows true p q = Fin y /\ 0 <= y /\ within (8 * (E / deviation rows (RPD2_at rows h p q)) * (1 + y)) (H_pair N g rows true p q) y.
  Proof.
    intros Hp Hq H4. destruct (H_value_float_normalised sum Hsum rows Hne B Hn HB (PD2_at N g rows p q) (PD1_at N g rows p) (PD1_at N g rows q) (RPD2_at rows h p q) (RPD1_at rows h p) (RPD1_at rows h q) (2 * k * B + eta) B_nonneg err_nonneg ltac:(lra)) as [Pd W];
      [intros r Hr; apply near_PD2_at; assumption|intros r Hr; apply near_PD1_at; assumption|intros r Hr; apply near_PD1_at; assumption|exact H4|].
    exists (RHnum rows (RPD2_at rows h p q) (RPD1_at rows h p) (RPD1_at rows h q) / RHden rows (RPD2_at rows h p q)). split; [|split].
    - unfold H_pair. rewrite (H_value_fin rows true _ _ _ (RPD2_at rows h p q) (RPD1_at rows h p) (RPD1_at rows h q)) by (first [apply (PD2_at_fin rows w Hw)|apply (PD1_at_fin rows w Hw)]; assumption). apply xR_div_fin. lra.
    - apply Rmult_le_pos; [apply RHnum_nonneg|left; apply Rinv_0_lt_compat, Pd].
    - exact W.
  Qed.
  Lemma H_all_float_normalised p : (p < w)%nat -> 4 * E <= deviation rows h ->
    exists y, H_all xR (fun r => Fin (h r)) rows true p = Fin y /\ 0 <= y /\ within (8 * (E / deviation rows h) * (1 + y)) (H_all N g rows true p) y.
  Proof.
    intros Hp H4. destruct (H_value_float_normalised sum Hsum rows Hne B Hn HB g (PD1_at N g rows p) (fun r => PDminus (np_mean N) g rows p r) h (RPD1_at rows h p) (RPDminus rows h p) (2 * k * B + eta) B_nonneg err_nonneg ltac:(lra)) as [Pd W];
      [intros r Hr; eapply near_le; [apply near_model, made_row; assumption|apply err_nonneg|lra]|intros r Hr; apply near_PD1_at; assumption|intros r Hr; apply near_PDminus; assumption|exact H4|].
    exists (RHnum rows h (RPD1_at rows h p) (RPDminus rows h p) / RHden rows h). split; [|split].
    - unfold H_all. rewrite (H_value_fin rows true _ _ _ h (RPD1_at rows h p) (RPDminus rows h p)) by (first [intros r _; reflexivity|apply (PD1_at_fin rows w Hw)|apply (PDminus_at_fin rows w Hw)]; assumption). apply xR_div_fin. lra.
    - apply Rmult_le_pos; [apply RHnum_nonneg|left; apply Rinv_0_lt_compat, Pd].
    - exact W.
  Qed.
End Pd.

(** ** C136 *)
Section Accuracy.
  Context {C G : Type} (O : cell_ops C) (HO : cell_ok O) (Rg : rng_ops G) (HR : rng_ok Rg) (srt : sorter) (Hs : sorter_ok srt) (sum : list F -> F) (Hsum : forall l, added l (sum l)).
  Notation N := (fl64 sum).
  Notation fitF := (PdMethods.fit O N Rg srt).
  Notation fitR := (PdMethods.fit O xR Rg srt).
  Notation "'fin' h" := (fun r => Fin (h r)) (at level 10, only parsing).
  Notation Hnan := (no_isnan_nan xR xR_ord).

  Lemma in_col p v (rows : list (list C)) : In v (col_at p rows) <-> exists r, In r rows /\ nth_error r p = Some v.
  Proof.
    unfold col_at. rewrite in_flat_map. split; intros (r & Hr & H); exists r; (split; [exact Hr|]).
    - destruct (nth_error r p) as [u|]; [|destruct H]. destruct H as [->|[]]; reflexivity.
    - rewrite H. left. reflexivity.
  Qed.
  (** the partial dependence values *)
  Theorem C136_partial_dependence m X P b c g B :
    wf_frame X -> rowwise P g -> reachable O N m X P b c -> f_rows X <> [] -> (INR (length (f_rows X)) <= P2 40)%R -> (B <= P2 480)%R -> numbers_within (f_rows X) (length (f_cols X)) B g ->
    let err := (2 * (INR (length (f_rows X)) * P2 (-53)) * B + P2 (-1075))%R in
    (forall fs c' p f vs, calculate_pd_single O N c fs = (c', Ok tt) -> In f (feats X fs) -> nth_error (f_cols X) p = Some f -> (forall v, In v vs -> In v (col_at p (f_rows X))) ->
       exists xs, get_pd_single O c' f (Some vs) = Ok xs /\ Forall2 (fun v x => within err x (PD1 Rmean (exactly g) (f_rows X) p v)) vs xs)
    /\ (forall ps (a : bool) c' p q f1 f2 vals, calculate_pd_pairs O N c ps a = (c', Ok tt) -> requested X ps f1 f2 ->
       nth_error (f_cols X) p = Some f1 -> nth_error (f_cols X) q = Some f2 -> p <> q ->
       (forall v u, In (v, u) vals -> if a then In v (col_at p (f_rows X)) /\ In u (col_at q (f_rows X)) else exists r, In r (f_rows X) /\ nth_error r p = Some v /\ nth_error r q = Some u) ->
       exists xs, get_pd_pairs O c' f1 f2 vals = Ok xs /\ Forall2 (fun v x => within err x (PD2 Rmean (exactly g) (f_rows X) p q (fst v) (snd v))) vals xs)
    /\ (forall fs c' p f, calculate_pd_minus_single N c fs = (c', Ok tt) -> In f (feats X fs) -> nth_error (f_cols X) p = Some f ->
       exists xs, get_pd_minus_single c' f = Ok xs
         /\ Forall2 (fun row x => within err x (Rmean (map (fun v => exactly g (with_value p v row)) (col_at p (f_rows X))))) (f_rows X) xs).
  Proof.
    intros HX Hrow Hc Hne Hn HB Hg err. pose proof (wf_rows X HX) as Hw.
    assert (L : forall {A} (Q : A -> F -> Prop) f (l : list A), (forall a, In a l -> Q a (f a)) -> Forall2 Q l (map f l)).
    { intros A Q f l H. induction l as [|a l IH]; constructor; [apply H; left; reflexivity|apply IH; intros; apply H; right; assumption]. }
    assert (K : forall x r, near x r err B -> within err x r) by (intros x r (H1 & H2 & _); split; assumption).
    assert (Cl : forall p v, In v (col_at p (f_rows X)) -> exists s, In s (f_rows X) /\ nth_error s p = Some v).
    { intros p v Hv. apply in_col, Hv. }
    split; [|split].
    - intros fs c' p f vs H Hf Hp Hvs. destruct (C01_single_exact O N HO eq_refl m X P b c g fs c' p f HX Hrow Hc H Hf Hp) as [E _]. eexists. split; [apply (E vs Hvs)|]. apply L. intros v Hv. apply K.
      apply (near_PD1 sum Hsum (f_rows X) (length (f_cols X)) Hw Hne B g Hn HB Hg p v (pos_lt X p f Hp)). apply Cl, Hvs, Hv.
    - intros ps a c' p q f1 f2 vals H Hf Hp Hq Hpq Hvs. eexists. split; [apply (C02_pairs_exact O N HO eq_refl m X P b c g ps a c' p q f1 f2 HX Hrow Hc H Hf Hp Hq Hpq vals)|].
      + exact Hvs.
      + apply L. intros [v u] Hin. apply K. cbn [fst snd].
        assert (Hvu : In v (col_at p (f_rows X)) /\ In u (col_at q (f_rows X))).
        { specialize (Hvs v u Hin). destruct a; [exact Hvs|]. destruct Hvs as (r & Hr & E1 & E2). split; apply in_col; eauto. }
        apply (near_PD2 sum Hsum (f_rows X) (length (f_cols X)) Hw Hne B g Hn HB Hg p q v u (pos_lt X p f1 Hp) (pos_lt X q f2 Hq)); apply Cl, Hvu.
    - intros fs c' p f H Hf Hp. eexists. split; [apply (C03_minus_exact O N HO eq_refl m X P b c g fs c' p f HX Hrow Hc H Hf Hp)|]. apply L. intros r Hr. apply K.
      replace (Rmean (map (fun v => exactly g (with_value p v r)) (col_at p (f_rows X)))) with (RPDminus (f_rows X) (exactly g) p r).
      + apply (near_PDminus sum Hsum (f_rows X) (length (f_cols X)) Hw Hne B g Hn HB Hg p r Hr (pos_lt X p f Hp)).
      + unfold RPDminus. f_equal. pose proof (pos_lt X p f Hp) as Hp'. clear - Hw Hp'. unfold col_at. induction (f_rows X) as [|s l IH]; [reflexivity|]. cbn [map flat_map]. rewrite IH by (intros; apply Hw; right; assumption).
        destruct (nth_error s p) as [v|] eqn:E; [reflexivity|]. apply nth_error_None in E. rewrite (Hw s (or_introl eq_refl)) in E. lia.
  Qed.

  (** the reported values and the values of the same model in exact arithmetic *)
  Theorem C136_pairs s1 a1 s1' s2 a2 s2' g Xs B f1 f2 t1 t2 v1 v2 :
    wf_frame (a_X a1) -> wf_frame (a_X a2) ->
    fitF (Friedman false) s1 a1 = (s1', Ok tt) -> m_X s1' = Some Xs -> explains O N a1 g Xs ->
    fitR (Friedman false) s2 a2 = (s2', Ok tt) -> m_X s2' = Some Xs -> explains O xR a2 (fin (exactly g)) Xs ->
    f_rows Xs <> [] -> (INR (length (f_rows Xs)) <= P2 40)%R -> (B <= P2 480)%R -> numbers_within (f_rows Xs) (length (f_cols Xs)) B g ->
    m_ovo s1' = Some t1 -> m_ovo s2' = Some t2 -> In (f1, f2, v1) t1 -> In (f1, f2, v2) t2 ->
    exists y, v2 = Fin y /\ within (100 * (INR (length (f_rows Xs)) * P2 (-53)) * B + P2 (-530)) v1 y.
  Proof.
    intros HX1 HX2 H1 HXs1 He1 H2 HXs2 He2 Hne Hn HB Hg Ht1 Ht2 Hv1 Hv2.
    destruct (friedman_fit O N HO eq_refl Rg HR srt false s1 a1 s1' _ Xs HX1 H1 HXs1 He1) as (HwX & _).
    destruct (C12_friedman_pairs O N HO (fl64_ord sum) eq_refl Rg HR srt Hs false s1 a1 s1' _ Xs HX1 H1 HXs1 He1) as (t & Ht & _ & Hval1 & _).
    rewrite Ht1 in Ht; injection Ht as <-.
    destruct (C12_friedman_pairs O xR HO xR_ord x0 Rg HR srt Hs false s2 a2 s2' _ Xs HX2 H2 HXs2 He2) as (t & Ht & _ & Hval2 & _).
    rewrite Ht2 in Ht; injection Ht as <-.
    destruct (Hval1 _ _ _ Hv1) as (p & q & Hp & Hq & Hpq & ->). destruct (Hval2 _ _ _ Hv2) as (p2 & q2 & Hp2 & Hq2 & _ & ->).
    apply (posn_nth Xs _ _ HwX) in Hp2 as <-. apply (posn_nth Xs _ _ HwX) in Hq2 as <-.
    rewrite (posn_nth Xs p f1 HwX Hp), (posn_nth Xs q f2 HwX Hq) in *.
    destruct (H_pair_float sum Hsum (f_rows Xs) (length (f_cols Xs)) (wf_rows Xs HwX) Hne B g Hn HB Hg p q (pos_lt Xs p f1 Hp) (pos_lt Xs q f2 Hq)) as (y & Ey & Wy).
    exists y. split; [rewrite Ey; reflexivity|]. unfold or_zero. cbn [n_isnan fl64]. rewrite (finite_num _ (proj1 Wy)). exact Wy.
  Qed.

  Theorem C136_one_versus_all s1 a1 s1' s2 a2 s2' g Xs B f t1 t2 v1 v2 :
    wf_frame (a_X a1) -> wf_frame (a_X a2) ->
    fitF (Friedman false) s1 a1 = (s1', Ok tt) -> m_X s1' = Some Xs -> explains O N a1 g Xs -> a_ova a1 = true ->
    fitR (Friedman false) s2 a2 = (s2', Ok tt) -> m_X s2' = Some Xs -> explains O xR a2 (fin (exactly g)) Xs -> a_ova a2 = true ->
    f_rows Xs <> [] -> (INR (length (f_rows Xs)) <= P2 40)%R -> (B <= P2 480)%R -> numbers_within (f_rows Xs) (length (f_cols Xs)) B g ->
    m_ova s1' = Some t1 -> m_ova s2' = Some t2 -> In (f, v1) t1 -> In (f, v2) t2 ->
    exists y, v2 = Fin y /\ within (100 * (INR (length (f_rows Xs)) * P2 (-53)) * B + P2 (-530)) v1 y.
  Proof.
    intros HX1 HX2 H1 HXs1 He1 Ho1 H2 HXs2 He2 Ho2 Hne Hn HB Hg Ht1 Ht2 Hv1 Hv2.
    destruct (friedman_fit O N HO eq_refl Rg HR srt false s1 a1 s1' _ Xs HX1 H1 HXs1 He1) as (HwX & _).
    destruct (C13_friedman_ova O N HO (fl64_ord sum) eq_refl Rg HR srt Hs false s1 a1 s1' _ Xs HX1 H1 HXs1 He1 Ho1) as (t & Ht & _ & Hval1 & _).
    rewrite Ht1 in Ht; injection Ht as <-.
    destruct (C13_friedman_ova O xR HO xR_ord x0 Rg HR srt Hs false s2 a2 s2' _ Xs HX2 H2 HXs2 He2 Ho2) as (t & Ht & _ & Hval2 & _).
    rewrite Ht2 in Ht; injection Ht as <-.
    destruct (Hval1 _ _ Hv1) as (p & Hp & ->). destruct (Hval2 _ _ Hv2) as (p2 & Hp2 & ->). apply (posn_nth Xs _ _ HwX) in Hp2 as <-. rewrite (posn_nth Xs p f HwX Hp) in *.
    destruct (H_all_float sum Hsum (f_rows Xs) (length (f_cols Xs)) (wf_rows Xs HwX) Hne B g Hn HB Hg p (pos_lt Xs p f Hp)) as (y & Ey & Wy).
    exists y. split; [rewrite Ey; reflexivity|]. unfold or_zero. cbn [n_isnan fl64]. rewrite (finite_num _ (proj1 Wy)). exact Wy.
  Qed.

  (** the default, with the division by the variance of the joint effect: [s] is its root mean square deviation *)
  Theorem C136_normalised_pairs s1 a1 s1' s2 a2 s2' g Xs B p q f1 f2 t1 t2 v1 v2 :
    wf_frame (a_X a1) -> wf_frame (a_X a2) ->
    fitF (Friedman true) s1 a1 = (s1', Ok tt) -> m_X s1' = Some Xs -> explains O N a1 g Xs ->
    fitR (Friedman true) s2 a2 = (s2', Ok tt) -> m_X s2' = Some Xs -> explains O xR a2 (fin (exactly g)) Xs ->
    f_rows Xs <> [] -> (INR (length (f_rows Xs)) <= P2 40)%R -> (B <= P2 480)%R -> numbers_within (f_rows Xs) (length (f_cols Xs)) B g ->
    let E := (100 * (INR (length (f_rows Xs)) * P2 (-53)) * B + P2 (-530))%R in let s := deviation (f_rows Xs) (RPD2_at (f_rows Xs) (exactly g) p q) in
    nth_error (f_cols Xs) p = Some f1 -> nth_error (f_cols Xs) q = Some f2 -> (4 * E <= s)%R ->
    m_ovo s1' = Some t1 -> m_ovo s2' = Some t2 -> In (f1, f2, v1) t1 -> In (f1, f2, v2) t2 ->
    exists y, v2 = Fin y /\ (0 <= y)%R /\ within (8 * (E / s) * (1 + y)) v1 y.
  Proof.
    intros HX1 HX2 H1 HXs1 He1 H2 HXs2 He2 Hne Hn HB Hg E dv Hp Hq H4 Ht1 Ht2 Hv1 Hv2.
    destruct (friedman_fit O N HO eq_refl Rg HR srt true s1 a1 s1' _ Xs HX1 H1 HXs1 He1) as (HwX & _).
    destruct (C12_friedman_pairs O N HO (fl64_ord sum) eq_refl Rg HR srt Hs true s1 a1 s1' _ Xs HX1 H1 HXs1 He1) as (t & Ht & _ & Hval1 & _).
    rewrite Ht1 in Ht; injection Ht as <-.
    destruct (C12_friedman_pairs O xR HO xR_ord x0 Rg HR srt Hs true s2 a2 s2' _ Xs HX2 H2 HXs2 He2) as (t & Ht & _ & Hval2 & _).
    rewrite Ht2 in Ht; injection Ht as <-.
    destruct (Hval1 _ _ _ Hv1) as (p1 & q1 & Hp1 & Hq1 & _ & ->). destruct (Hval2 _ _ _ Hv2) as (p2 & q2 & Hp2 & Hq2 & _ & ->).
    apply (posn_nth Xs _ _ HwX) in Hp1 as <-. apply (posn_nth Xs _ _ HwX) in Hq1 as <-. apply (posn_nth Xs _ _ HwX) in Hp2 as <-. apply (posn_nth Xs _ _ HwX) in Hq2 as <-.
    rewrite (posn_nth Xs p f1 HwX Hp), (posn_nth Xs q f2 HwX Hq) in *.
    destruct (H_pair_float_normalised sum Hsum (f_rows Xs) (length (f_cols Xs)) (wf_rows Xs HwX) Hne B g Hn HB Hg p q (pos_lt Xs p f1 Hp) (pos_lt Xs q f2 Hq) H4) as (y & Ey & Py & Wy).
    exists y. split; [rewrite Ey; reflexivity|]. split; [exact Py|]. unfold or_zero. cbn [n_isnan fl64]. rewrite (finite_num _ (proj1 Wy)). exact Wy.
  Qed.

  Theorem C136_normalised_one_versus_all s1 a1 s1' s2 a2 s2' g Xs B f t1 t2 v1 v2 :
    wf_frame (a_X a1) -> wf_frame (a_X a2) ->
    fitF (Friedman true) s1 a1 = (s1', Ok tt) -> m_X s1' = Some Xs -> explains O N a1 g Xs -> a_ova a1 = true ->
    fitR (Friedman true) s2 a2 = (s2', Ok tt) -> m_X s2' = Some Xs -> explains O xR a2 (fin (exactly g)) Xs -> a_ova a2 = true ->
    f_rows Xs <> [] -> (INR (length (f_rows Xs)) <= P2 40)%R -> (B <= P2 480)%R -> numbers_within (f_rows Xs) (length (f_cols Xs)) B g ->
    let E := (100 * (INR (length (f_rows Xs)) * P2 (-53)) * B + P2 (-530))%R in let s := deviation (f_rows Xs) (exactly g) in
    (4 * E <= s)%R ->
    m_ova s1' = Some t1 -> m_ova s2' = Some t2 -> In (f, v1) t1 -> In (f, v2) t2 ->
    exists y, v2 = Fin y /\ (0 <= y)%R /\ within (8 * (E / s) * (1 + y)) v1 y.
  Proof.
    intros HX1 HX2 H1 HXs1 He1 Ho1 H2 HXs2 He2 Ho2 Hne Hn HB Hg E dv H4 Ht1 Ht2 Hv1 Hv2.
    destruct (friedman_fit O N HO eq_refl Rg HR srt true s1 a1 s1' _ Xs HX1 H1 HXs1 He1) as (HwX & _).
    destruct (C13_friedman_ova O N HO (fl64_ord sum) eq_refl Rg HR srt Hs true s1 a1 s1' _ Xs HX1 H1 HXs1 He1 Ho1) as (t & Ht & _ & Hval1 & _).
    rewrite Ht1 in Ht; injection Ht as <-.
    destruct (C13_friedman_ova O xR HO xR_ord x0 Rg HR srt Hs true s2 a2 s2' _ Xs HX2 H2 HXs2 He2 Ho2) as (t & Ht & _ & Hval2 & _).
    rewrite Ht2 in Ht; injection Ht as <-.
    destruct (Hval1 _ _ Hv1) as (p & Hp & ->). destruct (Hval2 _ _ Hv2) as (p2 & Hp2 & ->). apply (posn_nth Xs _ _ HwX) in Hp2 as <-. rewrite (posn_nth Xs p f HwX Hp) in *.
    destruct (H_all_float_normalised sum Hsum (f_rows Xs) (length (f_cols Xs)) (wf_rows Xs HwX) Hne B g Hn HB Hg p (pos_lt Xs p f Hp) H4) as (y & Ey & Py & Wy).
    exists y. split; [rewrite Ey; reflexivity|]. split; [exact Py|]. unfold or_zero. cbn [n_isnan fl64]. rewrite (finite_num _ (proj1 Wy)). exact Wy.
  Qed.

  (** a model whose predictions are within [eps] of a model without the interaction *)
  Theorem C136_no_interaction s a s' g h0 eps Xs B p q f1 f2 t v :
    wf_frame (a_X a) -> fitF (Friedman false) s a = (s', Ok tt) -> m_X s' = Some Xs -> explains O N a g Xs ->
    f_rows Xs <> [] -> (INR (length (f_rows Xs)) <= P2 40)%R -> (B <= P2 480)%R -> numbers_within (f_rows Xs) (length (f_cols Xs)) B g ->
    nth_error (f_cols Xs) p = Some f1 -> nth_error (f_cols Xs) q = Some f2 ->
    additive_pair (length (f_cols Xs)) h0 p q -> models_close (f_rows Xs) (length (f_cols Xs)) eps h0 (exactly g) ->
    m_ovo s' = Some t -> In (f1, f2, v) t ->
    within (3 * eps + 100 * (INR (length (f_rows Xs)) * P2 (-53)) * B + P2 (-530)) v 0.
  Proof.
    intros HX H HXs He Hne Hn HB Hg Hp Hq Hadd Hcl Ht Hv.
    destruct (friedman_fit O N HO eq_refl Rg HR srt false s a s' _ Xs HX H HXs He) as (HwX & _).
    destruct (C12_friedman_pairs O N HO (fl64_ord sum) eq_refl Rg HR srt Hs false s a s' _ Xs HX H HXs He) as (u & Hu & _ & Hval & _).
    rewrite Ht in Hu; injection Hu as <-. destruct (Hval _ _ _ Hv) as (p2 & q2 & Hp2 & Hq2 & Hpq & ->).
    apply (posn_nth Xs _ _ HwX) in Hp2 as <-. apply (posn_nth Xs _ _ HwX) in Hq2 as <-.
    rewrite (posn_nth Xs p f1 HwX Hp), (posn_nth Xs q f2 HwX Hq) in *.
    destruct (H_pair_float sum Hsum (f_rows Xs) (length (f_cols Xs)) (wf_rows Xs HwX) Hne B g Hn HB Hg p q (pos_lt Xs p f1 Hp) (pos_lt Xs q f2 Hq)) as (y & Ey & Wy).
    destruct (H_pair_close (f_rows Xs) (length (f_cols Xs)) (wf_rows Xs HwX) Hne h0 (exactly g) eps Hcl p q (pos_lt Xs p f1 Hp) (pos_lt Xs q f2 Hq)) as (z & z' & E1 & E2 & K).
    pose proof (H_pair_zero (f_rows Xs) (length (f_cols Xs)) (wf_rows Xs HwX) h0 false p q Hpq (pos_lt Xs p f1 Hp) (pos_lt Xs q f2 Hq) Hadd) as Z.
    rewrite E1 in Z. change (or_zero xR (Fin z)) with (@Fin R z) in Z. injection Z as ->. rewrite Ey in E2. injection E2 as <-.
    unfold or_zero. cbn [n_isnan fl64]. rewrite (finite_num _ (proj1 Wy)). destruct Wy as [W1 W2]. split; [exact W1|]. fold ulp. set (k := (100 * (INR (length (f_rows Xs)) * ulp) * B)%R) in *. clearbody k. clear - W2 K. abs; lra.
  Qed.

  (** pairs whose exact values are further apart than twice the bound are in the right order *)
  Lemma fle_fv x y : finite x -> finite y -> (fle x y <-> (fv x <= fv y)%R).
  Proof.
    intros Hx Hy. rewrite (fle_tiny x y Hx Hy), (fv_tiny x Hx), (fv_tiny y Hy). pose proof (P2_pos (-1074)) as P. split; intros H.
    - apply Rmult_le_compat_r; [lra|]. apply IZR_le, H.
    - apply le_IZR. apply (Rmult_le_reg_r _ _ _ P H).
  Qed.
  Theorem C136_order s1 a1 s1' s2 a2 s2' g Xs B f1 f2 g1 g2 t1 t2 x y v w i j :
    wf_frame (a_X a1) -> wf_frame (a_X a2) ->
    fitF (Friedman false) s1 a1 = (s1', Ok tt) -> m_X s1' = Some Xs -> explains O N a1 g Xs ->
    fitR (Friedman false) s2 a2 = (s2', Ok tt) -> m_X s2' = Some Xs -> explains O xR a2 (fin (exactly g)) Xs ->
    f_rows Xs <> [] -> (INR (length (f_rows Xs)) <= P2 40)%R -> (B <= P2 480)%R -> numbers_within (f_rows Xs) (length (f_cols Xs)) B g ->
    m_ovo s1' = Some t1 -> m_ovo s2' = Some t2 -> In (f1, f2, Fin x) t2 -> In (g1, g2, Fin y) t2 ->
    (y + 2 * (100 * (INR (length (f_rows Xs)) * P2 (-53)) * B + P2 (-530)) < x)%R ->
    nth_error t1 i = Some (f1, f2, v) -> nth_error t1 j = Some (g1, g2, w) -> i < j.
  Proof.
    intros HX1 HX2 H1 HXs1 He1 H2 HXs2 He2 Hne Hn HB Hg Ht1 Ht2 Hf Hg' Hxy Hi Hj.
    destruct (C136_pairs s1 a1 s1' s2 a2 s2' g Xs B f1 f2 t1 t2 _ _ HX1 HX2 H1 HXs1 He1 H2 HXs2 He2 Hne Hn HB Hg Ht1 Ht2 (nth_error_In _ _ Hi) Hf) as (x' & E1 & F1 & W1). injection E1 as <-.
    destruct (C136_pairs s1 a1 s1' s2 a2 s2' g Xs B g1 g2 t1 t2 _ _ HX1 HX2 H1 HXs1 He1 H2 HXs2 He2 Hne Hn HB Hg Ht1 Ht2 (nth_error_In _ _ Hj) Hg') as (y' & E2 & F2 & W2). injection E2 as <-.
    set (e := (100 * (INR (length (f_rows Xs)) * P2 (-53)) * B + P2 (-530))%R) in *. clearbody e.
    assert (Hlt : (fv w < fv v)%R) by (clear - W1 W2 Hxy; abs; lra). clear W1 W2 Hxy.
    assert (L : SFltb w v = true).
    { destruct (SFltb w v) eqn:E; [reflexivity|exfalso]. assert (K : fle v w) by (repeat split; [apply finite_num, F1|apply finite_num, F2|exact E]). apply (fle_fv v w F1 F2) in K. lra. }
    destruct (friedman_fit O N HO eq_refl Rg HR srt false s1 a1 s1' _ Xs HX1 H1 HXs1 He1) as (_ & _ & _ & Eo & _).
    assert (Hd : StronglySorted (fun a b => SFltb (snd a) (snd b) = false) t1).
    { rewrite Ht1 in Eo. injection Eo as ->. apply (table_sorted N srt Hs (fl64_ord sum)). intros r Hr. apply in_map_iff in Hr as (pr & <- & _). cbn [snd n_isnan n_ltb fl64].
      destruct (f_isnan _) eqn:En; [left; reflexivity|right]. assert (K : fle f_zero (H_pair N g (f_rows Xs) false (posn Xs (fst pr)) (posn Xs (snd pr)))) by (apply fge0_fle; [exact En|apply (H_value_nonneg sum Hsum)]). apply K. }
    destruct (Nat.lt_trichotomy i j) as [K|[K|K]]; [exact K|subst j; rewrite Hi in Hj; injection Hj as _ _ ->; lra|exfalso].
    clear - Hd Hi Hj L K. revert i j Hi Hj K. induction Hd as [|r t Hd IH Hr]; intros i j Hi Hj K; [destruct i; discriminate|].
    destruct i as [|i]; [lia|]. destruct j as [|j]; [|apply (IH i j Hi Hj); lia]. injection Hj as ->. cbn [nth_error] in Hi. rewrite Forall_forall in Hr. specialize (Hr _ (nth_error_In _ _ Hi)). cbn [snd] in Hr. congruence.
  Qed.
End Accuracy.

(** *** A tenth of [x*y + z], in doubles: the pair without an interaction gets a value at the level of the rounding errors *)
Definition tg (r : list Z) : F := match r with [x; y; z] => fdiv (f_ofZ (x * y + z)) (f_ofZ 10) | _ => S754_nan end.
Definition tP : nat -> list (list Z) -> result (list F) := fun _ rows => Ok (map tg rows).
Definition targs := mkargs tP rX None true None.
Definition t_ab : F := S754_finite false 4529103411573882 (-58).
Definition t_bc : F := S754_finite false 8222410352942271 (-108).
Definition t_ac : F := S754_finite false 5814122118263953 (-108).

Lemma tg_close r : made_of (f_rows rX) 3 r -> finite (tg r) /\ (Rabs (fv (tg r) - cell3 (fun x y z => (x * y + z) / 10) r) <= P2 (-53))%R /\ (Rabs (cell3 (fun x y z => (x * y + z) / 10) r) <= 3 / 10)%R.
Proof.
  intros Hr. apply made_rX in Hr as (x & y & z & -> & Hx & Hy & Hz).
  assert (Hk : (0 <= x * y + z <= 3)%Z) by (destruct Hx as [->| ->], Hy as [->| ->], Hz as [->|[->| ->]]; lia).
  unfold tg. change (cell3 (fun x y z => (x * y + z) / 10)%R [x; y; z]) with ((IZR x * IZR y + IZR z) / 10)%R. rewrite <- mult_IZR, <- plus_IZR. set (m := (x * y + z)%Z) in *. clearbody m.
  destruct (ofZ_exact m) as [F1 E1]; [change (2 ^ 52)%Z with 4503599627370496%Z; lia|].
  assert (V : fv (f_ofZ m) = IZR m).
  { rewrite (fv_tiny _ F1), E1, mult_IZR. replace (IZR unit1) with (P2 1074) by (rewrite <- P2_IZR by lia; reflexivity). rewrite Rmult_assoc, <- P2_add. change (P2 (1074 + -1074)) with 1%R. ring. }
  destruct (div_real (f_ofZ m) 10 F1) as [F2 E2]; [change (2 ^ 52)%Z with 4503599627370496%Z; lia|]. rewrite V in E2. split; [exact F2|].
  assert (M : (0 <= IZR m <= 3)%R) by (split; apply IZR_le; lia). rewrite (Rabs_pos_eq (IZR m / 10)) in * by lra. split; [|lra].
  assert (HE : (eta <= / 2 * ulp)%R) by (unfold ulp, eta; replace (/ 2)%R with (P2 (-1)) by (change (P2 (-1)) with (/ (2 * 1))%R; f_equal; ring); rewrite <- P2_add; apply P2_le; lia).
  pose proof ulp_pos. fold ulp. nra.
Qed.
Example C136_example :
  exists s1 s2 t2 y,
    PdMethods.fit Zcell (fl64 seq_sum) rotR isort (Friedman false) init0 targs = (s1, Ok tt) /\ m_ovo s1 = Some [("a", "b", t_ab); ("b", "c", t_bc); ("a", "c", t_ac)]
    /\ PdMethods.fit Zcell xR rotR isort (Friedman false) init0 (rargs (exactly tg) true) = (s2, Ok tt) /\ m_ovo s2 = Some t2 /\ In ("a", "b", Fin y) t2
    /\ numbers_within (f_rows rX) 3 1 tg /\ within (300 * P2 (-53) + P2 (-530)) t_ab y /\ within (303 * P2 (-53) + P2 (-530)) t_ac 0.
Proof.
  pose proof tg_close as TC.
  assert (Hg : numbers_within (f_rows rX) (length (f_cols rX)) 1 tg).
  { intros r Hr. destruct (TC r Hr) as (F1 & E1 & E2). split; [exact F1|]. assert (U : (P2 (-53) <= P2 (-1))%R) by (apply P2_le; lia). change (P2 (-1)) with (/ (2 * 1))%R in U. set (c := cell3 _ r) in *. clearbody c. clear - E1 E2 U. abs; lra. }
  assert (Hn : (INR (length (f_rows rX)) <= P2 40)%R) by (change (INR (length (f_rows rX))) with (1 + 1 + 1)%R; apply Rle_trans with (P2 2); [change (P2 2) with (2 * (2 * 1))%R; lra|apply P2_le; lia]).
  assert (HB : (1 <= P2 480)%R) by (change 1%R with (P2 0); apply P2_le; lia).
  assert (He : explains Zcell (fl64 seq_sum) targs tg rX) by (split; [intros n rows ys E; injection E as <-; reflexivity|exact I]).
  set (s1 := fst (PdMethods.fit Zcell (fl64 seq_sum) rotR isort (Friedman false) init0 targs)).
  assert (E1 : PdMethods.fit Zcell (fl64 seq_sum) rotR isort (Friedman false) init0 targs = (s1, Ok tt)) by (unfold s1; rewrite (surjective_pairing (PdMethods.fit Zcell (fl64 seq_sum) rotR isort (Friedman false) init0 targs)) at 1; f_equal; vm_compute; reflexivity).
  assert (T1 : m_ovo s1 = Some [("a", "b", t_ab); ("b", "c", t_bc); ("a", "c", t_ac)]) by (vm_compute; reflexivity).
  assert (X1 : m_X s1 = Some rX) by (vm_compute; reflexivity). clearbody s1.
  destruct (rfit_ok false (exactly tg) true) as (s2 & E2 & X2).
  destruct (C12_friedman_pairs Zcell xR Zcell_ok xR_ord eq_refl rotR rotR_ok isort isort_ok false init0 (rargs (exactly tg) true) s2 _ rX rX_wf E2 X2 (rargs_explains _ true)) as (t2 & T2 & K2 & _).
  assert (I2 : In ("a", "b") (map fst t2)) by (rewrite K2; cbn; auto). apply in_map_iff in I2 as ([[f1 f2] v2] & F2 & I2). injection F2 as -> ->.
  destruct (C136_pairs Zcell Zcell_ok rotR rotR_ok isort isort_ok seq_sum seq_sum_added init0 targs s1 init0 (rargs (exactly tg) true) s2 tg rX 1 "a" "b" _ t2 t_ab v2
              rX_wf rX_wf E1 X1 He E2 X2 (rargs_explains _ true) ltac:(discriminate) Hn HB Hg T1 T2 ltac:(left; reflexivity) I2) as (y & -> & W).
  pose proof (C136_no_interaction Zcell Zcell_ok rotR rotR_ok isort isort_ok seq_sum seq_sum_added init0 targs s1 tg (cell3 (fun x y z => (x * y + z) / 10)%R) (P2 (-53)) rX 1 0 2 "a" "c" [("a", "b", t_ab); ("b", "c", t_bc); ("a", "c", t_ac)] t_ac
              rX_wf E1 X1 He ltac:(discriminate) Hn HB Hg eq_refl eq_refl) as Z.
  exists s1, s2, t2, y. split; [exact E1|]. split; [exact T1|]. split; [exact E2|]. split; [exact T2|]. split; [exact I2|]. split; [exact Hg|].
  change (INR (length (f_rows rX))) with (1 + 1 + 1)%R in *. split.
  - destruct W as [W1 W2]. split; [exact W1|]. eapply Rle_trans; [exact W2|]. lra.
  - destruct Z as [W1 W2]; [| |exact T1|right; right; left; reflexivity|].
    + exists (cell3 (fun x y z => z / 10)%R), (cell3 (fun x y z => x * y / 10)%R). split; [|split].
      * intros r Hl. destruct r as [|a [|b [|c [|]]]]; try discriminate Hl. unfold cell3. lra.
      * intros r v Hl. destruct r as [|a [|b [|c [|]]]]; try discriminate Hl. reflexivity.
      * intros r v Hl. destruct r as [|a [|b [|c [|]]]]; try discriminate Hl. reflexivity.
    + intros r Hr. apply (TC r Hr).
    + split; [exact W1|]. eapply Rle_trans; [exact W2|]. lra.
Qed.
(** the default statistic of feature [a]: the deviation of the predictions is more than 1/50, so the first 46 or so binary digits are right *)
Example C136_normalised_example :
  exists s1 s2 t1 t2 v y,
    PdMethods.fit Zcell (fl64 seq_sum) rotR isort (Friedman true) init0 targs = (s1, Ok tt) /\ m_ova s1 = Some t1 /\ In ("a", v) t1
    /\ PdMethods.fit Zcell xR rotR isort (Friedman true) init0 (rargs (exactly tg) true) = (s2, Ok tt) /\ m_ova s2 = Some t2 /\ In ("a", Fin y) t2
    /\ (4 * (300 * P2 (-53) + P2 (-530)) <= deviation (f_rows rX) (exactly tg))%R /\ (0 <= y)%R /\ within (400 * (300 * P2 (-53) + P2 (-530)) * (1 + y)) v y.
Proof.
  pose proof tg_close as TC.
  assert (Hg : numbers_within (f_rows rX) (length (f_cols rX)) 1 tg).
  { intros r Hr. destruct (TC r Hr) as (F1 & E1 & E2). split; [exact F1|]. assert (U : (P2 (-53) <= P2 (-1))%R) by (apply P2_le; lia). change (P2 (-1)) with (/ (2 * 1))%R in U. set (c := cell3 _ r) in *. clearbody c. clear - E1 E2 U. abs; lra. }
  assert (Hn : (INR (length (f_rows rX)) <= P2 40)%R) by (change (INR (length (f_rows rX))) with (1 + 1 + 1)%R; apply Rle_trans with (P2 2); [change (P2 2) with (2 * (2 * 1))%R; lra|apply P2_le; lia]).
  assert (HB : (1 <= P2 480)%R) by (change 1%R with (P2 0); apply P2_le; lia).
  assert (He : explains Zcell (fl64 seq_sum) targs tg rX) by (split; [intros n rows ys E; injection E as <-; reflexivity|exact I]).
  assert (U : (P2 (-53) <= / 1048576)%R) by (apply Rle_trans with (P2 (-20)); [apply P2_le; lia|right; unfold P2; simpl; field]).
  assert (U2 : (P2 (-530) <= / 1048576)%R) by (apply Rle_trans with (P2 (-20)); [apply P2_le; lia|right; unfold P2; simpl; field]).
  assert (D : (/ 50 <= deviation (f_rows rX) (exactly tg))%R).
  { unfold deviation. rewrite <- (sqrt_Rsqr (/ 50)) by lra. apply sqrt_le_1_alt. set (m := Rmean (map (exactly tg) (f_rows rX))). clearbody m. cbn [map f_rows rX].
    assert (In1 : forall r, In r (f_rows rX) -> made_of (f_rows rX) 3 r) by (intros r Hr; apply made_row; [apply (wf_rows rX rX_wf)|exact Hr]).
    destruct (TC [1; 0; 2]%Z (In1 _ ltac:(left; reflexivity))) as (_ & A1 & _). destruct (TC [0; 1; 1]%Z (In1 _ ltac:(right; left; reflexivity))) as (_ & A2 & _).
    change (cell3 (fun x y z => (x * y + z) / 10)%R [1; 0; 2]%Z) with ((1 * 0 + 2) / 10)%R in A1. change (cell3 (fun x y z => (x * y + z) / 10)%R [0; 1; 1]%Z) with ((0 * 1 + 1) / 10)%R in A2.
    unfold exactly. set (x := fv (tg [1; 0; 2]%Z)) in *. set (y := fv (tg [0; 1; 1]%Z)) in *. set (z := fv (tg [1; 1; 0]%Z)) in *. clearbody x y z. unfold Rmean. rewrite !Rsum_cons, Rsum_nil. cbn [length]. change (INR 3) with (1 + 1 + 1)%R.
    assert (Hd : (9 / 100 <= x - y)%R) by (clear - A1 A2 U; set (u := P2 (-53)) in *; clearbody u; abs; lra). clear - Hd. unfold Rsqr.
    assert (S : ((x - y) * (x - y) <= 2 * ((x - m) * (x - m) + (y - m) * (y - m)))%R) by (pose proof (Rle_0_sqr (x + y - 2 * m)) as Q; unfold Rsqr in Q; nra).
    pose proof (Rle_0_sqr (z - m)) as Q. unfold Rsqr in Q. nra. }
  set (s1 := fst (PdMethods.fit Zcell (fl64 seq_sum) rotR isort (Friedman true) init0 targs)).
  assert (E1 : PdMethods.fit Zcell (fl64 seq_sum) rotR isort (Friedman true) init0 targs = (s1, Ok tt)) by (unfold s1; rewrite (surjective_pairing (PdMethods.fit Zcell (fl64 seq_sum) rotR isort (Friedman true) init0 targs)) at 1; f_equal; vm_compute; reflexivity).
  assert (X1 : m_X s1 = Some rX) by (vm_compute; reflexivity). clearbody s1.
  destruct (C13_friedman_ova Zcell (fl64 seq_sum) Zcell_ok (fl64_ord seq_sum) eq_refl rotR rotR_ok isort isort_ok true init0 targs s1 _ rX rX_wf E1 X1 He eq_refl) as (t1 & T1 & K1 & _).
  assert (I1 : In "a" (map fst t1)) by (eapply Permutation_in; [apply Permutation_sym, K1|left; reflexivity]). apply in_map_iff in I1 as ([f1 v1] & F1 & I1). cbn [fst] in F1. subst f1.
  destruct (rfit_ok true (exactly tg) true) as (s2 & E2 & X2).
  destruct (C13_friedman_ova Zcell xR Zcell_ok xR_ord eq_refl rotR rotR_ok isort isort_ok true init0 (rargs (exactly tg) true) s2 _ rX rX_wf E2 X2 (rargs_explains _ true) eq_refl) as (t2 & T2 & K2 & _).
  assert (I2 : In "a" (map fst t2)) by (eapply Permutation_in; [apply Permutation_sym, K2|left; reflexivity]). apply in_map_iff in I2 as ([f2 v2] & F2 & I2). cbn [fst] in F2. subst f2.
  pose proof (C136_normalised_one_versus_all Zcell Zcell_ok rotR rotR_ok isort isort_ok seq_sum seq_sum_added init0 targs s1 init0 (rargs (exactly tg) true) s2 tg rX 1 "a" t1 t2 v1 v2
              rX_wf rX_wf E1 X1 He eq_refl E2 X2 (rargs_explains _ true) eq_refl ltac:(discriminate) Hn HB Hg) as W. cbv zeta in W.
  change (INR (length (f_rows rX))) with (1 + 1 + 1)%R in W.
  replace (100 * ((1 + 1 + 1) * P2 (-53)) * 1 + P2 (-530))%R with (300 * P2 (-53) + P2 (-530))%R in W by ring.
  pose proof (P2_pos (-53)) as Pu. pose proof (P2_pos (-530)) as Pv. set (E := (300 * P2 (-53) + P2 (-530))%R) in *. assert (HE : (0 < E <= / 1000)%R) by (unfold E; lra). clearbody E.
  assert (H4 : (4 * E <= deviation (f_rows rX) (exactly tg))%R) by lra. destruct (W H4 T1 T2 I1 I2) as (y & -> & Py & W1 & W2).
  exists s1, s2, t1, t2, v1, y. do 6 (split; [assumption|]). split; [exact H4|]. split; [exact Py|]. split; [exact W1|]. eapply Rle_trans; [exact W2|]. apply Rmult_le_compat_r; [lra|].
  assert (Q : (E / deviation (f_rows rX) (exactly tg) <= 50 * E)%R); [|lra]. set (d := deviation (f_rows rX) (exactly tg)) in *. clearbody d. apply (Rmult_le_reg_r d); [lra|]. unfold Rdiv. rewrite Rmult_assoc, Rinv_l by lra. nra.
Qed.

Print Assumptions C136_partial_dependence.
Print Assumptions C136_pairs.
Print Assumptions C136_one_versus_all.
Print Assumptions C136_normalised_pairs.
Print Assumptions C136_normalised_one_versus_all.
Print Assumptions C136_no_interaction.
Print Assumptions C136_order.
