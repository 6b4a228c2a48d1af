(** Invariance and bounds of the H-statistic; Greenwell's measure and the partial dependence
    importance over the reals. *)
From Verif Require Import Py Num NumR Sorting Frame PdSpec PdMethods MethodSpec PdMethodReal.
From Coq Require Import Reals Lra.
Open Scope nat_scope.

(** ** Symmetry *)
Lemma x_sub_swap (x a b : ext R) : n_sub xR (n_sub xR x a) b = n_sub xR (n_sub xR x b) a.
Proof. destruct x, a, b; try reflexivity. cbn. f_equal. lra. Qed.

Lemma H_value_swap {C} (rows : list (list C)) norm f12 f12' f1 f2 : (forall r, In r rows -> f12 r = f12' r) ->
  H_value xR rows norm f12 f1 f2 = H_value xR rows norm f12' f2 f1.
Proof.
  intros H. unfold H_value.
  assert (Hd : forall r, In r rows -> dev xR rows f12 r = dev xR rows f12' r).
  { intros r Hr. unfold dev. rewrite (H r Hr). f_equal. f_equal. apply map_ext_in, H. }
  rewrite (map_ext_in (fun r => sq xR (n_sub xR (n_sub xR (dev xR rows f12 r) (dev xR rows f1 r)) (dev xR rows f2 r)))
             (fun r => sq xR (n_sub xR (n_sub xR (dev xR rows f12' r) (dev xR rows f2 r)) (dev xR rows f1 r))) rows).
  2:{ intros r Hr. rewrite (Hd r Hr), x_sub_swap. reflexivity. }
  rewrite (map_ext_in (fun r => sq xR (dev xR rows f12 r)) (fun r => sq xR (dev xR rows f12' r)) rows); [reflexivity|].
  intros r Hr. rewrite (Hd r Hr). reflexivity.
Qed.

Lemma H_pair_swap {C} (g : list C -> ext R) (rows : list (list C)) norm p q w : (forall r, In r rows -> length r = w) -> p <> q -> p < w -> q < w ->
  H_pair xR g rows norm p q = H_pair xR g rows norm q p.
Proof.
  intros Hw Hpq Hp Hq. unfold H_pair. apply H_value_swap. intros r Hr. unfold PD2_at.
  destruct (nth_error r p) as [v|], (nth_error r q) as [u|]; try reflexivity.
  unfold PD2. f_equal. apply map_ext_in. intros s Hs. rewrite with_value_swap; [reflexivity|exact Hpq|rewrite (Hw s Hs); assumption..].
Qed.

(** ** Affine changes of the predictions *)
Lemma rdev_affine {A} (rows : list A) (f f' : A -> R) c k r : rows <> [] -> (forall s, In s rows -> f' s = c * f s + k)%R -> In r rows ->
  rdev rows f' r = (c * rdev rows f r)%R.
Proof.
  intros Hne H Hr. unfold rdev. rewrite (H r Hr).
  rewrite (Rmean_map_ext f' (fun s => c * f s + k)%R) by exact H. rewrite Rmean_map_add, Rmean_map_mult, Rmean_map_const by exact Hne. lra.
Qed.

Lemma RH_affine {A} (rows : list A) f12 f1 f2 f12' f1' f2' c k12 k1 k2 :
  (forall s, In s rows -> f12' s = c * f12 s + k12)%R -> (forall s, In s rows -> f1' s = c * f1 s + k1)%R ->
  (forall s, In s rows -> f2' s = c * f2 s + k2)%R ->
  RHnum rows f12' f1' f2' = (Rsqr c * RHnum rows f12 f1 f2)%R /\ RHden rows f12' = (Rsqr c * RHden rows f12)%R.
Proof.
  intros H12 H1 H2. destruct rows as [|r0 t] eqn:Er; [unfold RHnum, RHden; cbn; rewrite Rsum_nil; lra|]. rewrite <- Er in *.
  assert (Hne : rows <> []) by congruence. unfold RHnum, RHden. rewrite <- !Rsum_map_mult. split; apply Rsum_map_ext; intros r Hr.
  - rewrite (rdev_affine rows f12 f12' c k12), (rdev_affine rows f1 f1' c k1), (rdev_affine rows f2 f2' c k2) by assumption. unfold Rsqr. lra.
  - rewrite (rdev_affine rows f12 f12' c k12) by assumption. unfold Rsqr. lra.
Qed.

Lemma H_value_affine {C} (rows : list (list C)) norm f12 f1 f2 f12' f1' f2' h12 h1 h2 h12' h1' h2' c k12 k1 k2 :
  (c <> 0)%R ->
  is_fin rows f12 h12 -> is_fin rows f1 h1 -> is_fin rows f2 h2 ->
  is_fin rows f12' h12' -> is_fin rows f1' h1' -> is_fin rows f2' h2' ->
  (forall s, In s rows -> h12' s = c * h12 s + k12)%R -> (forall s, In s rows -> h1' s = c * h1 s + k1)%R ->
  (forall s, In s rows -> h2' s = c * h2 s + k2)%R ->
  or_zero xR (H_value xR rows norm f12' f1' f2')
  = if norm then or_zero xR (H_value xR rows norm f12 f1 f2)
    else n_mul xR (Fin (Rabs c)) (or_zero xR (H_value xR rows norm f12 f1 f2)).
Proof.
  intros Hc F12 F1 F2 F12' F1' F2' H12 H1 H2.
  rewrite (H_value_fin rows norm f12 f1 f2 h12 h1 h2), (H_value_fin rows norm f12' f1' f2' h12' h1' h2') by assumption.
  destruct (RH_affine rows h12 h1 h2 h12' h1' h2' c k12 k1 k2 H12 H1 H2) as [-> ->].
  pose proof (RHnum_nonneg rows h12 h1 h2) as HA. pose proof (RHden_nonneg rows h12) as HB.
  set (A := RHnum rows h12 h1 h2) in *. set (B := RHden rows h12) in *.
  assert (Hc2 : (0 < Rsqr c)%R) by (apply Rlt_0_sqr, Hc).
  destruct norm.
  - f_equal. destruct (Req_dec B 0) as [E|E].
    + rewrite E, Rmult_0_r, !xR_div_zero.
      destruct (Req_dec A 0) as [->|HA']; [rewrite Rmult_0_r; reflexivity|].
      replace (Rltb 0 (Rsqr c * A)) with true by (symmetry; apply Rltb_spec, Rmult_lt_0_compat; lra).
      replace (Rltb 0 A) with true by (symmetry; apply Rltb_spec; lra). reflexivity.
    + rewrite !xR_div_fin by (try apply Rmult_integral_contrapositive_currified; lra). f_equal. field. split; lra.
  - destruct rows as [|r0 t] eqn:Er.
    { subst A. unfold RHnum; cbn [map]. rewrite Rsum_nil. cbn [length INR]. rewrite Rmult_0_r.
      rewrite xR_div_zero. replace (Rltb 0 0) with false by (symmetry; apply Rltb_false; lra). cbn. f_equal. lra. }
    rewrite <- Er in *. assert (Hn : (0 < INR (length rows))%R) by (apply INR_pos_length; congruence).
    assert (Hq : (0 <= A / INR (length rows))%R) by (apply Rmult_le_pos; [lra|apply Rlt_le, Rinv_0_lt_compat, Hn]).
    rewrite !xR_div_fin by lra. rewrite (xR_sqrt_fin (A / _)) by exact Hq.
    replace (Rsqr c * A / INR (length rows))%R with (Rsqr c * (A / INR (length rows)))%R by (field; lra).
    rewrite xR_sqrt_fin by (apply Rmult_le_pos; lra).
    unfold or_zero. cbn. f_equal. rewrite sqrt_mult by lra. rewrite sqrt_Rsqr_abs. reflexivity.
Qed.

Section AffinePd.
  Context {C : Type} (rows : list (list C)) (w : nat) (Hw : forall r, In r rows -> length r = w).
  Variables (h h' : list C -> R) (c k : R).
  Hypothesis Hh : (forall r, length r = w -> h' r = c * h r + k)%R.

  Lemma PD1_affine p v : rows <> [] -> p < w -> (PD1 Rmean h' rows p v = c * PD1 Rmean h rows p v + k)%R.
  Proof.
    intros Hne Hp. unfold PD1. rewrite <- Rmean_map_mult. rewrite <- (Rmean_map_const k rows Hne). rewrite <- Rmean_map_add.
    apply Rmean_map_ext. intros r Hr. apply Hh. rewrite with_value_length; rewrite (Hw r Hr); auto.
  Qed.
  Lemma PD2_affine p q v u : rows <> [] -> p < w -> q < w -> (PD2 Rmean h' rows p q v u = c * PD2 Rmean h rows p q v u + k)%R.
  Proof.
    intros Hne Hp Hq. unfold PD2. rewrite <- Rmean_map_mult. rewrite <- (Rmean_map_const k rows Hne). rewrite <- Rmean_map_add.
    apply Rmean_map_ext. intros r Hr. apply Hh.
    assert (Hl : length (with_value p v r) = w) by (rewrite with_value_length; rewrite (Hw r Hr); auto).
    rewrite with_value_length; rewrite Hl; auto.
  Qed.
  Lemma RPDminus_affine p row : length row = w -> rows <> [] -> p < w -> (RPDminus rows h' p row = c * RPDminus rows h p row + k)%R.
  Proof.
    intros Hrow Hne Hp. unfold RPDminus. rewrite <- Rmean_map_mult. rewrite <- (Rmean_map_const k rows Hne). rewrite <- Rmean_map_add.
    apply Rmean_map_ext. intros r Hr. destruct (nth_error r p) eqn:E; [|apply nth_error_None in E; rewrite (Hw r Hr) in E; lia].
    apply Hh. rewrite with_value_length; rewrite Hrow; auto.
  Qed.

  Lemma RPD1_at_affine p s : p < w -> In s rows -> (RPD1_at rows h' p s = c * RPD1_at rows h p s + k)%R.
  Proof.
    intros Hp Hs. unfold RPD1_at. destruct (nth_error s p) eqn:E; [|apply nth_error_None in E; rewrite (Hw s Hs) in E; lia].
    apply PD1_affine; [exact (in_rows_nonempty rows s Hs)|exact Hp].
  Qed.

  Lemma H_pair_affine norm p q : (c <> 0)%R -> p < w -> q < w ->
    or_zero xR (H_pair xR (fun r => Fin (h' r)) rows norm p q)
    = if norm then or_zero xR (H_pair xR (fun r => Fin (h r)) rows norm p q)
      else n_mul xR (Fin (Rabs c)) (or_zero xR (H_pair xR (fun r => Fin (h r)) rows norm p q)).
  Proof.
    intros Hc Hp Hq. unfold H_pair.
    apply (H_value_affine rows norm _ _ _ _ _ _ (RPD2_at rows h p q) (RPD1_at rows h p) (RPD1_at rows h q)
             (RPD2_at rows h' p q) (RPD1_at rows h' p) (RPD1_at rows h' q) c k k k Hc).
    - apply PD2_at_fin with w; assumption.
    - apply PD1_at_fin with w; assumption.
    - apply PD1_at_fin with w; assumption.
    - apply PD2_at_fin with w; assumption.
    - apply PD1_at_fin with w; assumption.
    - apply PD1_at_fin with w; assumption.
    - intros s Hs. unfold RPD2_at.
      destruct (nth_error s p) eqn:E; [|apply nth_error_None in E; rewrite (Hw s Hs) in E; lia].
      destruct (nth_error s q) eqn:E2; [|apply nth_error_None in E2; rewrite (Hw s Hs) in E2; lia].
      apply PD2_affine; [exact (in_rows_nonempty rows s Hs)|assumption..].
    - intros s Hs. apply RPD1_at_affine; assumption.
    - intros s Hs. apply RPD1_at_affine; assumption.
  Qed.

  Lemma H_all_affine norm p : (c <> 0)%R -> p < w ->
    or_zero xR (H_all xR (fun r => Fin (h' r)) rows norm p)
    = if norm then or_zero xR (H_all xR (fun r => Fin (h r)) rows norm p)
      else n_mul xR (Fin (Rabs c)) (or_zero xR (H_all xR (fun r => Fin (h r)) rows norm p)).
  Proof.
    intros Hc Hp. unfold H_all.
    apply (H_value_affine rows norm _ _ _ _ _ _ h (RPD1_at rows h p) (RPDminus rows h p)
             h' (RPD1_at rows h' p) (RPDminus rows h' p) c k k k Hc).
    - intros r _; reflexivity.
    - apply PD1_at_fin with w; assumption.
    - apply PDminus_at_fin with w; assumption.
    - intros r _; reflexivity.
    - apply PD1_at_fin with w; assumption.
    - apply PDminus_at_fin with w; assumption.
    - intros s Hs. apply Hh, Hw, Hs.
    - intros s Hs. apply RPD1_at_affine; assumption.
    - intros s Hs. apply RPDminus_affine; [apply Hw, Hs|exact (in_rows_nonempty rows s Hs)|exact Hp].
  Qed.
End AffinePd.

(** ** The upper bound 1, for columns that are empirically independent *)
Lemma Rsum_flat_map {A B} (f : B -> R) (l : A -> list B) (rows : list A) :
  Rsum (map f (flat_map l rows)) = Rsum (map (fun a => Rsum (map f (l a))) rows).
Proof. induction rows as [|a t IH]; [reflexivity|]. cbn [flat_map map]. rewrite map_app, Rsum_app, Rsum_cons, IH. reflexivity. Qed.

Lemma Rsum_swap {A B} (f : A -> B -> R) (l : list A) (m : list B) :
  Rsum (map (fun a => Rsum (map (f a) m)) l) = Rsum (map (fun b => Rsum (map (fun a => f a b) l)) m).
Proof.
  induction l as [|a t IH]; cbn [map].
  - rewrite Rsum_nil, Rsum_map_const. lra.
  - rewrite Rsum_cons, IH, <- Rsum_map_add. apply Rsum_map_ext. intros b _. rewrite Rsum_cons. reflexivity.
Qed.

Lemma Rmean_swap {A B} (f : A -> B -> R) (l : list A) (m : list B) :
  Rmean (map (fun a => Rmean (map (f a) m)) l) = Rmean (map (fun b => Rmean (map (fun a => f a b) l)) m).
Proof.
  unfold Rmean. rewrite !map_length.
  rewrite (Rsum_map_ext _ (fun a => / INR (length m) * Rsum (map (f a) m))%R) by (intros; rewrite map_length; unfold Rdiv; lra).
  rewrite (Rsum_map_ext (fun b => Rsum (map (fun a => f a b) l) / _)%R (fun b => / INR (length l) * Rsum (map (fun a => f a b) l))%R) by (intros; rewrite ?map_length; unfold Rdiv; lra).
  rewrite !Rsum_map_mult, Rsum_swap. unfold Rdiv. lra.
Qed.

Section Independent.
  Context {C : Type}.

  (** the row [s] with the [q]-th value of [s'] *)
  Definition swap_in (q : nat) (s s' : list C) : list C := match nth_error s' q with Some u => with_value q u s | None => s end.
  (** column [q] is independent of the other columns in the data: replacing it by its value
      in any other row produces every row equally often *)
  Definition independent (rows : list (list C)) (q : nat) : Prop :=
    Permutation (flat_map (fun s => map (swap_in q s) rows) rows) (flat_map (fun _ => rows) rows).

  Lemma independent_mean rows q (phi : list C -> R) : rows <> [] -> independent rows q ->
    Rmean (map phi rows) = Rmean (map (fun s => Rmean (map (fun s' => phi (swap_in q s s')) rows)) rows).
  Proof.
    intros Hne Hi. pose proof (INR_pos_length rows Hne) as Hn.
    assert (H : (INR (length rows) * Rsum (map phi rows) = Rsum (map (fun s => Rsum (map (fun s' => phi (swap_in q s s')) rows)) rows))%R).
    { rewrite <- (Rsum_map_const (Rsum (map phi rows)) rows).
      rewrite <- (Rsum_flat_map phi (fun _ => rows) rows).
      rewrite <- (Rsum_perm _ _ (Permutation_map phi Hi)), Rsum_flat_map. apply Rsum_map_ext. intros s _. rewrite map_map. reflexivity. }
    unfold Rmean. rewrite !map_length.
    assert (E : Rsum (map (fun s => Rsum (map (fun s' => phi (swap_in q s s')) rows) / INR (length (map (fun s' => phi (swap_in q s s')) rows)))%R rows)
             = (/ INR (length rows) * (INR (length rows) * Rsum (map phi rows)))%R).
    { rewrite H, <- Rsum_map_mult. apply Rsum_map_ext. intros s _. rewrite map_length. unfold Rdiv. lra. }
    rewrite E. field. lra.
  Qed.

  Context (rows : list (list C)) (w : nat) (Hw : forall r, In r rows -> length r = w) (h : list C -> R).
  Context (p q : nat) (Hpq : p <> q) (Hp : p < w) (Hq : q < w) (Ip : independent rows p) (Iq : independent rows q).
  Notation E phi := (Rmean (map phi rows)).
  Notation F := (RPD2_at rows h p q).
  Notation F1 := (RPD1_at rows h p).
  Notation F2 := (RPD1_at rows h q).

  Lemma nth_row r i : In r rows -> i < w -> exists v, nth_error r i = Some v.
  Proof.
    intros Hr Hi. destruct (nth_error r i) eqn:Ei; [eauto|]. apply nth_error_None in Ei. rewrite (Hw r Hr) in Ei. lia.
  Qed.

  Lemma F_swap_q r s : In r rows -> In s rows ->
    F (swap_in q r s) = match nth_error r p, nth_error s q with Some v, Some u => PD2 Rmean h rows p q v u | _, _ => 0%R end.
  Proof.
    intros Hr Hs. unfold swap_in, RPD2_at. destruct (nth_row s q Hs Hq) as (u & Eu). rewrite Eu.
    rewrite !with_value_nth by (rewrite (Hw r Hr); exact Hq). rewrite Nat.eqb_refl.
    destruct (Nat.eqb_spec p q); [contradiction|]. reflexivity.
  Qed.
  Lemma F_swap_p r s : In r rows -> In s rows ->
    F (swap_in p r s) = match nth_error s p, nth_error r q with Some v, Some u => PD2 Rmean h rows p q v u | _, _ => 0%R end.
  Proof.
    intros Hr Hs. unfold swap_in, RPD2_at. destruct (nth_row s p Hs Hp) as (u & Eu). rewrite Eu.
    rewrite !with_value_nth by (rewrite (Hw r Hr); exact Hp). rewrite Nat.eqb_refl.
    destruct (Nat.eqb_spec q p); [congruence|]. reflexivity.
  Qed.
  Lemma F1_swap_q r s : In r rows -> In s rows -> F1 (swap_in q r s) = F1 r.
  Proof.
    intros Hr Hs. unfold swap_in, RPD1_at. destruct (nth_row s q Hs Hq) as (u & Eu). rewrite Eu.
    rewrite !with_value_nth by (rewrite (Hw r Hr); exact Hq). destruct (Nat.eqb_spec p q); [contradiction|]. reflexivity.
  Qed.
  Lemma F2_swap_p r s : In r rows -> In s rows -> F2 (swap_in p r s) = F2 r.
  Proof.
    intros Hr Hs. unfold swap_in, RPD1_at. destruct (nth_row s p Hs Hp) as (u & Eu). rewrite Eu.
    rewrite !with_value_nth by (rewrite (Hw r Hr); exact Hp). destruct (Nat.eqb_spec q p); [congruence|]. reflexivity.
  Qed.
  Lemma F2_swap_q r s : In r rows -> In s rows -> F2 (swap_in q r s) = F2 s.
  Proof.
    intros Hr Hs. unfold swap_in, RPD1_at. destruct (nth_row s q Hs Hq) as (u & Eu). rewrite Eu.
    rewrite !with_value_nth by (rewrite (Hw r Hr); exact Hq). rewrite Nat.eqb_refl. reflexivity.
  Qed.

  (** the partial dependence of one column is the average of the joint one *)
  Lemma F1_marginal r : In r rows -> F1 r = E (fun s => F (swap_in q r s)).
  Proof.
    intros Hr. pose proof (in_rows_nonempty rows r Hr) as Hne.
    destruct (nth_row r p Hr Hp) as (v & Ev). unfold RPD1_at at 1. rewrite Ev. unfold PD1.
    rewrite (independent_mean rows q (fun s => h (with_value p v s)) Hne Iq).
    rewrite Rmean_swap. apply Rmean_map_ext. intros s Hs. rewrite (F_swap_q r s Hr Hs), Ev.
    destruct (nth_row s q Hs Hq) as (u & Eu). rewrite Eu. unfold PD2. apply Rmean_map_ext. intros t Ht.
    unfold swap_in. rewrite Eu. rewrite with_value_swap; [reflexivity|congruence|rewrite (Hw t Ht); assumption..].
  Qed.
  Lemma F2_marginal r : In r rows -> F2 r = E (fun s => F (swap_in p r s)).
  Proof.
    intros Hr. pose proof (in_rows_nonempty rows r Hr) as Hne.
    destruct (nth_row r q Hr Hq) as (u & Eu). unfold RPD1_at at 1. rewrite Eu. unfold PD1.
    rewrite (independent_mean rows p (fun s => h (with_value q u s)) Hne Ip).
    rewrite Rmean_swap. apply Rmean_map_ext. intros s Hs. rewrite (F_swap_p r s Hr Hs), Eu.
    destruct (nth_row s p Hs Hp) as (v & Ev). rewrite Ev. unfold PD2. apply Rmean_map_ext. intros t Ht.
    unfold swap_in. rewrite Ev. reflexivity.
  Qed.

  Lemma E_F1 : rows <> [] -> E F1 = E F.
  Proof.
    intros Hne. rewrite (independent_mean rows q F Hne Iq). apply Rmean_map_ext. intros r Hr. apply F1_marginal, Hr.
  Qed.
  Lemma E_F2 : rows <> [] -> E F2 = E F.
  Proof.
    intros Hne. rewrite (independent_mean rows p F Hne Ip). apply Rmean_map_ext. intros r Hr. apply F2_marginal, Hr.
  Qed.

  Lemma RH_le_1 : (RHnum rows F F1 F2 <= RHden rows F)%R.
  Proof.
    destruct rows as [|r0 t] eqn:Er; [unfold RHnum, RHden; cbn; rewrite Rsum_nil; lra|]. rewrite <- Er in *.
    assert (Hne : rows <> []) by congruence. pose proof (INR_pos_length rows Hne) as Hn.
    pose proof (E_F1 Hne) as M1. pose proof (E_F2 Hne) as M2. set (m := E F) in *.
    set (d := fun r => (F r - m)%R). set (d1 := fun r => (F1 r - m)%R). set (d2 := fun r => (F2 r - m)%R).
    assert (A1 : E (fun r => d r * d1 r)%R = E (fun r => Rsqr (d1 r))).
    { rewrite (independent_mean rows q _ Hne Iq). apply Rmean_map_ext. intros r Hr.
      rewrite (Rmean_map_ext _ (fun s => d1 r * d (swap_in q r s))%R).
      2:{ intros s Hs. unfold d1. rewrite (F1_swap_q r s Hr Hs). lra. }
      rewrite Rmean_map_mult. unfold Rsqr. f_equal. unfold d.
      rewrite Rmean_map_sub, Rmean_map_const by exact Hne. unfold d1. rewrite <- (F1_marginal r Hr). reflexivity. }
    assert (A2 : E (fun r => d r * d2 r)%R = E (fun r => Rsqr (d2 r))).
    { rewrite (independent_mean rows p _ Hne Ip). apply Rmean_map_ext. intros r Hr.
      rewrite (Rmean_map_ext _ (fun s => d2 r * d (swap_in p r s))%R).
      2:{ intros s Hs. unfold d2. rewrite (F2_swap_p r s Hr Hs). lra. }
      rewrite Rmean_map_mult. unfold Rsqr. f_equal. unfold d.
      rewrite Rmean_map_sub, Rmean_map_const by exact Hne. unfold d2. rewrite <- (F2_marginal r Hr). reflexivity. }
    assert (A3 : E (fun r => d1 r * d2 r)%R = 0%R).
    { rewrite (independent_mean rows q _ Hne Iq).
      rewrite (Rmean_map_ext _ (fun _ => 0%R)); [apply Rmean_map_const, Hne|]. intros r Hr.
      rewrite (Rmean_map_ext _ (fun s => d1 r * d2 s)%R).
      2:{ intros s Hs. unfold d1, d2. rewrite (F1_swap_q r s Hr Hs), (F2_swap_q r s Hr Hs). reflexivity. }
      rewrite Rmean_map_mult. unfold d2. rewrite Rmean_map_sub, Rmean_map_const, M2 by exact Hne. lra. }
    assert (HE : forall phi, Rsum (map phi rows) = (INR (length rows) * E phi)%R).
    { intros phi. unfold Rmean. rewrite map_length. field. lra. }
    unfold RHnum, RHden, rdev. fold m. rewrite M1, M2.
    rewrite (Rsum_map_ext (fun r => Rsqr (F r - m - (F1 r - m) - (F2 r - m)))
       (fun r => (Rsqr (d r) + Rsqr (d1 r) + Rsqr (d2 r)) + ((-2) * (d r * d1 r) + ((-2) * (d r * d2 r) + 2 * (d1 r * d2 r))))%R).
    2:{ intros r _. unfold d, d1, d2, Rsqr. lra. }
    rewrite !Rsum_map_add, !Rsum_map_mult, (HE (fun r => d r * d1 r)%R), (HE (fun r => d r * d2 r)%R), (HE (fun r => d1 r * d2 r)%R), A1, A2, A3.
    rewrite <- !HE.
    assert (0 <= Rsum (map (fun r => Rsqr (d1 r)) rows))%R by (apply Rsum_nonneg; intros x Hx; apply in_map_iff in Hx as (y & <- & _); apply Rle_0_sqr).
    assert (0 <= Rsum (map (fun r => Rsqr (d2 r)) rows))%R by (apply Rsum_nonneg; intros x Hx; apply in_map_iff in Hx as (y & <- & _); apply Rle_0_sqr).
    unfold d in *. lra.
  Qed.

  Lemma H_pair_le_1 : exists x, or_zero xR (H_pair xR (fun r => Fin (h r)) rows true p q) = Fin x /\ (0 <= x <= 1)%R.
  Proof.
    unfold H_pair.
    rewrite (H_value_fin rows true _ _ _ F F1 F2).
    2: apply PD2_at_fin with w; assumption.
    2: apply PD1_at_fin with w; assumption.
    2: apply PD1_at_fin with w; assumption.
    pose proof RH_le_1 as Hle. pose proof (RHnum_nonneg rows F F1 F2) as Hnn.
    destruct (Req_dec (RHden rows F) 0) as [E0|E0].
    - rewrite E0 in *. assert (EA : RHnum rows F F1 F2 = 0%R) by lra. rewrite EA, xR_div_zero.
      replace (Rltb 0 0) with false by (symmetry; apply Rltb_false; lra). exists 0%R. split; [reflexivity|lra].
    - rewrite xR_div_fin by exact E0. eexists. split; [reflexivity|].
      pose proof (RHden_nonneg rows F). assert (0 < RHden rows F)%R by lra. split.
      + apply Rmult_le_pos; [exact Hnn|apply Rlt_le, Rinv_0_lt_compat; assumption].
      + apply (Rmult_le_reg_r (RHden rows F)); [assumption|]. unfold Rdiv. rewrite Rmult_assoc, Rinv_l by lra. lra.
  Qed.
End Independent.

(** ** Greenwell over the reals *)
Definition Rmaxl (l : list R) : R := match l with [] => 0%R | x :: t => fold_left Rmax t x end.
Definition Rminl (l : list R) : R := match l with [] => 0%R | x :: t => fold_left Rmin t x end.

Lemma vmax2_fin x y : vmax2 xR (Fin x) (Fin y) = Fin (Rmax x y).
Proof.
  unfold vmax2; cbn. unfold Rltb, Rmax. destruct (Rlt_dec x y), (Rle_dec x y); try reflexivity; [lra|].
  f_equal; lra.
Qed.
Lemma vmin2_fin x y : vmin2 xR (Fin x) (Fin y) = Fin (Rmin x y).
Proof.
  unfold vmin2; cbn. unfold Rltb, Rmin. destruct (Rlt_dec y x), (Rle_dec x y); try reflexivity; try lra.
Qed.
Lemma np_max_fin l : l <> [] -> np_max xR (map Fin l) = Ok (Fin (Rmaxl l)).
Proof.
  destruct l as [|x t]; [congruence|]. intros _. cbn [map np_max Rmaxl]. f_equal.
  revert x; induction t as [|y t IH]; intros x; [reflexivity|]. cbn [map fold_left]. rewrite vmax2_fin. apply IH.
Qed.
Lemma np_min_fin l : l <> [] -> np_min xR (map Fin l) = Ok (Fin (Rminl l)).
Proof.
  destruct l as [|x t]; [congruence|]. intros _. cbn [map np_min Rminl]. f_equal.
  revert x; induction t as [|y t IH]; intros x; [reflexivity|]. cbn [map fold_left]. rewrite vmin2_fin. apply IH.
Qed.

(** the importance of a profile: sample deviation, or a quarter of the range *)
Definition Rimp (num : bool) (l : list R) : R := if num then Rstdev l else ((Rmaxl l - Rminl l) / 4)%R.

Lemma conditional_imp_fin num l : 2 <= length l -> conditional_imp xR num (map Fin l) = Ok (Fin (Rimp num l)).
Proof.
  intros H. unfold conditional_imp, Rimp. destruct num; [apply xR_stdev_fin, H|].
  assert (Hne : l <> []) by (destruct l; [cbn in H; lia|discriminate]).
  rewrite np_max_fin, np_min_fin by exact Hne. cbn [bind]. f_equal. 
  change (n_sub xR (Fin (Rmaxl l)) (Fin (Rminl l))) with (Fin (Rmaxl l - Rminl l)%R). apply xR_div_fin. lra.
Qed.

Definition Rgreenwell {C} (num1 num2 : bool) (F : C -> C -> R) (gp gq : list C) : R :=
  ((Rstdev (map (fun v => Rimp num2 (map (fun u => F v u) gq)) gp)
    + Rstdev (map (fun u => Rimp num1 (map (fun v => F v u) gp)) gq)) / 2)%R.

Lemma mapM_map {A B D} (f : B -> result D) (k : A -> B) (h : A -> D) l : (forall x, In x l -> f (k x) = Ok (h x)) -> mapM f (map k l) = Ok (map h l).
Proof.
  induction l as [|x t IH]; intros H; cbn; [reflexivity|]. rewrite (H x (or_introl eq_refl)). cbn [bind].
  rewrite IH by (intros; apply H; right; assumption). reflexivity.
Qed.

Lemma along_map {A} (f : list (ext R) -> result (ext R)) (k : A -> list (ext R)) h l : l <> [] -> (forall x, In x l -> f (k x) = Ok (h x)) ->
  along f (map k l) = Ok (map h l).
Proof. intros Hne H. destruct l as [|x t] eqn:E; [congruence|]. rewrite <- E in *. unfold along. rewrite (mapM_map f k h) by exact H. rewrite E; reflexivity. Qed.

Lemma col_of_map {A V} (k : A -> list V) l j (h : A -> V) : (forall x, In x l -> nth_error (k x) j = Some (h x)) -> col_of j (map k l) = map h l.
Proof.
  intros H. unfold col_of. induction l as [|x t IH]; [reflexivity|]. cbn [map flat_map]. rewrite (H x (or_introl eq_refl)).
  cbn [app]. f_equal. apply IH. intros; apply H; right; assumption.
Qed.

Lemma nth_error_seq_lt j n : j < n -> nth_error (seq 0 n) j = Some j.
Proof.
  intros H. rewrite (nth_error_nth' (seq 0 n) 0) by (rewrite seq_length; exact H). rewrite seq_nth by exact H. reflexivity.
Qed.

Lemma columns_of_map {A B V} (f : A -> B -> V) (gp : list A) (gq : list B) :
  columns_of (length gq) (map (fun v => map (f v) gq) gp) = map (fun u => map (fun v => f v u) gp) gq.
Proof.
  unfold columns_of. apply PdSpec.nth_error_ext. intros j. rewrite !nth_error_map.
  destruct (nth_error gq j) as [u|] eqn:E.
  - assert (Hj : j < length gq) by (apply nth_error_Some; congruence).
    rewrite (nth_error_seq_lt j (length gq) Hj). cbn. f_equal. apply col_of_map. intros v _. rewrite nth_error_map, E. reflexivity.
  - apply nth_error_None in E. replace (nth_error (seq 0 (length gq)) j) with (@None nat); [reflexivity|].
    symmetry. apply nth_error_None. rewrite seq_length. exact E.
Qed.

Lemma greenwell_value_fin {C} num1 num2 (F : C -> C -> R) (gp gq : list C) : 2 <= length gp -> 2 <= length gq ->
  greenwell_value xR num1 num2 (length gq) (map (fun v => map (fun u => Fin (F v u)) gq) gp) = Ok (Fin (Rgreenwell num1 num2 F gp gq)).
Proof.
  intros Hp Hq. unfold greenwell_value.
  assert (Np : gp <> []) by (destruct gp; [cbn in Hp; lia|discriminate]).
  assert (Nq : gq <> []) by (destruct gq; [cbn in Hq; lia|discriminate]).
  rewrite (along_map _ _ (fun v => Fin (Rimp num2 (map (fun u => F v u) gq))) gp Np).
  2:{ intros v _. rewrite <- (map_map (fun u => F v u) Fin gq). apply conditional_imp_fin. rewrite map_length; exact Hq. }
  cbn [bind]. rewrite <- (map_map (fun v => Rimp num2 (map (fun u => F v u) gq)) Fin gp), xR_stdev_fin by (rewrite map_length; exact Hp).
  cbn [bind]. rewrite columns_of_map.
  rewrite (along_map _ _ (fun u => Fin (Rimp num1 (map (fun v => F v u) gp))) gq Nq).
  2:{ intros u _. rewrite <- (map_map (fun v => F v u) Fin gp). apply conditional_imp_fin. rewrite map_length; exact Hp. }
  cbn [bind]. rewrite <- (map_map (fun u => Rimp num1 (map (fun v => F v u) gp)) Fin gq), xR_stdev_fin by (rewrite map_length; exact Hq).
  cbn [bind]. f_equal. unfold Rgreenwell.
  match goal with |- n_div xR (n_add xR (Fin ?a) (Fin ?b)) _ = _ => change (n_add xR (Fin a) (Fin b)) with (Fin (a + b)%R) end.
  apply xR_div_fin. lra.
Qed.

(** shifting a profile does not change its importance *)
Lemma Rcenter_shift {A} (f : A -> R) k l : l <> [] -> Rcenter (map (fun x => f x + k)%R l) = Rcenter (map f l).
Proof.
  intros Hne. rewrite !Rcenter_map, Rmean_map_add, Rmean_map_const by exact Hne. apply map_ext. intros; lra.
Qed.
Lemma Rstdev_shift {A} (f : A -> R) k l : Rstdev (map (fun x => f x + k)%R l) = Rstdev (map f l).
Proof.
  destruct l as [|a t]; [reflexivity|]. unfold Rstdev. rewrite Rcenter_shift, !map_length by discriminate. reflexivity.
Qed.
Lemma Rmaxl_shift k l : l <> [] -> Rmaxl (map (fun x => x + k)%R l) = (Rmaxl l + k)%R.
Proof.
  destruct l as [|x t]; [congruence|]. intros _. cbn [map Rmaxl]. revert x; induction t as [|y t IH]; intros x; [reflexivity|].
  cbn [map fold_left]. rewrite <- IH. f_equal. unfold Rmax. destruct (Rle_dec (x + k) (y + k)), (Rle_dec x y); lra.
Qed.
Lemma Rminl_shift k l : l <> [] -> Rminl (map (fun x => x + k)%R l) = (Rminl l + k)%R.
Proof.
  destruct l as [|x t]; [congruence|]. intros _. cbn [map Rminl]. revert x; induction t as [|y t IH]; intros x; [reflexivity|].
  cbn [map fold_left]. rewrite <- IH. f_equal. unfold Rmin. destruct (Rle_dec (x + k) (y + k)), (Rle_dec x y); lra.
Qed.
Lemma Rimp_shift {A} num (f : A -> R) k l : Rimp num (map (fun x => f x + k)%R l) = Rimp num (map f l).
Proof.
  destruct l as [|a t] eqn:E; [reflexivity|]. rewrite <- E. assert (Hne : map f l <> []) by (subst; discriminate). unfold Rimp.
  destruct num; [apply Rstdev_shift|]. rewrite <- (map_map f (fun x => x + k)%R l), Rmaxl_shift, Rminl_shift by exact Hne. lra.
Qed.

Lemma Rsum_sqr_center_const {A} k (l : list A) : Rsum (map Rsqr (Rcenter (map (fun _ => k) l))) = 0%R.
Proof.
  destruct l as [|a t] eqn:E; [reflexivity|]. rewrite <- E. apply Rsum_sqr_all_zero. intros x Hx. rewrite Rcenter_map in Hx.
  apply in_map_iff in Hx as (y & <- & _). rewrite Rmean_map_const by congruence. lra.
Qed.
Lemma Rstdev_const {A} k (l : list A) : Rstdev (map (fun _ => k) l) = 0%R.
Proof. unfold Rstdev. rewrite Rsum_sqr_center_const. unfold Rdiv. rewrite Rmult_0_l. apply sqrt_0. Qed.
Lemma Rstd_const {A} k (l : list A) : Rstd (map (fun _ => k) l) = 0%R.
Proof. unfold Rstd, Rmean. rewrite Rsum_sqr_center_const. unfold Rdiv. rewrite Rmult_0_l. apply sqrt_0. Qed.
Lemma Rmaxl_const {A} k (l : list A) : l <> [] -> Rmaxl (map (fun _ => k) l) = k.
Proof.
  destruct l as [|a t]; [congruence|]. intros _. cbn [map Rmaxl]. induction t as [|b t IH]; [reflexivity|]. cbn [map fold_left].
  replace (Rmax k k) with k; [exact IH|]. unfold Rmax; destruct (Rle_dec k k); reflexivity.
Qed.
Lemma Rminl_const {A} k (l : list A) : l <> [] -> Rminl (map (fun _ => k) l) = k.
Proof.
  destruct l as [|a t]; [congruence|]. intros _. cbn [map Rminl]. induction t as [|b t IH]; [reflexivity|]. cbn [map fold_left].
  replace (Rmin k k) with k; [exact IH|]. unfold Rmin; destruct (Rle_dec k k); reflexivity.
Qed.

(** a separable surface has Greenwell value 0 *)
Lemma Rgreenwell_zero {C} num1 num2 (F : C -> C -> R) a b gp gq : (forall v u, In v gp -> In u gq -> F v u = a v + b u)%R ->
  Rgreenwell num1 num2 F gp gq = 0%R.
Proof.
  intros H. unfold Rgreenwell.
  rewrite (map_ext_in (fun v => Rimp num2 (map (fun u => F v u) gq)) (fun _ => Rimp num2 (map b gq)) gp).
  2:{ intros v Hv. rewrite (map_ext_in (fun u => F v u) (fun u => b u + a v)%R gq) by (intros u Hu; rewrite (H v u Hv Hu); lra). apply Rimp_shift. }
  rewrite (map_ext_in (fun u => Rimp num1 (map (fun v => F v u) gp)) (fun _ => Rimp num1 (map a gp)) gq).
  2:{ intros u Hu. rewrite (map_ext_in (fun v => F v u) (fun v => a v + b u)%R gp) by (intros v Hv; apply H; assumption). apply Rimp_shift. }
  rewrite !Rstdev_const. lra.
Qed.

Lemma Rstdev_nonneg l : (0 <= Rstdev l)%R. Proof. apply sqrt_pos. Qed.

(** ** Importance *)
Definition Rspread (num : bool) (l : list R) : R := if num then Rstd l else ((Rmaxl l - Rminl l) / 4)%R.
Lemma calc_importance_fin num l : l <> [] -> calc_importance xR (map Fin l) num = Ok (Fin (Rspread num l)).
Proof.
  intros Hne. unfold calc_importance, Rspread. destruct num; [rewrite xR_std_fin by exact Hne; reflexivity|].
  rewrite np_max_fin, np_min_fin by exact Hne. cbn [bind]. f_equal.
  change (n_sub xR (Fin (Rmaxl l)) (Fin (Rminl l))) with (Fin (Rmaxl l - Rminl l)%R). apply xR_div_fin. lra.
Qed.
Lemma Rspread_const {A} num k (l : list A) : Rspread num (map (fun _ => k) l) = 0%R.
Proof.
  unfold Rspread. destruct num; [apply Rstd_const|]. destruct l as [|a t] eqn:E; [cbn; lra|]. rewrite <- E.
  rewrite Rmaxl_const, Rminl_const by congruence. lra.
Qed.
