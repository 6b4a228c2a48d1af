(** The values of the partial dependence based methods over the reals. *)
From Verif Require Import Py Num NumR Sorting Frame PdSpec PdMethods MethodSpec.
From Coq Require Import Reals Lra.
Open Scope nat_scope.

(** ** Signs: a value that is NaN, or not below 0 *)
Definition xnn (v : ext R) : Prop := n_ltb xR v (n_ofZ xR 0) = false.

Lemma xnn_fin x : xnn (Fin x) <-> (0 <= x)%R.
Proof. unfold xnn; cbn. apply Rltb_false. Qed.

Lemma sgn_cases x : (f_sgn baseR x = Gt /\ (0 < x)%R) \/ (f_sgn baseR x = Eq /\ x = 0%R) \/ (f_sgn baseR x = Lt /\ (x < 0)%R).
Proof.
  destruct (Rtotal_order x 0) as [H|[->|H]]; [right; right|right; left|left]; auto using sgn_neg, sgn_zero, sgn_pos.
Qed.

Lemma xnn_sq v : xnn (n_mul xR v v).
Proof.
  destruct v as [x| | |]; try reflexivity. apply xnn_fin, Rle_0_sqr.
Qed.

Lemma xnn_add a b : xnn a -> xnn b -> xnn (n_add xR a b).
Proof.
  destruct a as [x| | |], b as [y| | |]; try (unfold xnn; cbn; congruence).
  cbn [n_add xR ext_ops x_add]. rewrite !xnn_fin. cbn. lra.
Qed.

Lemma xnn_sum l : (forall v, In v l -> xnn v) -> xnn (n_sum xR l).
Proof.
  induction l as [|v t IH]; intros H.
  - change (n_sum xR []) with (Fin 0%R : ext R). apply xnn_fin; lra.
  - change (n_sum xR (v :: t)) with (n_add xR v (n_sum xR t)). apply xnn_add; [|apply IH; intros]; apply H; cbn; auto.
Qed.

Lemma xnn_div a b : xnn a -> xnn b -> xnn (n_div xR a b).
Proof.
  destruct a as [x| | |], b as [y| | |]; try (unfold xnn; cbn; congruence).
  - rewrite !xnn_fin. intros Hx Hy. cbn. destruct (sgn_cases y) as [[-> Hy']|[[-> ->]|[_ ?]]]; [| |lra].
    + apply xnn_fin. unfold Rdiv. apply Rmult_le_pos; [exact Hx|]. apply Rlt_le, Rinv_0_lt_compat, Hy'.
    + destruct (sgn_cases x) as [[-> _]|[[-> ->]|[_ ?]]]; [reflexivity|reflexivity|lra].
  - intros _ _. apply xnn_fin; cbn; lra.
  - rewrite xnn_fin. intros _ Hy. cbn. destruct (sgn_cases y) as [[-> Hy']|[[-> ->]|[_ ?]]]; [reflexivity|reflexivity|lra].
Qed.

Lemma xnn_sqrt a : xnn (n_sqrt xR a).
Proof.
  destruct a as [x| | |]; try reflexivity. cbn.
  destruct (sgn_cases x) as [[-> _]|[[-> ->]|[-> _]]]; try reflexivity; apply xnn_fin, sqrt_pos.
Qed.

Lemma xnn_len (n : nat) : xnn (n_ofZ xR (Z.of_nat n)).
Proof. apply xnn_fin. cbn. apply IZR_le; lia. Qed.

Lemma xnn_map_sq {A} (f : A -> ext R) l : xnn (n_sum xR (map (fun a => n_mul xR (f a) (f a)) l)).
Proof. apply xnn_sum. intros v Hv. apply in_map_iff in Hv as (y & <- & _). apply xnn_sq. Qed.

Lemma H_value_nonneg {C} (rows : list (list C)) norm f12 f1 f2 : xnn (H_value xR rows norm f12 f1 f2).
Proof.
  unfold H_value, np_mean. destruct norm; [|apply xnn_sqrt]. apply xnn_div; apply xnn_map_sq.
Qed.

Lemma np_std_nonneg l : xnn (np_std xR l).
Proof. apply xnn_sqrt. Qed.

Lemma stat_stdev_nonneg l v : stat_stdev xR l = Ok v -> xnn v.
Proof. unfold stat_stdev. destruct (_ <? _); [discriminate|]. intros H; injection H as <-. apply xnn_sqrt. Qed.

(** ** Maximum and minimum *)
Section MaxMin.
  Context {V : Type} (N : num_ops V) (HN : num_ord_ok N).
  Lemma fold_max_ge l x : (forall y, y = x \/ In y l -> n_ltb N (fold_left (vmax2 N) l x) y = false).
  Proof.
    revert x; induction l as [|z t IH]; intros x y Hy; cbn [fold_left].
    - destruct Hy as [->|[]]. apply (no_irrefl N HN).
    - assert (Hx : forall u, u = x \/ u = z -> n_ltb N (vmax2 N x z) u = false).
      { intros u Hu. unfold vmax2. destruct (n_isnan N x) eqn:Ex; [apply (no_nan_l N HN), Ex|].
        destruct (n_isnan N z) eqn:Ez; [apply (no_nan_l N HN), Ez|].
        destruct (n_ltb N x z) eqn:E; destruct Hu as [->| ->]; auto using (no_irrefl N HN).
        destruct (n_ltb N z x) eqn:E2; [|reflexivity]. pose proof (no_trans N HN x z x E E2). rewrite (no_irrefl N HN) in *; discriminate. }
      destruct Hy as [->|[<-|Hy]]; [| |apply IH; auto].
      + destruct (n_isnan N (vmax2 N x z)) eqn:En.
        * (* NaN sticks *)
          assert (Hst : forall l a, n_isnan N a = true -> fold_left (vmax2 N) l a = a).
          { clear; induction l as [|b t IH]; intros a Ha; cbn; [reflexivity|]. unfold vmax2 at 2; rewrite Ha. apply IH, Ha. }
          rewrite Hst by exact En. apply (no_nan_l N HN), En.
        * apply (no_negtrans N HN) with (vmax2 N x z); auto.
      + destruct (n_isnan N (vmax2 N x z)) eqn:En.
        * assert (Hst : forall l a, n_isnan N a = true -> fold_left (vmax2 N) l a = a).
          { clear; induction l as [|b t IH]; intros a Ha; cbn; [reflexivity|]. unfold vmax2 at 2; rewrite Ha. apply IH, Ha. }
          rewrite Hst by exact En. apply (no_nan_l N HN), En.
        * apply (no_negtrans N HN) with (vmax2 N x z); auto.
  Qed.
  Lemma fold_min_le l x : (forall y, y = x \/ In y l -> n_ltb N y (fold_left (vmin2 N) l x) = false).
  Proof.
    assert (Hst : forall l a, n_isnan N a = true -> fold_left (vmin2 N) l a = a).
    { clear; induction l as [|b t IH]; intros a Ha; cbn; [reflexivity|]. unfold vmin2 at 2; rewrite Ha. apply IH, Ha. }
    revert x; induction l as [|z t IH]; intros x y Hy; cbn [fold_left].
    - destruct Hy as [->|[]]. apply (no_irrefl N HN).
    - assert (Hx : forall u, u = x \/ u = z -> n_ltb N u (vmin2 N x z) = false).
      { intros u Hu. unfold vmin2. destruct (n_isnan N x) eqn:Ex; [apply (no_nan_r N HN), Ex|].
        destruct (n_isnan N z) eqn:Ez; [apply (no_nan_r N HN), Ez|].
        destruct (n_ltb N z x) eqn:E; destruct Hu as [->| ->]; auto using (no_irrefl N HN).
        destruct (n_ltb N x z) eqn:E2; [|reflexivity]. pose proof (no_trans N HN x z x E2 E). rewrite (no_irrefl N HN) in *; discriminate. }
      assert (Hxz : forall u, u = x \/ u = z -> n_ltb N u (fold_left (vmin2 N) t (vmin2 N x z)) = false).
      { intros u Hu. destruct (n_isnan N (vmin2 N x z)) eqn:En.
        - rewrite Hst by exact En. apply (no_nan_r N HN), En.
        - apply (no_negtrans N HN) with (vmin2 N x z); auto. }
      destruct Hy as [->|[<-|Hy]]; auto.
  Qed.

  Lemma max_nan l x : n_isnan N x = true -> n_isnan N (fold_left (vmax2 N) l x) = true.
  Proof. revert x; induction l as [|b t IH]; intros a Ha; cbn; [exact Ha|]. unfold vmax2 at 2; rewrite Ha. apply IH, Ha. Qed.

  Lemma max_min l mx mn : np_max N l = Ok mx -> np_min N l = Ok mn -> n_ltb N mx mn = false.
  Proof.
    destruct l as [|x t]; [discriminate|]. cbn [np_max np_min]. intros H1 H2; injection H1 as <-; injection H2 as <-.
    destruct (n_isnan N x) eqn:E.
    - apply (no_nan_l N HN), max_nan, E.
    - apply (no_negtrans N HN) with x; [exact E|apply fold_max_ge; auto|apply fold_min_le; auto].
  Qed.
End MaxMin.

Lemma xnn_sub a b : n_ltb xR a b = false -> xnn (n_sub xR a b).
Proof.
  destruct a as [x| | |], b as [y| | |]; try (unfold xnn; cbn; congruence).
  intros H; apply xnn_fin. cbn in *. apply Rltb_false in H. lra.
Qed.

Lemma xnn_4 : xnn (n_ofZ xR 4). Proof. apply xnn_fin; cbn; lra. Qed.
Lemma xnn_2 : xnn (n_ofZ xR 2). Proof. apply xnn_fin; cbn; lra. Qed.

Lemma range_nonneg l v : (do mx <- np_max xR l; do mn <- np_min xR l; Ok (n_div xR (n_sub xR mx mn) (n_ofZ xR 4))) = Ok v -> xnn v.
Proof.
  destruct (np_max xR l) as [mx|] eqn:E1; cbn [bind]; [|discriminate].
  destruct (np_min xR l) as [mn|] eqn:E2; cbn [bind]; [|discriminate]. intros H; injection H as <-.
  apply xnn_div; [|apply xnn_4]. apply xnn_sub. exact (max_min xR xR_ord l mx mn E1 E2).
Qed.

Lemma calc_importance_nonneg l num v : calc_importance xR l num = Ok v -> xnn v.
Proof. unfold calc_importance. destruct num; [intros H; injection H as <-; apply xnn_sqrt|apply range_nonneg]. Qed.

Lemma conditional_imp_nonneg num l v : conditional_imp xR num l = Ok v -> xnn v.
Proof. unfold conditional_imp. destruct num; [apply stat_stdev_nonneg|apply range_nonneg]. Qed.

Lemma greenwell_value_nonneg n1 n2 nc mat v : greenwell_value xR n1 n2 nc mat = Ok v -> xnn v.
Proof.
  unfold greenwell_value. destruct (along _ mat) as [ij|] eqn:E1; cbn [bind]; [|discriminate].
  destruct (stat_stdev xR ij) as [rj|] eqn:E2; cbn [bind]; [|discriminate].
  destruct (along _ (columns_of nc mat)) as [ii|] eqn:E3; cbn [bind]; [|discriminate].
  destruct (stat_stdev xR ii) as [ri|] eqn:E4; cbn [bind]; [|discriminate]. intros H; injection H as <-.
  apply stat_stdev_nonneg in E2, E4. apply xnn_div; [apply xnn_add; assumption|apply xnn_2].
Qed.

(** ** Real forms *)
Definition rdev {A} (rows : list A) (f : A -> R) (r : A) : R := (f r - Rmean (map f rows))%R.
Definition RHnum {A} (rows : list A) (f12 f1 f2 : A -> R) : R :=
  Rsum (map (fun r => Rsqr (rdev rows f12 r - rdev rows f1 r - rdev rows f2 r)) rows).
Definition RHden {A} (rows : list A) (f12 : A -> R) : R := Rsum (map (fun r => Rsqr (rdev rows f12 r)) rows).

Definition is_fin {A} (rows : list A) (f : A -> ext R) (h : A -> R) : Prop := forall r, In r rows -> f r = Fin (h r).

Lemma dev_fin {C} (rows : list (list C)) f h r : is_fin rows f h -> In r rows -> dev xR rows f r = Fin (rdev rows h r).
Proof.
  intros H Hr. unfold dev, rdev. rewrite (H r Hr).
  rewrite (map_ext_in _ (fun r => Fin (h r)) rows) by exact H.
  rewrite <- (map_map h Fin rows), xR_mean_fin by (destruct rows; [destruct Hr|discriminate]). reflexivity.
Qed.

Lemma H_value_fin {C} (rows : list (list C)) norm f12 f1 f2 h12 h1 h2 :
  is_fin rows f12 h12 -> is_fin rows f1 h1 -> is_fin rows f2 h2 ->
  H_value xR rows norm f12 f1 f2
  = if norm then n_div xR (Fin (RHnum rows h12 h1 h2)) (Fin (RHden rows h12))
    else n_sqrt xR (n_div xR (Fin (RHnum rows h12 h1 h2)) (Fin (INR (length rows)))).
Proof.
  intros H12 H1 H2. unfold H_value, np_mean.
  rewrite (map_ext_in _ (fun r => Fin (Rsqr (rdev rows h12 r - rdev rows h1 r - rdev rows h2 r))%R) rows).
  2:{ intros r Hr. rewrite (dev_fin rows f12 h12), (dev_fin rows f1 h1), (dev_fin rows f2 h2) by assumption. reflexivity. }
  rewrite (map_ext_in (fun r => sq xR (dev xR rows f12 r)) (fun r => Fin (Rsqr (rdev rows h12 r))) rows).
  2:{ intros r Hr. rewrite (dev_fin rows f12 h12) by assumption. reflexivity. }
  rewrite !xR_sum_fin_map, !map_length. change (n_ofZ xR (Z.of_nat (length rows))) with (Fin (IZR (Z.of_nat (length rows))) : ext R).
  rewrite <- INR_IZR. destruct norm; reflexivity.
Qed.

Lemma RHnum_nonneg {A} (rows : list A) f12 f1 f2 : (0 <= RHnum rows f12 f1 f2)%R.
Proof. apply Rsum_nonneg. intros x Hx; apply in_map_iff in Hx as (r & <- & _). apply Rle_0_sqr. Qed.
Lemma RHden_nonneg {A} (rows : list A) f12 : (0 <= RHden rows f12)%R.
Proof. apply Rsum_nonneg. intros x Hx; apply in_map_iff in Hx as (r & <- & _). apply Rle_0_sqr. Qed.

(** the deviations cancel when the functions differ by a constant *)
Lemma RHnum_zero {A} (rows : list A) f12 f1 f2 k :
  (forall r, In r rows -> f12 r - f1 r - f2 r = k)%R -> RHnum rows f12 f1 f2 = 0%R.
Proof.
  intros H. destruct rows as [|r0 t] eqn:Er; [reflexivity|]. rewrite <- Er in *.
  unfold RHnum. rewrite (Rsum_map_ext _ (fun _ => 0%R)), Rsum_map_const; [lra|].
  intros r Hr. unfold rdev.
  assert (Hm : (Rmean (map f12 rows) - Rmean (map f1 rows) - Rmean (map f2 rows) = k)%R).
  { rewrite <- !Rmean_map_sub. rewrite <- (Rmean_map_const k rows) by congruence. apply Rmean_map_ext. exact H. }
  specialize (H r Hr).
  replace (f12 r - Rmean (map f12 rows) - (f1 r - Rmean (map f1 rows)) - (f2 r - Rmean (map f2 rows)))%R
    with (f12 r - f1 r - f2 r - (Rmean (map f12 rows) - Rmean (map f1 rows) - Rmean (map f2 rows)))%R by lra.
  rewrite H, Hm. unfold Rsqr. lra.
Qed.

Lemma H_value_zero {C} (rows : list (list C)) norm f12 f1 f2 h12 h1 h2 k :
  is_fin rows f12 h12 -> is_fin rows f1 h1 -> is_fin rows f2 h2 ->
  (forall r, In r rows -> h12 r - h1 r - h2 r = k)%R ->
  or_zero xR (H_value xR rows norm f12 f1 f2) = Fin 0%R.
Proof.
  intros H12 H1 H2 Hk. rewrite (H_value_fin rows norm _ _ _ h12 h1 h2) by assumption.
  rewrite (RHnum_zero _ _ _ _ k Hk).
  assert (Hd : forall y, n_div xR (Fin 0%R) (Fin y) = NaN \/ n_div xR (Fin 0%R) (Fin y) = Fin 0%R).
  { intros y. destruct (Req_dec y 0) as [->|Hy].
    - left. rewrite xR_div_zero. replace (Rltb 0 0) with false by (symmetry; apply Rltb_false; lra). reflexivity.
    - right. rewrite xR_div_fin by exact Hy. f_equal. unfold Rdiv; lra. }
  unfold or_zero. destruct norm.
  - destruct (Hd (RHden rows h12)) as [->| ->]; reflexivity.
  - destruct (Hd (INR (length rows))) as [->| ->]; [reflexivity|].
    rewrite xR_sqrt_fin by lra. rewrite sqrt_0. reflexivity.
Qed.

(** ** Partial dependence over the reals *)
Lemma in_rows_nonempty {A} (rows : list A) (r : A) : In r rows -> rows <> [].
Proof. destruct rows; [intros []|discriminate]. Qed.

Section RealPd.
  Context {C : Type} (rows : list (list C)) (w : nat) (Hw : forall r, In r rows -> length r = w).
  Variable h : list C -> R.
  Notation g := (fun r => Fin (h r)).

  Lemma PD1_fin p v : rows <> [] -> PD1 (np_mean xR) g rows p v = Fin (PD1 Rmean h rows p v).
  Proof.
    intros H. unfold PD1. rewrite <- (map_map (fun r => h (with_value p v r)) Fin rows), xR_mean_fin; [reflexivity|].
    destruct rows; [congruence|discriminate].
  Qed.
  Lemma PD2_fin p q v u : rows <> [] -> PD2 (np_mean xR) g rows p q v u = Fin (PD2 Rmean h rows p q v u).
  Proof.
    intros H. unfold PD2. rewrite <- (map_map (fun r => h (with_value q u (with_value p v r))) Fin rows), xR_mean_fin; [reflexivity|].
    destruct rows; [congruence|discriminate].
  Qed.

  Definition RPD1_at (p : nat) (r : list C) : R := match nth_error r p with Some v => PD1 Rmean h rows p v | None => 0%R end.
  Definition RPD2_at (p q : nat) (r : list C) : R :=
    match nth_error r p, nth_error r q with Some v, Some u => PD2 Rmean h rows p q v u | _, _ => 0%R end.

  Lemma PD1_at_fin p : p < w -> is_fin rows (PD1_at xR g rows p) (RPD1_at p).
  Proof.
    intros Hp r Hr. unfold PD1_at, RPD1_at. destruct (nth_error r p) eqn:E; [apply PD1_fin, (in_rows_nonempty rows r), Hr|].
    apply nth_error_None in E. rewrite (Hw r Hr) in E. lia.
  Qed.
  Lemma PD2_at_fin p q : p < w -> q < w -> is_fin rows (PD2_at xR g rows p q) (RPD2_at p q).
  Proof.
    intros Hp Hq r Hr. unfold PD2_at, RPD2_at.
    destruct (nth_error r p) eqn:E; [|apply nth_error_None in E; rewrite (Hw r Hr) in E; lia].
    destruct (nth_error r q) eqn:E2; [|apply nth_error_None in E2; rewrite (Hw r Hr) in E2; lia].
    apply PD2_fin, (in_rows_nonempty rows r), Hr.
  Qed.

  (** the [PDminus] of a row, with the feature ranging over the rows *)
  Definition RPDminus (p : nat) (row : list C) : R :=
    Rmean (map (fun r => match nth_error r p with Some v => h (with_value p v row) | None => 0%R end) rows).
  Lemma PDminus_fin p row : p < w -> rows <> [] -> PDminus (np_mean xR) g rows p row = Fin (RPDminus p row).
  Proof.
    intros Hp Hne. unfold PDminus, RPDminus. rewrite <- xR_mean_fin by (destruct rows; [congruence|discriminate]).
    f_equal. rewrite map_map. clear Hne. induction rows as [|r t IH]; [reflexivity|]. cbn [flat_map map].
    assert (Hr : length r = w) by (apply Hw; cbn; auto).
    destruct (nth_error r p) eqn:E; [|apply nth_error_None in E; lia].
    cbn [app]. f_equal. apply IH. intros; apply Hw; cbn; auto.
  Qed.
  Lemma PDminus_at_fin p : p < w -> is_fin rows (fun r => PDminus (np_mean xR) g rows p r) (RPDminus p).
  Proof. intros Hp r Hr. apply PDminus_fin; [exact Hp|]. exact (in_rows_nonempty rows r Hr). Qed.

  (** ** No interaction *)
  Definition ignores (a : list C -> R) (p : nat) : Prop := forall r v, length r = w -> a (with_value p v r) = a r.
  Definition additive_pair (p q : nat) : Prop :=
    exists a b, (forall r, length r = w -> h r = a r + b r)%R /\ ignores a p /\ ignores b q.
  (** a function of column [p] plus a function of the others *)
  Definition additive_all (p : nat) : Prop :=
    exists a b, (forall r, length r = w -> h r = a (nth_error r p) + b r)%R /\ ignores b p.

  Lemma additive_PD2 p q v u : p <> q -> p < w -> q < w ->
    forall a b, (forall r, length r = w -> h r = a r + b r)%R -> ignores a p -> ignores b q ->
    (PD2 Rmean h rows p q v u = PD1 Rmean a rows q u + PD1 Rmean b rows p v)%R
    /\ (PD1 Rmean h rows p v = Rmean (map a rows) + PD1 Rmean b rows p v)%R
    /\ (PD1 Rmean h rows q u = PD1 Rmean a rows q u + Rmean (map b rows))%R.
  Proof.
    intros Hpq Hp Hq a b Hh Ha Hb. unfold PD2, PD1.
    assert (Hl : forall r j x, In r rows -> j < w -> length (with_value j x r) = w).
    { intros r j x Hr Hj. rewrite with_value_length by (rewrite (Hw r Hr); exact Hj). apply Hw, Hr. }
    rewrite <- !Rmean_map_add. repeat apply conj; apply Rmean_map_ext; intros r Hr.
    - pose proof (Hw r Hr) as Hr'.
      rewrite Hh by (rewrite with_value_length, (Hl r p v Hr Hp) by (rewrite (Hl r p v Hr Hp); exact Hq); auto).
      rewrite Hb by (apply Hl; assumption). f_equal.
      rewrite with_value_swap by (rewrite ?Hr'; assumption). apply Ha. apply Hl; assumption.
    - rewrite Hh by (apply Hl; assumption). rewrite Ha by (apply Hw, Hr). reflexivity.
    - rewrite Hh by (apply Hl; assumption). rewrite Hb by (apply Hw, Hr). reflexivity.
  Qed.

  Lemma H_pair_zero norm p q : p <> q -> p < w -> q < w -> additive_pair p q ->
    or_zero xR (H_pair xR g rows norm p q) = Fin 0%R.
  Proof.
    intros Hpq Hp Hq (a & b & Hh & Ha & Hb). unfold H_pair.
    apply (H_value_zero rows norm _ _ _ (RPD2_at p q) (RPD1_at p) (RPD1_at q) (- (Rmean (map a rows) + Rmean (map b rows)))%R).
    - apply PD2_at_fin; assumption.
    - apply PD1_at_fin; assumption.
    - apply PD1_at_fin; assumption.
    - intros r Hr. unfold RPD2_at, RPD1_at. pose proof (Hw r Hr) as Hr'.
      destruct (nth_error r p) as [v|] eqn:E; [|apply nth_error_None in E; lia].
      destruct (nth_error r q) as [u|] eqn:E2; [|apply nth_error_None in E2; lia].
      destruct (additive_PD2 p q v u Hpq Hp Hq a b Hh Ha Hb) as (-> & -> & ->). lra.
  Qed.

  Lemma H_all_zero norm p : p < w -> additive_all p -> or_zero xR (H_all xR g rows norm p) = Fin 0%R.
  Proof.
    intros Hp (a & b & Hh & Hb). unfold H_all.
    apply (H_value_zero rows norm _ _ _ h (RPD1_at p) (RPDminus p)
             (- (Rmean (map b rows) + Rmean (map (fun r => a (nth_error r p)) rows)))%R).
    - intros r _; reflexivity.
    - apply PD1_at_fin; assumption.
    - apply PDminus_at_fin; assumption.
    - intros r Hr. pose proof (Hw r Hr) as Hr'. pose proof (in_rows_nonempty rows r Hr) as Hne.
      assert (H1 : (RPD1_at p r = a (nth_error r p) + Rmean (map b rows))%R).
      { unfold RPD1_at. destruct (nth_error r p) as [v|] eqn:E; [|apply nth_error_None in E; lia].
        unfold PD1. rewrite <- (Rmean_map_const (a (Some v)) rows Hne), <- Rmean_map_add. apply Rmean_map_ext. intros s Hs.
        rewrite Hh by (rewrite with_value_length; rewrite (Hw s Hs); auto).
        rewrite with_value_nth, Nat.eqb_refl by (rewrite (Hw s Hs); exact Hp). rewrite Hb by (apply Hw, Hs). reflexivity. }
      assert (H2 : (RPDminus p r = Rmean (map (fun r => a (nth_error r p)) rows) + b r)%R).
      { unfold RPDminus. rewrite <- (Rmean_map_const (b r) rows Hne), <- Rmean_map_add. apply Rmean_map_ext. intros s Hs.
        destruct (nth_error s p) as [v|] eqn:E; [|apply nth_error_None in E; rewrite (Hw s Hs) in E; lia].
        rewrite Hh by (rewrite with_value_length; rewrite Hr'; auto).
        rewrite with_value_nth, Nat.eqb_refl by (rewrite Hr'; exact Hp). rewrite Hb by exact Hr'. reflexivity. }
      rewrite H1, H2, (Hh r Hr'). lra.
  Qed.
End RealPd.
