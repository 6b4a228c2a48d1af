(** The instance over the real numbers: exact arithmetic with IEEE special values, and
    the facts that turn artemis' array expressions into ordinary real expressions. *)
From Verif Require Import Py Num.
From Coq Require Import Reals Lra.
Open Scope nat_scope.

Definition Rltb (a b : R) : bool := if Rlt_dec a b then true else false.

Definition baseR : base_ops R := {|
  f0 := 0%R; f_ofZ := IZR;
  f_add := Rplus; f_sub := Rminus; f_mul := Rmult; f_div := Rdiv;
  f_neg := Ropp; f_sqrt := sqrt; f_ltb := Rltb |}.
Definition xR : num_ops (ext R) := ext_ops baseR.

Lemma Rltb_spec a b : Rltb a b = true <-> (a < b)%R.
Proof. unfold Rltb; destruct (Rlt_dec a b); split; intros; congruence || auto. Qed.

Lemma Rltb_false a b : Rltb a b = false <-> (b <= a)%R.
Proof. unfold Rltb; destruct (Rlt_dec a b); split; intros; try congruence; lra. Qed.

Lemma baseR_ord : base_ord_ok baseR.
Proof.
  constructor; cbn.
  - intros a; rewrite Rltb_false; lra.
  - intros a b c; rewrite !Rltb_spec; lra.
  - intros a b c; rewrite !Rltb_false; lra.
Qed.

Lemma xR_ord : num_ord_ok xR.
Proof. apply ext_ord_ok, baseR_ord. Qed.

Lemma sgn_pos x : (0 < x)%R -> f_sgn baseR x = Gt.
Proof.
  intros H; unfold f_sgn; cbn.
  replace (Rltb x 0%R) with false by (symmetry; apply Rltb_false; lra).
  replace (Rltb 0%R x) with true by (symmetry; apply Rltb_spec; lra). reflexivity.
Qed.
Lemma sgn_neg x : (x < 0)%R -> f_sgn baseR x = Lt.
Proof. intros H; unfold f_sgn; cbn. replace (Rltb x 0%R) with true by (symmetry; apply Rltb_spec; lra). reflexivity. Qed.
Lemma sgn_zero : f_sgn baseR 0%R = Eq.
Proof.
  unfold f_sgn; cbn. replace (Rltb 0%R 0%R) with false by (symmetry; apply Rltb_false; lra). reflexivity.
Qed.

(** Sums of real lists. *)
Definition Rsum (l : list R) : R := fold_right Rplus 0%R l.
Definition Rmean (l : list R) : R := (Rsum l / INR (length l))%R.
Definition Rcenter (l : list R) : list R := map (fun x => (x - Rmean l)%R) l.

Lemma xR_sum_fin l : n_sum xR (map Fin l) = Fin (Rsum l).
Proof.
  induction l as [|x t IH]; [reflexivity|]. cbn [map].
  change (n_sum xR (Fin x :: map Fin t)) with (n_add xR (Fin x) (n_sum xR (map Fin t))). rewrite IH; reflexivity.
Qed.

Lemma xR_sum_fin_map {A} (f : A -> R) l : n_sum xR (map (fun a => Fin (f a)) l) = Fin (Rsum (map f l)).
Proof. rewrite <- xR_sum_fin, map_map; reflexivity. Qed.

Lemma INR_IZR n : INR n = IZR (Z.of_nat n).
Proof. apply INR_IZR_INZ. Qed.

Lemma xR_div_fin x y : (y <> 0)%R -> n_div xR (Fin x) (Fin y) = Fin (x / y)%R.
Proof.
  intros H; cbn. destruct (Rtotal_order y 0) as [Hy|[Hy|Hy]]; [rewrite sgn_neg|contradiction|rewrite sgn_pos]; auto.
Qed.

Lemma xR_div_zero x : n_div xR (Fin x) (Fin 0%R) = if Rltb 0%R x then PInf else if Rltb x 0%R then NInf else NaN.
Proof.
  cbn. rewrite sgn_zero.
  destruct (Rtotal_order x 0) as [Hx|[->|Hx]].
  - rewrite sgn_neg by auto.
    replace (Rltb 0%R x) with false by (symmetry; apply Rltb_false; lra).
    replace (Rltb x 0%R) with true by (symmetry; apply Rltb_spec; lra). reflexivity.
  - rewrite sgn_zero. replace (Rltb 0%R 0%R) with false by (symmetry; apply Rltb_false; lra). reflexivity.
  - rewrite sgn_pos by auto. replace (Rltb 0%R x) with true by (symmetry; apply Rltb_spec; lra). reflexivity.
Qed.

Lemma xR_sqrt_fin x : (0 <= x)%R -> n_sqrt xR (Fin x) = Fin (sqrt x).
Proof.
  intros H; cbn. destruct (Rtotal_order x 0) as [Hx|[->|Hx]]; [lra|rewrite sgn_zero|rewrite sgn_pos]; auto.
Qed.

Lemma xR_abs_fin x : n_abs xR (Fin x) = Fin (Rabs x).
Proof.
  cbn. destruct (Rtotal_order x 0) as [Hx|[->|Hx]].
  - rewrite sgn_neg, Rabs_left by auto; reflexivity.
  - rewrite sgn_zero, Rabs_R0; reflexivity.
  - rewrite sgn_pos, Rabs_right by (auto; lra); reflexivity.
Qed.

Lemma INR_pos_length {A} (l : list A) : l <> [] -> (0 < INR (length l))%R.
Proof. destruct l; [congruence|]; intros _; apply lt_0_INR; cbn; lia. Qed.

Lemma xR_mean_fin l : l <> [] -> np_mean xR (map Fin l) = Fin (Rmean l).
Proof.
  intros H; unfold np_mean. rewrite xR_sum_fin, map_length.
  change (n_ofZ xR (Z.of_nat (length l))) with (Fin (IZR (Z.of_nat (length l))) : ext R).
  rewrite <- INR_IZR, xR_div_fin; [reflexivity|]. pose proof (INR_pos_length l H); lra.
Qed.

Lemma xR_mean_nil : np_mean xR [] = NaN.
Proof. unfold np_mean; cbn. rewrite sgn_zero; reflexivity. Qed.

Lemma xR_center_fin l : center xR (map Fin l) = map Fin (Rcenter l).
Proof.
  destruct l as [|x t]; [reflexivity|]. unfold center. rewrite xR_mean_fin by discriminate.
  unfold Rcenter. rewrite !map_map. reflexivity.
Qed.

Lemma xR_sqr_fin l : map (sqr xR) (map Fin l) = map Fin (map Rsqr l).
Proof. rewrite !map_map; reflexivity. Qed.

Lemma xR_vsub_fin a b : vsub xR (map Fin a) (map Fin b) = map Fin (map (fun p => fst p - snd p)%R (combine a b)).
Proof.
  unfold vsub. revert b; induction a as [|x a IH]; intros [|y b]; cbn; [reflexivity..|].
  f_equal; apply IH.
Qed.
Lemma xR_vadd_fin a b : vadd xR (map Fin a) (map Fin b) = map Fin (map (fun p => fst p + snd p)%R (combine a b)).
Proof.
  unfold vadd. revert b; induction a as [|x a IH]; intros [|y b]; cbn; [reflexivity..|].
  f_equal; apply IH.
Qed.

(** ** Real sums *)
Lemma Rsum_nil : Rsum [] = 0%R.
Proof. reflexivity. Qed.
Lemma Rsum_cons x l : Rsum (x :: l) = (x + Rsum l)%R.
Proof. reflexivity. Qed.
Arguments Rsum : simpl never.

Lemma Rsum_app a b : Rsum (a ++ b) = (Rsum a + Rsum b)%R.
Proof. induction a as [|x a IH]; [cbn; rewrite ?Rsum_nil; lra|]. cbn [map app]. rewrite !Rsum_cons, IH; lra. Qed.

Lemma Rsum_perm a b : Permutation a b -> Rsum a = Rsum b.
Proof. induction 1; rewrite ?Rsum_cons; lra. Qed.

Lemma Rsum_map_add {A} (f g : A -> R) l : Rsum (map (fun x => f x + g x)%R l) = (Rsum (map f l) + Rsum (map g l))%R.
Proof. induction l as [|x t IH]; [cbn; rewrite ?Rsum_nil; lra|]. cbn [map app]. rewrite !Rsum_cons, IH; lra. Qed.

Lemma Rsum_map_sub {A} (f g : A -> R) l : Rsum (map (fun x => f x - g x)%R l) = (Rsum (map f l) - Rsum (map g l))%R.
Proof. induction l as [|x t IH]; [cbn; rewrite ?Rsum_nil; lra|]. cbn [map app]. rewrite !Rsum_cons, IH; lra. Qed.

Lemma Rsum_map_mult {A} c (f : A -> R) l : Rsum (map (fun x => c * f x)%R l) = (c * Rsum (map f l))%R.
Proof. induction l as [|x t IH]; [cbn; rewrite ?Rsum_nil; lra|]. cbn [map app]. rewrite !Rsum_cons, IH; lra. Qed.

Lemma Rsum_map_const {A} c (l : list A) : Rsum (map (fun _ => c) l) = (INR (length l) * c)%R.
Proof.
  induction l as [|x t IH]; [cbn; rewrite ?Rsum_nil; lra|]. cbn [map length]. rewrite S_INR.
  change (Rsum (c :: map (fun _ => c) t)) with (c + Rsum (map (fun _ => c) t))%R. rewrite IH; lra.
Qed.

Lemma Rsum_map_ext {A} (f g : A -> R) l : (forall x, In x l -> f x = g x) -> Rsum (map f l) = Rsum (map g l).
Proof. intros H; f_equal; apply map_ext_in; exact H. Qed.

Lemma Rsum_nonneg l : (forall x, In x l -> 0 <= x)%R -> (0 <= Rsum l)%R.
Proof.
  induction l as [|x t IH]; intros H; [cbn; rewrite ?Rsum_nil; lra|]; cbn [map].
  assert (0 <= x)%R by (apply H; cbn; auto). assert (0 <= Rsum t)%R by (apply IH; intros; apply H; cbn; auto).
  rewrite ?Rsum_cons; lra.
Qed.

Lemma Rsum_sqr_nonneg l : (0 <= Rsum (map Rsqr l))%R.
Proof. apply Rsum_nonneg; intros x Hx; apply in_map_iff in Hx as (y & <- & _); apply Rle_0_sqr. Qed.

Lemma Rsum_sqr_zero l : Rsum (map Rsqr l) = 0%R -> forall x, In x l -> x = 0%R.
Proof.
  induction l as [|y t IH]; [intros _ x []|]. cbn [map].
  intros H. pose proof (Rle_0_sqr y). pose proof (Rsum_sqr_nonneg t).
  rewrite Rsum_cons in H.
  intros x [<-|Hx].
  - apply Rsqr_0_uniq; lra.
  - apply IH; auto; lra.
Qed.

Lemma Rsum_sqr_all_zero l : (forall x, In x l -> x = 0%R) -> Rsum (map Rsqr l) = 0%R.
Proof.
  intros H. rewrite (Rsum_map_ext Rsqr (fun _ => 0%R)), Rsum_map_const; [lra|].
  intros x Hx; rewrite (H x Hx); apply Rsqr_0.
Qed.

Lemma Rsum_le {A} (f g : A -> R) l : (forall x, In x l -> f x <= g x)%R -> (Rsum (map f l) <= Rsum (map g l))%R.
Proof.
  induction l as [|x t IH]; intros H; [cbn; rewrite ?Rsum_nil; lra|]; cbn [map].
  assert (f x <= g x)%R by (apply H; cbn; auto).
  assert (Rsum (map f t) <= Rsum (map g t))%R by (apply IH; intros; apply H; cbn; auto).
  rewrite ?Rsum_cons; lra.
Qed.

Lemma Rmean_map_add {A} (f g : A -> R) l : Rmean (map (fun x => f x + g x)%R l) = (Rmean (map f l) + Rmean (map g l))%R.
Proof. unfold Rmean. rewrite Rsum_map_add, !map_length. unfold Rdiv; lra. Qed.

Lemma Rmean_map_sub {A} (f g : A -> R) l : Rmean (map (fun x => f x - g x)%R l) = (Rmean (map f l) - Rmean (map g l))%R.
Proof. unfold Rmean. rewrite Rsum_map_sub, !map_length. unfold Rdiv; lra. Qed.

Lemma Rmean_map_mult {A} c (f : A -> R) l : Rmean (map (fun x => c * f x)%R l) = (c * Rmean (map f l))%R.
Proof. unfold Rmean. rewrite Rsum_map_mult, !map_length. unfold Rdiv; lra. Qed.

Lemma Rmean_map_const {A} c (l : list A) : l <> [] -> Rmean (map (fun _ => c) l) = c.
Proof.
  intros H; unfold Rmean. rewrite Rsum_map_const, map_length.
  pose proof (INR_pos_length l H). field; lra.
Qed.

Lemma Rmean_map_ext {A} (f g : A -> R) l : (forall x, In x l -> f x = g x) -> Rmean (map f l) = Rmean (map g l).
Proof. intros H; f_equal; apply map_ext_in; exact H. Qed.

Lemma Rmean_perm a b : Permutation a b -> Rmean a = Rmean b.
Proof. intros H; unfold Rmean. rewrite (Rsum_perm a b H), (Permutation_length H); reflexivity. Qed.

Lemma Rcenter_length l : length (Rcenter l) = length l.
Proof. apply map_length. Qed.

Lemma Rsum_Rcenter l : l <> [] -> Rsum (Rcenter l) = 0%R.
Proof.
  intros H; unfold Rcenter. rewrite (Rsum_map_sub (fun x => x) (fun _ => Rmean l)), map_id, Rsum_map_const.
  unfold Rmean. pose proof (INR_pos_length l H). field; lra.
Qed.

Lemma Rcenter_map {A} (f : A -> R) l : Rcenter (map f l) = map (fun x => f x - Rmean (map f l))%R l.
Proof. unfold Rcenter; rewrite map_map; reflexivity. Qed.

(** Standard deviations. *)
Definition Rstd (l : list R) : R := sqrt (Rmean (map Rsqr (Rcenter l))).
Definition Rstdev (l : list R) : R := sqrt (Rsum (map Rsqr (Rcenter l)) / (INR (length l) - 1))%R.

Lemma Rmean_nonneg l : (forall x, In x l -> 0 <= x)%R -> (0 <= Rmean l)%R.
Proof.
  intros H; unfold Rmean. destruct l as [|a t]; [cbn; rewrite ?Rsum_nil; lra|].
  apply Rmult_le_pos; [apply Rsum_nonneg; exact H|].
  apply Rlt_le, Rinv_0_lt_compat, INR_pos_length; discriminate.
Qed.

Lemma xR_std_fin l : l <> [] -> np_std xR (map Fin l) = Fin (Rstd l).
Proof.
  intros H; unfold np_std, Rstd. rewrite xR_center_fin, xR_sqr_fin, xR_mean_fin.
  - apply xR_sqrt_fin, Rmean_nonneg; intros x Hx; apply in_map_iff in Hx as (y & <- & _); apply Rle_0_sqr.
  - destruct l; [congruence|discriminate].
Qed.

Lemma xR_stdev_fin l : 2 <= length l -> stat_stdev xR (map Fin l) = Ok (Fin (Rstdev l)).
Proof.
  intros H; unfold stat_stdev. rewrite map_length.
  destruct (Nat.ltb_spec (length l) 2); [lia|]. f_equal.
  rewrite xR_center_fin, xR_sqr_fin, xR_sum_fin.
  change (n_ofZ xR (Z.of_nat (length l) - 1)) with (Fin (IZR (Z.of_nat (length l) - 1)) : ext R).
  rewrite minus_IZR, <- INR_IZR.
  assert (Hp : (0 < INR (length l) - 1)%R).
  { apply (le_INR 2) in H. change (INR 2) with 2%R in H. lra. }
  rewrite xR_div_fin by lra. apply xR_sqrt_fin.
  apply Rmult_le_pos; [apply Rsum_sqr_nonneg|apply Rlt_le, Rinv_0_lt_compat; exact Hp].
Qed.
