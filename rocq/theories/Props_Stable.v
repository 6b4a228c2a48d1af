(** C133: nearly equal models get nearly equal values. *)
From Verif Require Import Py Num NumR Sorting Frame Rng PdCalc PdSpec PdFacts PdProofs PdTheorems PdErrors PdApi PdMethods MethodSpec
  PdMethodFacts PdMethodRun PdMethodReal PdMethodReal2 GreenwellFacts Props_Pd Props_Methods Props_Methods2 Views Props_Views Comparator Props_Compare Props_Terms.
From Coq Require Import Reals Lra QArith.
Open Scope string_scope.
Open Scope nat_scope.
Open Scope list_scope.

(** ** Specification *)

(** a row whose cells all occur in their columns of the data, not necessarily in the same row *)
Definition made_of {C} (rows : list (list C)) (w : nat) (r : list C) : Prop :=
  length r = w /\ forall j v, nth_error r j = Some v -> exists s, In s rows /\ nth_error s j = Some v.
(** the predictions of the two models differ by at most [eps] on such rows *)
Definition models_close {C} (rows : list (list C)) (w : nat) (eps : R) (h h' : list C -> R) : Prop :=
  forall r, made_of rows w r -> (Rabs (h' r - h r) <= eps)%R.
(** both values are numbers, at most [eps] apart *)
Definition values_close (eps : R) (v v' : ext R) : Prop := exists x x', v = Fin x /\ v' = Fin x' /\ (Rabs (x' - x) <= eps)%R.

(** ** Norms of functions on a list *)
Section Norm.
  Open Scope R_scope.
  Context {A : Type}.
  Definition Lsum (l : list A) (f : A -> R) : R := Rsum (map (fun a => Rsqr (f a)) l).
  Definition Lnorm (l : list A) (f : A -> R) : R := sqrt (Lsum l f).

  Lemma Lsum_nonneg l f : 0 <= Lsum l f.
  Proof. unfold Lsum. rewrite <- (map_map f Rsqr l). apply Rsum_sqr_nonneg. Qed.
  Lemma Lsum_dot l f : Lsum l f = Rdot (map f l) (map f l).
  Proof. rewrite Rdot_self, map_map. reflexivity. Qed.
  Lemma Lsum_ext l f g : (forall a, In a l -> f a = g a) -> Lsum l f = Lsum l g.
  Proof. intros H. unfold Lsum. apply Rsum_map_ext. intros a Ha. rewrite (H a Ha). reflexivity. Qed.
  Lemma Lsum_add l f g : Lsum l (fun a => f a + g a) = Lsum l f + 2 * Rdot (map f l) (map g l) + Lsum l g.
  Proof.
    unfold Lsum, Rdot. induction l as [|a l IH]; [cbn; rewrite Rsum_nil; lra|]. cbn [map combine fst snd]. rewrite !Rsum_cons, IH. unfold Rsqr. ring.
  Qed.
  Lemma minkowski l f g : Lnorm l (fun a => f a + g a) <= Lnorm l f + Lnorm l g.
  Proof.
    pose proof (Lsum_nonneg l f) as Hf. pose proof (Lsum_nonneg l g) as Hg. unfold Lnorm.
    pose proof (sqrt_pos (Lsum l f)) as Pf. pose proof (sqrt_pos (Lsum l g)) as Pg.
    rewrite <- (sqrt_Rsqr (sqrt (Lsum l f) + sqrt (Lsum l g))) by lra. apply sqrt_le_1_alt. rewrite Lsum_add. unfold Rsqr.
    assert (Hd : Rdot (map f l) (map g l) <= sqrt (Lsum l f) * sqrt (Lsum l g)).
    { rewrite <- sqrt_mult by assumption. eapply Rle_trans; [apply Rle_abs|]. rewrite <- sqrt_Rsqr_abs. apply sqrt_le_1_alt.
      unfold Rsqr. rewrite !Lsum_dot. apply cauchy_schwarz. rewrite !map_length. reflexivity. }
    replace ((sqrt (Lsum l f) + sqrt (Lsum l g)) * (sqrt (Lsum l f) + sqrt (Lsum l g)))
      with (sqrt (Lsum l f) * sqrt (Lsum l f) + 2 * (sqrt (Lsum l f) * sqrt (Lsum l g)) + sqrt (Lsum l g) * sqrt (Lsum l g)) by ring.
    rewrite !sqrt_sqrt by assumption. lra.
  Qed.
  Lemma Lnorm_ext l f g : (forall a, In a l -> f a = g a) -> Lnorm l f = Lnorm l g.
  Proof. intros H. unfold Lnorm. rewrite (Lsum_ext l f g H). reflexivity. Qed.
  Lemma Lnorm_opp l f : Lnorm l (fun a => - f a) = Lnorm l f.
  Proof. unfold Lnorm, Lsum. f_equal. apply Rsum_map_ext. intros a _. unfold Rsqr. ring. Qed.
  (** norms of nearby functions *)
  Lemma Lnorm_close l f g d : (forall a, In a l -> g a = f a + d a) -> Rabs (Lnorm l g - Lnorm l f) <= Lnorm l d.
  Proof.
    intros H. pose proof (minkowski l f d) as H1. rewrite <- (Lnorm_ext l g (fun a => f a + d a) H) in H1.
    pose proof (minkowski l g (fun a => - d a)) as H2. rewrite Lnorm_opp in H2.
    rewrite (Lnorm_ext l (fun a => g a + - d a) f) in H2 by (intros a Ha; rewrite (H a Ha); ring). apply Rabs_le. lra.
  Qed.
  (** centring does not increase the norm *)
  Lemma Lsum_dev l f : Lsum l (rdev l f) <= Lsum l f.
  Proof.
    destruct l as [|a0 t] eqn:El; [unfold Lsum; cbn; lra|]. rewrite <- El in *. assert (Hne : l <> []) by (rewrite El; discriminate). clear El.
    pose proof (INR_pos_length l Hne) as Hp. set (m := Rmean (map f l)).
    assert (E : Lsum l f = Lsum l (rdev l f) + INR (length l) * (m * m)).
    { rewrite (Lsum_ext l f (fun a => rdev l f a + m)) by (intros a _; unfold rdev; fold m; ring). rewrite (Lsum_add l (rdev l f) (fun _ => m)).
      assert (Z : Rdot (map (rdev l f) l) (map (fun _ => m) l) = 0).
      { unfold Rdot. assert (G : forall k, Rsum (map (fun p => fst p * snd p) (combine (map (rdev l f) k) (map (fun _ : A => m) k))) = m * (Rsum (map f k) - INR (length k) * m)).
        { induction k as [|a k IH]; [cbn; rewrite Rsum_nil; lra|]. cbn [map combine fst snd length]. rewrite !Rsum_cons, IH, S_INR. unfold rdev. fold m. ring. }
        rewrite G. unfold m, Rmean. rewrite map_length. field. lra. }
      rewrite Z. assert (K : Lsum l (fun _ => m) = INR (length l) * (m * m)) by (unfold Lsum; rewrite Rsum_map_const; unfold Rsqr; ring). rewrite K. lra. }
    rewrite E. pose proof (Rle_0_sqr m) as Hm. unfold Rsqr in Hm. nra.
  Qed.
  Lemma Lsum_bound l f eps : (forall a, In a l -> Rabs (f a) <= eps) -> Lsum l f <= INR (length l) * (eps * eps).
  Proof.
    unfold Lsum. induction l as [|a l IH]; intros H; [cbn; rewrite Rsum_nil; lra|]. cbn [map length]. rewrite Rsum_cons, S_INR.
    assert (Ha : Rsqr (f a) <= eps * eps).
    { change (eps * eps) with (Rsqr eps). apply Rsqr_le_abs_1. eapply Rle_trans; [apply H; left; reflexivity|apply Rle_abs]. }
    specialize (IH (fun x Hx => H x (or_intror Hx))). lra.
  Qed.
  (** the root of the mean square: nearby functions, divided by any [k] with [n <= c*c*k] *)
  Lemma rms_close l f g d eps c k : (0 <= eps)%R -> 0 <= c -> 0 < k -> INR (length l) <= c * c * k ->
    (forall a, In a l -> Rabs (d a) <= eps) -> (forall a, In a l -> rdev l g a = rdev l f a + rdev l d a) ->
    Rabs (sqrt (Lsum l (rdev l g) / k) - sqrt (Lsum l (rdev l f) / k)) <= c * eps.
  Proof.
    intros He Hc Hk Hn Hd Hg. pose proof (sqrt_lt_R0 k Hk) as Hs.
    rewrite !sqrt_div by (try apply Lsum_nonneg; exact Hk). fold (Lnorm l (rdev l g)). fold (Lnorm l (rdev l f)).
    replace (Lnorm l (rdev l g) / sqrt k - Lnorm l (rdev l f) / sqrt k) with ((Lnorm l (rdev l g) - Lnorm l (rdev l f)) * / sqrt k) by (field; lra).
    rewrite Rabs_mult, (Rabs_pos_eq (/ sqrt k)) by (left; apply Rinv_0_lt_compat; exact Hs).
    apply (Rmult_le_reg_r (sqrt k)); [exact Hs|]. rewrite Rmult_assoc, Rinv_l, Rmult_1_r by lra.
    eapply Rle_trans; [apply (Lnorm_close l (rdev l f) (rdev l g) (rdev l d) Hg)|].
    assert (B : Lsum l (rdev l d) <= (c * c * k) * (eps * eps)).
    { eapply Rle_trans; [apply Lsum_dev|]. eapply Rle_trans; [apply (Lsum_bound l d eps Hd)|]. apply Rmult_le_compat_r; [nra|exact Hn]. }
    unfold Lnorm. replace (c * eps * sqrt k) with (sqrt ((c * c * k) * (eps * eps))).
    - apply sqrt_le_1_alt, B.
    - replace (c * c * k * (eps * eps)) with (Rsqr (c * eps) * k) by (unfold Rsqr; ring). rewrite sqrt_mult, sqrt_Rsqr; [reflexivity|nra|apply Rle_0_sqr|lra].
  Qed.
  Lemma rdev_add (l : list A) (f g d : A -> R) : (forall a, In a l -> g a = f a + d a) -> forall a, In a l -> rdev l g a = rdev l f a + rdev l d a.
  Proof.
    intros H a Ha. unfold rdev. rewrite (H a Ha). rewrite (Rmean_map_ext g (fun a => f a + d a) l H), Rmean_map_add. lra.
  Qed.

  (** standard deviations *)
  Lemma center_map l (f : A -> R) : Rcenter (map f l) = map (rdev l f) l.
  Proof. unfold Rcenter. rewrite map_map. reflexivity. Qed.
  Lemma Rstd_close (l : list A) (f g : A -> R) eps : l <> [] -> 0 <= eps -> (forall a, In a l -> Rabs (g a - f a) <= eps) -> Rabs (Rstd (map g l) - Rstd (map f l)) <= eps.
  Proof.
    intros Hne He H. unfold Rstd, Rmean. rewrite !center_map, !map_map, !map_length. pose proof (INR_pos_length l Hne) as Hp.
    rewrite <- (Rmult_1_l eps). apply (rms_close l f g (fun a => g a - f a) eps 1 (INR (length l))); try lra; [exact H|].
    apply rdev_add. intros; ring.
  Qed.
  Lemma Rstdev_close (l : list A) (f g : A -> R) eps : (2 <= length l)%nat -> 0 <= eps -> (forall a, In a l -> Rabs (g a - f a) <= eps) -> Rabs (Rstdev (map g l) - Rstdev (map f l)) <= sqrt 2 * eps.
  Proof.
    intros Hl He H. unfold Rstdev. rewrite !center_map, !map_map, !map_length. apply le_INR in Hl. change (INR 2) with (1 + 1) in Hl.
    apply (rms_close l f g (fun a => g a - f a) eps (sqrt 2) (INR (length l) - 1)); try lra; [apply sqrt_pos|rewrite sqrt_sqrt by lra; lra|exact H|].
    apply rdev_add. intros; ring.
  Qed.
  Lemma Rmaxl_close (l : list A) (f g : A -> R) eps : l <> [] -> (forall a, In a l -> Rabs (g a - f a) <= eps) -> Rabs (Rmaxl (map g l) - Rmaxl (map f l)) <= eps.
  Proof.
    destruct l as [|a t]; [congruence|]. intros _ H. cbn [map Rmaxl].
    assert (G : forall x y, Rabs (x - y) <= eps -> Rabs (fold_left Rmax (map g t) x - fold_left Rmax (map f t) y) <= eps).
    { assert (Ht : forall b, In b t -> Rabs (g b - f b) <= eps) by (intros; apply H; right; assumption). clear H. induction t as [|b t IH]; intros x y Hxy; [exact Hxy|].
      cbn [map fold_left]. apply IH; [intros; apply Ht; right; assumption|]. specialize (Ht b (or_introl eq_refl)).
      revert Hxy Ht. unfold Rmax, Rabs. repeat match goal with |- context [Rle_dec ?p ?q] => destruct (Rle_dec p q) end; repeat match goal with |- context [Rcase_abs ?p] => destruct (Rcase_abs p) end; lra. }
    apply G, H. left. reflexivity.
  Qed.
  Lemma Rminl_close (l : list A) (f g : A -> R) eps : l <> [] -> (forall a, In a l -> Rabs (g a - f a) <= eps) -> Rabs (Rminl (map g l) - Rminl (map f l)) <= eps.
  Proof.
    destruct l as [|a t]; [congruence|]. intros _ H. cbn [map Rminl].
    assert (G : forall x y, Rabs (x - y) <= eps -> Rabs (fold_left Rmin (map g t) x - fold_left Rmin (map f t) y) <= eps).
    { assert (Ht : forall b, In b t -> Rabs (g b - f b) <= eps) by (intros; apply H; right; assumption). clear H. induction t as [|b t IH]; intros x y Hxy; [exact Hxy|].
      cbn [map fold_left]. apply IH; [intros; apply Ht; right; assumption|]. specialize (Ht b (or_introl eq_refl)).
      revert Hxy Ht. unfold Rmin, Rabs. repeat match goal with |- context [Rle_dec ?p ?q] => destruct (Rle_dec p q) end; repeat match goal with |- context [Rcase_abs ?p] => destruct (Rcase_abs p) end; lra. }
    apply G, H. left. reflexivity.
  Qed.
  Lemma range_close (l : list A) (f g : A -> R) eps : l <> [] -> (forall a, In a l -> Rabs (g a - f a) <= eps) ->
    Rabs ((Rmaxl (map g l) - Rminl (map g l)) / 4 - (Rmaxl (map f l) - Rminl (map f l)) / 4) <= eps / 2.
  Proof.
    intros Hne H. pose proof (Rmaxl_close l f g eps Hne H) as H1. pose proof (Rminl_close l f g eps Hne H) as H2.
    revert H1 H2. unfold Rabs. repeat match goal with |- context [Rcase_abs ?p] => destruct (Rcase_abs p) end; lra.
  Qed.
  Lemma sqrt2_bounds : 1 <= sqrt 2 /\ sqrt 2 * sqrt 2 = 2.
  Proof. split; [rewrite <- sqrt_1; apply sqrt_le_1_alt; lra|apply sqrt_sqrt; lra]. Qed.
  Lemma Rimp_close num (l : list A) (f g : A -> R) eps : (2 <= length l)%nat -> 0 <= eps -> (forall a, In a l -> Rabs (g a - f a) <= eps) -> Rabs (Rimp num (map g l) - Rimp num (map f l)) <= sqrt 2 * eps.
  Proof.
    intros Hl He H. unfold Rimp. destruct num; [apply Rstdev_close; assumption|].
    eapply Rle_trans; [apply (range_close l f g eps)|]; [destruct l; [cbn in Hl; lia|discriminate]|exact H|]. destruct sqrt2_bounds as [B _]. nra.
  Qed.
  Lemma Rspread_close num (l : list A) (f g : A -> R) eps : l <> [] -> 0 <= eps -> (forall a, In a l -> Rabs (g a - f a) <= eps) -> Rabs (Rspread num (map g l) - Rspread num (map f l)) <= eps.
  Proof.
    intros Hne He H. unfold Rspread. destruct num; [apply Rstd_close; assumption|].
    eapply Rle_trans; [apply (range_close l f g eps); assumption|]. lra.
  Qed.
End Norm.

Lemma Rgreenwell_close {C} n1 n2 (F F' : C -> C -> R) gp gq eps : 2 <= length gp -> 2 <= length gq -> (0 <= eps)%R ->
  (forall v u, In v gp -> In u gq -> Rabs (F' v u - F v u) <= eps)%R -> (Rabs (Rgreenwell n1 n2 F' gp gq - Rgreenwell n1 n2 F gp gq) <= 2 * eps)%R.
Proof.
  intros Hp Hq He H. unfold Rgreenwell. destruct sqrt2_bounds as [B1 B2].
  assert (He2 : (0 <= sqrt 2 * eps)%R) by nra.
  pose proof (Rstdev_close gp (fun v => Rimp n2 (map (fun u => F v u) gq)) (fun v => Rimp n2 (map (fun u => F' v u) gq)) (sqrt 2 * eps)%R Hp He2
     (fun v Hv => Rimp_close n2 gq (F v) (F' v) eps Hq He (fun u Hu => H v u Hv Hu))) as H1.
  pose proof (Rstdev_close gq (fun u => Rimp n1 (map (fun v => F v u) gp)) (fun u => Rimp n1 (map (fun v => F' v u) gp)) (sqrt 2 * eps)%R Hq He2
     (fun u Hu => Rimp_close n1 gp (fun v => F v u) (fun v => F' v u) eps Hp He (fun v Hv => H v u Hv Hu))) as H2.
  rewrite <- Rmult_assoc, B2 in H1, H2. revert H1 H2. unfold Rabs. repeat match goal with |- context [Rcase_abs ?p] => destruct (Rcase_abs p) end; lra.
Qed.

(** the unnormalised statistic as a root of a mean square *)
Section Hroot.
  Context {C : Type} (rows : list (list C)) (Hne : rows <> []) (eps : R) (He : (0 <= eps)%R).
  Open Scope R_scope.
  Lemma RHnum_sum f12 f1 f2 : RHnum rows f12 f1 f2 = Lsum rows (rdev rows (fun r => f12 r - f1 r - f2 r)).
  Proof. unfold RHnum, Lsum. apply Rsum_map_ext. intros r Hr. f_equal. unfold rdev. rewrite !Rmean_map_sub. ring. Qed.
  Lemma H_close f12 f1 f2 f12' f1' f2' g12 g1 g2 g12' g1' g2' :
    is_fin rows g12 f12 -> is_fin rows g1 f1 -> is_fin rows g2 f2 -> is_fin rows g12' f12' -> is_fin rows g1' f1' -> is_fin rows g2' f2' ->
    (forall r, In r rows -> Rabs (f12' r - f12 r) <= eps) -> (forall r, In r rows -> Rabs (f1' r - f1 r) <= eps) -> (forall r, In r rows -> Rabs (f2' r - f2 r) <= eps) ->
    values_close (3 * eps) (H_value xR rows false g12 g1 g2) (H_value xR rows false g12' g1' g2').
  Proof.
    intros A12 A1 A2 B12 B1 B2 D12 D1 D2. rewrite (H_value_fin rows false g12 g1 g2 f12 f1 f2 A12 A1 A2), (H_value_fin rows false g12' g1' g2' f12' f1' f2' B12 B1 B2).
    pose proof (INR_pos_length rows Hne) as Hp.
    rewrite !xR_div_fin by lra. rewrite !RHnum_sum.
    rewrite !xR_sqrt_fin by (apply Rmult_le_pos; [apply Lsum_nonneg|left; apply Rinv_0_lt_compat; exact Hp]).
    eexists _, _. split; [reflexivity|]. split; [reflexivity|]. rewrite <- (Rmult_1_l (3 * eps)).
    apply (rms_close rows _ _ (fun r => (f12' r - f1' r - f2' r) - (f12 r - f1 r - f2 r))); try lra.
    - intros r Hr. specialize (D12 r Hr). specialize (D1 r Hr). specialize (D2 r Hr). revert D12 D1 D2. unfold Rabs. repeat match goal with |- context [Rcase_abs ?p] => destruct (Rcase_abs p) end; lra.
    - apply rdev_add. intros; ring.
  Qed.
End Hroot.

(** ** Partial dependence of nearby models *)
Section Close.
  Context {C : Type} (rows : list (list C)) (w : nat) (Hw : forall r, In r rows -> length r = w) (Hne : rows <> []) (h h' : list C -> R) (eps : R)
          (Hh : models_close rows w eps h h').
  Open Scope R_scope.
  Lemma made_row r : In r rows -> made_of rows w r.
  Proof. intros Hr. split; [apply Hw, Hr|]. intros j v E. exists r. split; assumption. Qed.
  Lemma made_with r j x : made_of rows w r -> (j < w)%nat -> (exists s, In s rows /\ nth_error s j = Some x) -> made_of rows w (with_value j x r).
  Proof.
    intros [Hl Hm] Hj Hx. split; [rewrite with_value_length by (rewrite Hl; exact Hj); exact Hl|]. intros i v. rewrite with_value_nth by (rewrite Hl; exact Hj).
    destruct (Nat.eqb_spec i j) as [->|Hij]; [intros E; injection E as <-; exact Hx|apply Hm].
  Qed.
  Lemma mean_map_close {A} (f g : A -> R) (l : list A) : l <> [] -> (forall a, In a l -> Rabs (g a - f a) <= eps) -> Rabs (Rmean (map g l) - Rmean (map f l)) <= eps.
  Proof.
    intros Hn H. rewrite <- Rmean_map_sub. unfold Rmean. rewrite map_length. pose proof (INR_pos_length l Hn) as Hp.
    assert (B : Rabs (Rsum (map (fun x => g x - f x) l)) <= INR (length l) * eps).
    { clear Hn Hp. induction l as [|a l IH]; [cbn; rewrite Rsum_nil, Rabs_R0; lra|]. cbn [map length]. rewrite Rsum_cons, S_INR.
      eapply Rle_trans; [apply Rabs_triang|]. specialize (IH (fun x Hx => H x (or_intror Hx))). specialize (H a (or_introl eq_refl)). lra. }
    unfold Rdiv. rewrite Rabs_mult, (Rabs_pos_eq (/ _)) by (left; apply Rinv_0_lt_compat; exact Hp).
    apply (Rmult_le_reg_r (INR (length l))); [exact Hp|]. rewrite Rmult_assoc, Rinv_l by lra. lra.
  Qed.
  Lemma eps_nonneg : 0 <= eps.
  Proof. destruct rows as [|r t] eqn:E; [congruence|]. rewrite <- E in *. eapply Rle_trans; [apply Rabs_pos|apply (Hh r), made_row; rewrite E; left; reflexivity]. Qed.
  Lemma PD1_close p v : (p < w)%nat -> (exists s, In s rows /\ nth_error s p = Some v) -> Rabs (PD1 Rmean h' rows p v - PD1 Rmean h rows p v) <= eps.
  Proof. intros Hp Hv. unfold PD1. apply mean_map_close; [exact Hne|]. intros r Hr. apply Hh, made_with; auto using made_row. Qed.
  Lemma PD2_close p q v u : (p < w)%nat -> (q < w)%nat -> (exists s, In s rows /\ nth_error s p = Some v) -> (exists s, In s rows /\ nth_error s q = Some u) ->
    Rabs (PD2 Rmean h' rows p q v u - PD2 Rmean h rows p q v u) <= eps.
  Proof. intros Hp Hq Hv Hu. unfold PD2. apply mean_map_close; [exact Hne|]. intros r Hr. apply Hh. auto using made_with, made_row. Qed.
  Lemma PDminus_close p r : In r rows -> (p < w)%nat -> Rabs (RPDminus rows h' p r - RPDminus rows h p r) <= eps.
  Proof.
    intros Hr Hp. unfold RPDminus. apply mean_map_close; [exact Hne|]. intros s Hs.
    destruct (nth_error s p) as [v|] eqn:E; [apply Hh; eauto using made_with, made_row|]. apply nth_error_None in E. rewrite (Hw s Hs) in E. lia.
  Qed.

  Lemma H_pair_close p q : (p < w)%nat -> (q < w)%nat -> values_close (3 * eps) (H_pair xR (fun r => Fin (h r)) rows false p q) (H_pair xR (fun r => Fin (h' r)) rows false p q).
  Proof.
    intros Hp Hq. unfold H_pair. apply (H_close rows Hne eps eps_nonneg (RPD2_at rows h p q) (RPD1_at rows h p) (RPD1_at rows h q) (RPD2_at rows h' p q) (RPD1_at rows h' p) (RPD1_at rows h' q));
      try (first [apply (PD2_at_fin rows w Hw)|apply (PD1_at_fin rows w Hw)]; assumption).
    - intros r Hr. unfold RPD2_at. pose proof (Hw r Hr) as Hr'.
      destruct (nth_error r p) as [v|] eqn:E; [|apply nth_error_None in E; lia]. destruct (nth_error r q) as [u|] eqn:E2; [|apply nth_error_None in E2; lia]. apply PD2_close; eauto.
    - intros r Hr. unfold RPD1_at. pose proof (Hw r Hr) as Hr'. destruct (nth_error r p) as [v|] eqn:E; [|apply nth_error_None in E; lia]. apply PD1_close; eauto.
    - intros r Hr. unfold RPD1_at. pose proof (Hw r Hr) as Hr'. destruct (nth_error r q) as [v|] eqn:E; [|apply nth_error_None in E; lia]. apply PD1_close; eauto.
  Qed.
  Lemma H_all_close p : (p < w)%nat -> values_close (3 * eps) (H_all xR (fun r => Fin (h r)) rows false p) (H_all xR (fun r => Fin (h' r)) rows false p).
  Proof.
    intros Hp. unfold H_all. apply (H_close rows Hne eps eps_nonneg h (RPD1_at rows h p) (RPDminus rows h p) h' (RPD1_at rows h' p) (RPDminus rows h' p));
      try (first [intros r _; reflexivity|apply (PD1_at_fin rows w Hw)|apply (PDminus_at_fin rows w Hw)]; assumption).
    - intros r Hr. apply Hh, made_row, Hr.
    - intros r Hr. unfold RPD1_at. pose proof (Hw r Hr) as Hr'. destruct (nth_error r p) as [v|] eqn:E; [|apply nth_error_None in E; lia]. apply PD1_close; eauto.
    - intros r Hr. apply PDminus_close; assumption.
  Qed.
End Close.

(** ** C133 *)
Section Stable.
  Context {C G : Type} (O : cell_ops C) (HO : cell_ok O) (Rg : rng_ops G) (HR : rng_ok Rg) (srt : sorter) (Hs : sorter_ok srt).
  Notation fit := (PdMethods.fit O xR Rg srt).
  Notation "'fin' h" := (fun r => Fin (h r)) (at level 10, only parsing).
  Notation Hnan := (no_isnan_nan xR xR_ord).
  Notation close Xs := (models_close (f_rows Xs) (length (f_cols Xs))).

  Lemma or_zero_close eps v v' : values_close eps v v' -> values_close eps (or_zero xR v) (or_zero xR v').
  Proof. intros (x & x' & -> & -> & H). exists x, x'. split; [reflexivity|]. split; [reflexivity|exact H]. Qed.

  Theorem C133_pairs_partial s1 a1 s1' s2 a2 s2' h h' Xs eps f1 f2 t1 t2 v1 v2 :
    wf_frame (a_X a1) -> wf_frame (a_X a2) ->
    fit (Friedman false) s1 a1 = (s1', Ok tt) -> m_X s1' = Some Xs -> explains O xR a1 (fin h) Xs ->
    fit (Friedman false) s2 a2 = (s2', Ok tt) -> m_X s2' = Some Xs -> explains O xR a2 (fin h') Xs ->
    f_rows Xs <> [] -> close Xs eps h h' ->
    m_ovo s1' = Some t1 -> m_ovo s2' = Some t2 -> In (f1, f2, v1) t1 -> In (f1, f2, v2) t2 -> values_close (3 * eps) v1 v2.
  Proof.
    intros HX1 HX2 H1 HXs1 He1 H2 HXs2 He2 Hne Hh Ht1 Ht2 Hv1 Hv2.
    destruct (friedman_fit O xR HO Hnan Rg HR srt false s1 a1 s1' _ Xs HX1 H1 HXs1 He1) as (HwX & _).
    destruct (C12_friedman_pairs O xR HO xR_ord x0 Rg HR srt Hs false s1 a1 s1' _ Xs HX1 H1 HXs1 He1) as (t & Ht & _ & Hval1 & _).
    rewrite Ht1 in Ht; injection Ht as <-.
    destruct (C12_friedman_pairs O xR HO xR_ord x0 Rg HR srt Hs false s2 a2 s2' _ Xs HX2 H2 HXs2 He2) as (t & Ht & _ & Hval2 & _).
    rewrite Ht2 in Ht; injection Ht as <-.
    destruct (Hval1 _ _ _ Hv1) as (p & q & Hp & Hq & Hpq & ->). destruct (Hval2 _ _ _ Hv2) as (p2 & q2 & Hp2 & Hq2 & _ & ->).
    apply (posn_nth Xs _ _ HwX) in Hp2 as <-. apply (posn_nth Xs _ _ HwX) in Hq2 as <-.
    rewrite (posn_nth Xs p f1 HwX Hp), (posn_nth Xs q f2 HwX Hq) in *. apply or_zero_close.
    apply (H_pair_close (f_rows Xs) (length (f_cols Xs)) (wf_rows Xs HwX) Hne h h' eps Hh p q (pos_lt Xs p f1 Hp) (pos_lt Xs q f2 Hq)).
  Qed.

  (** one versus all *)
  Theorem C133_one_versus_all_partial s1 a1 s1' s2 a2 s2' h h' Xs eps f t1 t2 v1 v2 :
    wf_frame (a_X a1) -> wf_frame (a_X a2) ->
    fit (Friedman false) s1 a1 = (s1', Ok tt) -> m_X s1' = Some Xs -> explains O xR a1 (fin h) Xs -> a_ova a1 = true ->
    fit (Friedman false) s2 a2 = (s2', Ok tt) -> m_X s2' = Some Xs -> explains O xR a2 (fin h') Xs -> a_ova a2 = true ->
    f_rows Xs <> [] -> close Xs eps h h' ->
    m_ova s1' = Some t1 -> m_ova s2' = Some t2 -> In (f, v1) t1 -> In (f, v2) t2 -> values_close (3 * eps) v1 v2.
  Proof.
    intros HX1 HX2 H1 HXs1 He1 Ho1 H2 HXs2 He2 Ho2 Hne Hh Ht1 Ht2 Hv1 Hv2.
    destruct (friedman_fit O xR HO Hnan Rg HR srt false s1 a1 s1' _ Xs HX1 H1 HXs1 He1) as (HwX & _).
    destruct (C13_friedman_ova O xR HO xR_ord x0 Rg HR srt Hs false s1 a1 s1' _ Xs HX1 H1 HXs1 He1 Ho1) as (t & Ht & _ & Hval1 & _).
    rewrite Ht1 in Ht; injection Ht as <-.
    destruct (C13_friedman_ova O xR HO xR_ord x0 Rg HR srt Hs false s2 a2 s2' _ Xs HX2 H2 HXs2 He2 Ho2) as (t & Ht & _ & Hval2 & _).
    rewrite Ht2 in Ht; injection Ht as <-.
    destruct (Hval1 _ _ Hv1) as (p & Hp & ->). destruct (Hval2 _ _ Hv2) as (p2 & Hp2 & ->).
    apply (posn_nth Xs _ _ HwX) in Hp2 as <-. rewrite (posn_nth Xs p f HwX Hp) in *. apply or_zero_close.
    apply (H_all_close (f_rows Xs) (length (f_cols Xs)) (wf_rows Xs HwX) Hne h h' eps Hh p (pos_lt Xs p f Hp)).
  Qed.

  (** a model close to one without the interaction gets a small value *)
  Theorem C133_nearly_additive_partial s a s' h0 h Xs eps p q f1 f2 t v :
    wf_frame (a_X a) -> fit (Friedman false) s a = (s', Ok tt) -> m_X s' = Some Xs -> explains O xR a (fin h) Xs ->
    f_rows Xs <> [] -> close Xs eps h0 h ->
    nth_error (f_cols Xs) p = Some f1 -> nth_error (f_cols Xs) q = Some f2 -> additive_pair (length (f_cols Xs)) h0 p q ->
    m_ovo s' = Some t -> In (f1, f2, v) t -> exists x, v = Fin x /\ (0 <= x <= 3 * eps)%R.
  Proof.
    intros HX H HXs He Hne Hh Hp Hq Hadd Ht Hv.
    destruct (friedman_fit O xR HO Hnan Rg HR srt false s a s' _ Xs HX H HXs He) as (HwX & _).
    destruct (C12_friedman_pairs O xR HO xR_ord x0 Rg HR srt Hs false s a s' _ Xs HX H HXs He) as (u & Hu & _ & Hval & _).
    rewrite Ht in Hu; injection Hu as <-. destruct (proj1 (C15_nonnegative O HO Rg HR srt Hs false s a s' _ Xs HX H HXs He) t f1 f2 v Ht Hv) as [E|(x & E & Hx)].
    all: destruct (Hval _ _ _ Hv) as (p1 & q1 & Hp1 & Hq1 & Hpq & Ev); apply (posn_nth Xs _ _ HwX) in Hp1 as <-; apply (posn_nth Xs _ _ HwX) in Hq1 as <-;
      rewrite (posn_nth Xs p f1 HwX Hp), (posn_nth Xs q f2 HwX Hq) in *.
    all: pose proof (H_pair_close (f_rows Xs) (length (f_cols Xs)) (wf_rows Xs HwX) Hne h0 h eps Hh p q (pos_lt Xs p f1 Hp) (pos_lt Xs q f2 Hq)) as K; apply or_zero_close in K; rewrite <- Ev in K.
    all: pose proof (H_pair_zero (f_rows Xs) (length (f_cols Xs)) (wf_rows Xs HwX) h0 false p q Hpq (pos_lt Xs p f1 Hp) (pos_lt Xs q f2 Hq) Hadd) as Z; rewrite Z in K.
    all: destruct K as (y & y' & E1 & E2 & K); rewrite E in E2; try discriminate E2. injection E1 as <-. injection E2 as <-. exists x. split; [exact E|].
    rewrite Rminus_0_r, Rabs_pos_eq in K by exact Hx. lra.
  Qed.

  (** pairs further apart than twice the bound keep their order *)
  Theorem C133_order_partial s1 a1 s1' s2 a2 s2' h h' Xs eps f1 f2 g1 g2 t1 t2 x y w w' i j :
    wf_frame (a_X a1) -> wf_frame (a_X a2) ->
    fit (Friedman false) s1 a1 = (s1', Ok tt) -> m_X s1' = Some Xs -> explains O xR a1 (fin h) Xs ->
    fit (Friedman false) s2 a2 = (s2', Ok tt) -> m_X s2' = Some Xs -> explains O xR a2 (fin h') Xs ->
    f_rows Xs <> [] -> close Xs eps h h' ->
    m_ovo s1' = Some t1 -> m_ovo s2' = Some t2 -> In (f1, f2, Fin x) t1 -> In (g1, g2, Fin y) t1 -> (y + 6 * eps < x)%R ->
    nth_error t2 i = Some (f1, f2, w) -> nth_error t2 j = Some (g1, g2, w') -> i < j.
  Proof.
    intros HX1 HX2 H1 HXs1 He1 H2 HXs2 He2 Hne Hh Ht1 Ht2 Hf Hg Hxy Hi Hj.
    destruct (C133_pairs_partial s1 a1 s1' s2 a2 s2' h h' Xs eps f1 f2 t1 t2 _ _ HX1 HX2 H1 HXs1 He1 H2 HXs2 He2 Hne Hh Ht1 Ht2 Hf (nth_error_In _ _ Hi)) as (b & x' & E1 & E2 & K1).
    destruct (C133_pairs_partial s1 a1 s1' s2 a2 s2' h h' Xs eps g1 g2 t1 t2 _ _ HX1 HX2 H1 HXs1 He1 H2 HXs2 He2 Hne Hh Ht1 Ht2 Hg (nth_error_In _ _ Hj)) as (b' & y' & E3 & E4 & K2).
    injection E1 as <-. injection E3 as <-. subst w w'.
    assert (Hlt : (y' < x')%R) by (revert K1 K2; unfold Rabs; repeat match goal with |- context [Rcase_abs ?p] => destruct (Rcase_abs p) end; lra). clear K1 K2.
    destruct (C12_friedman_order O HO Rg HR srt Hs false s2 a2 s2' _ Xs HX2 H2 HXs2 He2) as (u & Hu & Hd). rewrite Ht2 in Hu; injection Hu as <-.
    assert (Hij : i <> j) by (intros ->; rewrite Hi in Hj; injection Hj as _ _ E; lra).
    destruct (Nat.lt_trichotomy i j) as [L|[L|L]]; [exact L|congruence|exfalso].
    clear - Hd Hi Hj Hlt L. revert i j Hi Hj L. induction Hd as [|r t Hd IH Hr]; intros i j Hi Hj L; [destruct i; discriminate|].
    destruct i as [|i]; [lia|]. destruct j as [|j]; [|apply (IH i j Hi Hj); lia]. injection Hj as ->. cbn [nth_error] in Hi. rewrite Forall_forall in Hr. specialize (Hr _ (nth_error_In _ _ Hi)). cbn [snd] in Hr.
    change (Rltb y' x' = false) in Hr. apply Rltb_false in Hr. lra.
  Qed.

  Lemma value_occurs Xs p v : In v (np_unique O (col_at p (f_rows Xs))) -> exists s, In s (f_rows Xs) /\ nth_error s p = Some v.
  Proof. intros Hv. apply (np_unique_sub O HO), col_at_In in Hv. exact Hv. Qed.

  (** Greenwell's pairs *)
  Theorem C133_greenwell_partial s1 a1 s1' s2 a2 s2' h h' Xs eps f1 f2 t1 t2 v1 v2 :
    wf_frame (a_X a1) -> wf_frame (a_X a2) ->
    fit Greenwell s1 a1 = (s1', Ok tt) -> m_X s1' = Some Xs -> explains O xR a1 (fin h) Xs ->
    fit Greenwell s2 a2 = (s2', Ok tt) -> m_X s2' = Some Xs -> explains O xR a2 (fin h') Xs ->
    close Xs eps h h' ->
    m_ovo s1' = Some t1 -> m_ovo s2' = Some t2 -> In (f1, f2, v1) t1 -> In (f1, f2, v2) t2 -> values_close (2 * eps) v1 v2.
  Proof.
    intros HX1 HX2 F1 E1 He1 F2 E2 He2 Hh T1 T2 I1 I2. destruct (fit_complete O HO Rg HR srt _ s1 a1 s1' _ Xs HX1 F1 E1 He1) as (W & Hc & _).
    destruct (C17_greenwell_pairs O HO Rg HR srt Hs s1 a1 s1' h Xs HX1 F1 E1 He1) as (u1 & U1 & _ & V1 & _). assert (u1 = t1) by congruence. subst u1.
    destruct (C17_greenwell_pairs O HO Rg HR srt Hs s2 a2 s2' h' Xs HX2 F2 E2 He2) as (u2 & U2 & _ & V2 & _). assert (u2 = t2) by congruence. subst u2.
    assert (Inj : forall i j f, nth_error (f_cols Xs) i = Some f -> nth_error (f_cols Xs) j = Some f -> i = j) by (intros i j f Hi Hj; apply (proj1 (NoDup_nth_error _) (proj1 W)); [eapply pos_lt; exact Hi|congruence]).
    destruct (V1 _ _ _ I1) as (p & q & Hp & Hq & _ & L1 & L2 & ->).
    destruct (V2 _ _ _ I2) as (p2 & q2 & Hp2 & Hq2 & _ & _ & _ & ->). rewrite (Inj _ _ _ Hp2 Hp), (Inj _ _ _ Hq2 Hq) in *. clear p2 q2 Hp2 Hq2.
    assert (Hne : f_rows Xs <> []) by (intros E; rewrite E in L1; cbn in L1; lia).
    eexists _, _. split; [reflexivity|]. split; [reflexivity|]. apply Rgreenwell_close; [exact L1|exact L2|apply (eps_nonneg _ _ (wf_rows Xs W) Hne h h' eps Hh)|].
    intros v u Hv Hu. apply (PD2_close _ _ (wf_rows Xs W) Hne h h' eps Hh); eauto using pos_lt, value_occurs.
  Qed.

  (** the importance of a feature *)
  Theorem C133_importance_partial k1 k2 s1 a1 s1' s2 a2 s2' h h' Xs eps f t1 t2 v1 v2 :
    wf_frame (a_X a1) -> wf_frame (a_X a2) ->
    fit k1 s1 a1 = (s1', Ok tt) -> m_X s1' = Some Xs -> explains O xR a1 (fin h) Xs ->
    fit k2 s2 a2 = (s2', Ok tt) -> m_X s2' = Some Xs -> explains O xR a2 (fin h') Xs ->
    f_rows Xs <> [] -> close Xs eps h h' ->
    m_fi s1' = Some t1 -> m_fi s2' = Some t2 -> In (f, v1) t1 -> In (f, v2) t2 -> values_close eps v1 v2.
  Proof.
    intros HX1 HX2 F1 E1 He1 F2 E2 He2 Hne Hh T1 T2 I1 I2. destruct (fit_complete O HO Rg HR srt _ s1 a1 s1' _ Xs HX1 F1 E1 He1) as (W & Hc & _).
    destruct (C20_fit_importance O HO Rg HR srt Hs k1 s1 a1 s1' h Xs HX1 F1 E1 He1) as (u1 & U1 & _ & V1 & _). assert (u1 = t1) by congruence. subst u1.
    destruct (C20_fit_importance O HO Rg HR srt Hs k2 s2 a2 s2' h' Xs HX2 F2 E2 He2) as (u2 & U2 & _ & V2 & _). assert (u2 = t2) by congruence. subst u2.
    assert (Inj : forall i j f, nth_error (f_cols Xs) i = Some f -> nth_error (f_cols Xs) j = Some f -> i = j) by (intros i j f0 Hi Hj; apply (proj1 (NoDup_nth_error _) (proj1 W)); [eapply pos_lt; exact Hi|congruence]).
    destruct (V1 _ _ I1) as (p & Hp & ->). destruct (V2 _ _ I2) as (p2 & Hp2 & ->). rewrite (Inj _ _ _ Hp2 Hp) in *. clear p2 Hp2.
    eexists _, _. split; [reflexivity|]. split; [reflexivity|]. apply Rspread_close; [|apply (eps_nonneg _ _ (wf_rows Xs W) Hne h h' eps Hh)|].
    - intros E. apply (proj1 (np_unique_nil O HO _)) in E. destruct (f_rows Xs) as [|r0 t] eqn:Er; [congruence|].
      assert (L0 : p < length r0) by (rewrite (wf_rows Xs W r0) by (rewrite Er; left; reflexivity); eapply pos_lt; exact Hp).
      destruct (nth_error r0 p) as [x|] eqn:Ex; [|apply nth_error_None in Ex; lia].
      assert (Hx : In x (col_at p (r0 :: t))) by (apply col_at_In; exists r0; split; [left; reflexivity|exact Ex]). rewrite E in Hx. exact Hx.
    - intros v Hv. apply (PD1_close _ _ (wf_rows Xs W) Hne h h' eps Hh); eauto using pos_lt, value_occurs.
  Qed.
End Stable.

(** ** The normalised statistic, and an example: the model [x*y] *)
Lemma made_rX r : made_of (f_rows rX) 3 r -> exists x y z, r = [x; y; z] /\ (x = 0 \/ x = 1)%Z /\ (y = 0 \/ y = 1)%Z /\ (z = 0 \/ z = 1 \/ z = 2)%Z.
Proof.
  intros [Hl Hm]. destruct r as [|x [|y [|z [|]]]]; try discriminate Hl. exists x, y, z. split; [reflexivity|].
  destruct (Hm 0 x eq_refl) as (s & Hs & E). destruct (Hm 1 y eq_refl) as (s1 & Hs1 & E1). destruct (Hm 2 z eq_refl) as (s2 & Hs2 & E2). cbn in Hs, Hs1, Hs2.
  repeat split; [clear - Hs E|clear - Hs1 E1|clear - Hs2 E2].
  - destruct Hs as [<-|[<-|[<-|[]]]]; injection E as <-; auto.
  - destruct Hs1 as [<-|[<-|[<-|[]]]]; injection E1 as <-; auto.
  - destruct Hs2 as [<-|[<-|[<-|[]]]]; injection E2 as <-; auto.
Qed.
Ltac expand_H := unfold RHnum, RHden, rdev, RPD2_at, RPD1_at, PD1, PD2, with_value, th, cell3; cbn [f_rows rX map nth_error firstn skipn app length]; unfold Rmean, Rsum; cbn [fold_right length INR Datatypes.length].
Lemma th_H norm : H_pair xR (fun r => Fin (th r)) (f_rows rX) norm 0 1 = if norm then Fin (1 / 9)%R else Fin (sqrt (2 / 81))%R.
Proof.
  assert (Hw : forall r, In r (f_rows rX) -> length r = 3) by (cbn; intuition (subst; reflexivity)).
  unfold H_pair. rewrite (H_value_fin (f_rows rX) norm _ _ _ (RPD2_at (f_rows rX) th 0 1) (RPD1_at (f_rows rX) th 0) (RPD1_at (f_rows rX) th 1))
    by (first [apply (PD2_at_fin (f_rows rX) 3 Hw)|apply (PD1_at_fin (f_rows rX) 3 Hw)]; lia).
  assert (EN : RHnum (f_rows rX) (RPD2_at (f_rows rX) th 0 1) (RPD1_at (f_rows rX) th 0) (RPD1_at (f_rows rX) th 1) = (6 / 81)%R) by (expand_H; unfold Rsqr; field).
  assert (ED : RHden (f_rows rX) (RPD2_at (f_rows rX) th 0 1) = (6 / 9)%R) by (expand_H; unfold Rsqr; field).
  rewrite EN, ED. destruct norm.
  - rewrite xR_div_fin by lra. f_equal. field.
  - cbn [f_rows rX length INR]. rewrite xR_div_fin by lra. rewrite xR_sqrt_fin by lra. do 2 f_equal. field.
Qed.

(** however close a model is to the constant model, its normalised value can be the one of [x*y] *)
Theorem C133_normalised_refuted :
  exists x, (0 < x)%R /\ forall eps, (0 < eps)%R -> exists h h' s1 s2 t1 t2,
    PdMethods.fit Zcell xR rotR isort (Friedman true) init0 (rargs h true) = (s1, Ok tt) /\ m_X s1 = Some rX
    /\ explains Zcell xR (rargs h true) (fun r => Fin (h r)) rX
    /\ PdMethods.fit Zcell xR rotR isort (Friedman true) init0 (rargs h' true) = (s2, Ok tt) /\ m_X s2 = Some rX
    /\ explains Zcell xR (rargs h' true) (fun r => Fin (h' r)) rX
    /\ models_close (f_rows rX) 3 eps h h'
    /\ m_ovo s1 = Some t1 /\ m_ovo s2 = Some t2 /\ In ("a", "b", Fin 0%R) t1 /\ In ("a", "b", Fin x) t2.
Proof.
  exists (1 / 9)%R. split; [lra|]. intros eps Heps. set (h := fun _ : list Z => 0%R). set (h' := fun r => (eps * th r)%R). exists h, h'.
  destruct (rfit_ok true h true) as (s1 & E1 & X1). destruct (rfit_ok true h' true) as (s2 & E2 & X2). destruct (rfit_ok true th true) as (s3 & E3 & X3).
  destruct (C12_friedman_pairs Zcell xR Zcell_ok xR_ord eq_refl rotR rotR_ok isort isort_ok true init0 (rargs h true) s1 _ rX rX_wf E1 X1 (rargs_explains _ true)) as (t1 & T1 & K1 & _).
  destruct (C12_friedman_pairs Zcell xR Zcell_ok xR_ord eq_refl rotR rotR_ok isort isort_ok true init0 (rargs h' true) s2 _ rX rX_wf E2 X2 (rargs_explains _ true)) as (t2 & T2 & K2 & _).
  destruct (C12_friedman_pairs Zcell xR Zcell_ok xR_ord eq_refl rotR rotR_ok isort isort_ok true init0 (rargs th true) s3 _ rX rX_wf E3 X3 (rargs_explains _ true)) as (t3 & T3 & K3 & V3 & _).
  assert (I1 : In ("a", "b") (map fst t1)) by (rewrite K1; cbn; auto). assert (I2 : In ("a", "b") (map fst t2)) by (rewrite K2; cbn; auto). assert (I3 : In ("a", "b") (map fst t3)) by (rewrite K3; cbn; auto).
  apply in_map_iff in I1 as ([[f1 f2] v1] & F1 & I1). injection F1 as -> ->. apply in_map_iff in I2 as ([[f1 f2] v2] & F2 & I2). injection F2 as -> ->. apply in_map_iff in I3 as ([[f1 f2] v3] & F3 & I3). injection F3 as -> ->.
  exists s1, s2, t1, t2. split; [exact E1|]. split; [exact X1|]. split; [apply rargs_explains|]. split; [exact E2|]. split; [exact X2|]. split; [apply rargs_explains|].
  split. { intros r Hr. apply made_rX in Hr as (x & y & z & -> & Hx & Hy & _). unfold h, h', th, cell3. destruct Hx as [->| ->], Hy as [->| ->]; apply Rabs_le; lra. }
  split; [exact T1|]. split; [exact T2|]. split.
  - enough (v1 = Fin 0%R) by (subst v1; exact I1).
    apply (C14_no_interaction_pair Zcell Zcell_ok rotR rotR_ok isort isort_ok true init0 (rargs h true) s1 h rX t1 "a" "b" v1 0 1 rX_wf E1 X1 (rargs_explains h true) T1 I1 eq_refl eq_refl).
    exists h, h. split; [intros; unfold h; lra|]. split; intros r v _; reflexivity.
  - enough (v2 = Fin (1 / 9)%R) by (subst v2; exact I2).
    destruct (C15_affine Zcell Zcell_ok rotR rotR_ok isort isort_ok true init0 (rargs th true) s3 init0 (rargs h' true) s2 th h' eps 0%R rX rX_wf rX_wf E3 X3 (rargs_explains _ true) E2 X2 (rargs_explains _ true)) as [A _]; [lra|intros r _; unfold h'; lra|].
    specialize (A t3 t2 "a" "b" v3 v2 T3 T2 I3 I2). cbn in A. rewrite A. destruct (V3 _ _ _ I3) as (p & q & Hp & Hq & _ & ->).
    assert (p = 0) as -> by (apply (proj1 (NoDup_nth_error (f_cols rX)) (proj1 rX_wf)); [apply nth_error_Some; rewrite Hp; discriminate|rewrite Hp; reflexivity]).
    assert (q = 1) as -> by (apply (proj1 (NoDup_nth_error (f_cols rX)) (proj1 rX_wf)); [apply nth_error_Some; rewrite Hq; discriminate|rewrite Hq; reflexivity]).
    rewrite (th_H true). reflexivity.
Qed.

(** every model within 1/50 of [x*y] on these rows puts (a, b) before (a, c) *)
Example C133_example h' : models_close (f_rows rX) 3 (1 / 50) th h' ->
  exists s t i j v w, PdMethods.fit Zcell xR rotR isort (Friedman false) init0 (rargs h' true) = (s, Ok tt)
    /\ m_ovo s = Some t /\ nth_error t i = Some ("a", "b", v) /\ nth_error t j = Some ("a", "c", w) /\ i < j.
Proof.
  intros Hh. destruct (rfit_ok false th true) as (s1 & E1 & X1). destruct (rfit_ok false h' true) as (s2 & E2 & X2).
  destruct (C12_friedman_pairs Zcell xR Zcell_ok xR_ord eq_refl rotR rotR_ok isort isort_ok false init0 (rargs th true) s1 _ rX rX_wf E1 X1 (rargs_explains _ true)) as (t1 & T1 & K1 & V1 & _).
  destruct (C12_friedman_pairs Zcell xR Zcell_ok xR_ord eq_refl rotR rotR_ok isort isort_ok false init0 (rargs h' true) s2 _ rX rX_wf E2 X2 (rargs_explains _ true)) as (t2 & T2 & K2 & _).
  assert (I1 : In ("a", "b") (map fst t1)) by (rewrite K1; cbn; auto). assert (J1 : In ("a", "c") (map fst t1)) by (rewrite K1; cbn; auto).
  assert (I2 : In ("a", "b") (map fst t2)) by (rewrite K2; cbn; auto). assert (J2 : In ("a", "c") (map fst t2)) by (rewrite K2; cbn; auto).
  apply in_map_iff in I1 as ([[f1 f2] v1] & F1 & I1). injection F1 as -> ->. apply in_map_iff in J1 as ([[f1 f2] w1] & F1 & J1). injection F1 as -> ->.
  apply in_map_iff in I2 as ([[f1 f2] v2] & F2 & I2). injection F2 as -> ->. apply in_map_iff in J2 as ([[f1 f2] w2] & F2 & J2). injection F2 as -> ->.
  apply In_nth_error in I2 as (i & I2). apply In_nth_error in J2 as (j & J2).
  exists s2, t2, i, j, v2, w2. split; [exact E2|]. split; [exact T2|]. split; [exact I2|]. split; [exact J2|].
  assert (Hv : v1 = Fin (sqrt (2 / 81))%R).
  { destruct (V1 _ _ _ I1) as (p & q & Hp & Hq & _ & ->).
    assert (p = 0) as -> by (apply (proj1 (NoDup_nth_error (f_cols rX)) (proj1 rX_wf)); [apply nth_error_Some; rewrite Hp; discriminate|rewrite Hp; reflexivity]).
    assert (q = 1) as -> by (apply (proj1 (NoDup_nth_error (f_cols rX)) (proj1 rX_wf)); [apply nth_error_Some; rewrite Hq; discriminate|rewrite Hq; reflexivity]).
    rewrite (th_H false). reflexivity. }
  assert (Hw : w1 = Fin 0%R).
  { apply (C14_no_interaction_pair Zcell Zcell_ok rotR rotR_ok isort isort_ok false init0 (rargs th true) s1 th rX t1 "a" "c" w1 0 2 rX_wf E1 X1 (rargs_explains th true) T1 J1 eq_refl eq_refl).
    exists (fun _ => 0%R), th. split; [intros; lra|]. split; [intros r v _; reflexivity|]. intros r v Hl. destruct r as [|x [|y [|z [|]]]]; try discriminate Hl. reflexivity. }
  subst v1 w1.
  refine (C133_order_partial Zcell Zcell_ok rotR rotR_ok isort isort_ok init0 (rargs th true) s1 init0 (rargs h' true) s2 th h' rX (1 / 50)%R "a" "b" "a" "c" t1 t2 _ _ v2 w2 i j
            rX_wf rX_wf E1 X1 (rargs_explains _ true) E2 X2 (rargs_explains _ true) _ Hh T1 T2 I1 J1 _ I2 J2); [discriminate|].
  assert (B : (15 / 100 <= sqrt (2 / 81))%R) by (rewrite <- (sqrt_Rsqr (15 / 100)) by lra; apply sqrt_le_1_alt; unfold Rsqr; lra). lra.
Qed.
(** such a model: [x*y + z/100] *)
Example C133_example_model : models_close (f_rows rX) 3 (1 / 50) th (cell3 (fun x y z => x * y + z / 100)%R).
Proof. intros r Hr. apply made_rX in Hr as (x & y & z & -> & _ & _ & Hz). unfold th, cell3. destruct Hz as [->|[->| ->]]; apply Rabs_le; lra. Qed.

Print Assumptions C133_pairs_partial.
Print Assumptions C133_one_versus_all_partial.
Print Assumptions C133_nearly_additive_partial.
Print Assumptions C133_order_partial.
Print Assumptions C133_greenwell_partial.
Print Assumptions C133_importance_partial.
Print Assumptions C133_normalised_refuted.
