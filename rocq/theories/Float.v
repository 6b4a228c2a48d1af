(** IEEE doubles as an instance of the numbers, from the specification of floating-point
    arithmetic in the standard library (Coq.Floats.SpecFloat, binary64: 53 bits, exponent 1024,
    round to nearest even).  The order of summation is a parameter. *)
From Verif Require Import Py Num.
From Coq Require Import ZArith SpecFloat.
Open Scope nat_scope.
Open Scope list_scope.

Notation F := spec_float.
Definition f_zero : F := S754_zero false.
Definition f_one : F := S754_finite false 4503599627370496 (-52).
Definition f_isnan (x : F) : bool := match x with S754_nan => true | _ => false end.
Definition fadd : F -> F -> F := SFadd 53 1024.
Definition fsub : F -> F -> F := SFsub 53 1024.
Definition fmul : F -> F -> F := SFmul 53 1024.
Definition fdiv : F -> F -> F := SFdiv 53 1024.
Definition fsqrt : F -> F := SFsqrt 53 1024.
Definition f_ofZ (z : Z) : F := binary_normalize 53 1024 z 0 false.

Definition fl64 (sum : list F -> F) : num_ops F := {|
  n_nan := S754_nan; n_isnan := f_isnan; n_ofZ := f_ofZ;
  n_add := fadd; n_sub := fsub; n_mul := fmul; n_div := fdiv;
  n_sqrt := fsqrt; n_abs := SFabs; n_neg := SFopp; n_ltb := SFltb; n_eqb := SFeqb; n_sum := sum |}.

(** [added l x]: [x] is the sum of [l] in some order and grouping *)
Inductive added : list F -> F -> Prop :=
| added_nil : added [] f_zero
| added_one x : added [x] x
| added_two l l1 l2 x y : Permutation l (l1 ++ l2) -> added l1 x -> added l2 y -> added l (fadd x y).
(** from left to right, as numpy does for fewer than 8 numbers *)
Definition seq_sum (l : list F) : F := fold_left fadd l f_zero.

Lemma seq_sum_added l : added l (seq_sum l).
Proof.
  unfold seq_sum. assert (H : forall t l x, added l x -> added (l ++ t) (fold_left fadd t x)); [|exact (H l [] f_zero added_nil)].
  induction t as [|y t IH]; intros l0 x H; cbn [fold_left]; [rewrite app_nil_r; exact H|].
  replace (l0 ++ y :: t) with ((l0 ++ [y]) ++ t) by (rewrite <- app_assoc; reflexivity). apply IH. apply (added_two _ l0 [y]); [reflexivity|exact H|constructor].
Qed.

(** ** The order *)

(** numbers are compared by sign, exponent and mantissa *)
Definition rank (x : F) : Z * Z * Z :=
  match x with
  | S754_nan => (0, 0, 0)
  | S754_zero _ => (0, 0, 0)
  | S754_infinity s => (if s then -2 else 2, 0, 0)
  | S754_finite s m e => if s then (-1, -e, Z.neg m) else (1, e, Z.pos m)
  end%Z.
Definition lexlt (a b : Z * Z * Z) : Prop :=
  let '(a1, a2, a3) := a in let '(b1, b2, b3) := b in (a1 < b1 \/ a1 = b1 /\ (a2 < b2 \/ a2 = b2 /\ a3 < b3))%Z.

Definition lexcmp (a b : Z * Z * Z) : comparison :=
  let '(a1, a2, a3) := a in let '(b1, b2, b3) := b in
  match Z.compare a1 b1 with Eq => match Z.compare a2 b2 with Eq => Z.compare a3 b3 | c => c end | c => c end.
Lemma SFcompare_rank x y : SFcompare x y = if f_isnan x || f_isnan y then None else Some (lexcmp (rank x) (rank y)).
Proof.
  destruct x as [[]|[]| |[] m e], y as [[]|[]| |[] m' e']; try reflexivity; cbn -[Z.compare]; rewrite ?Z.compare_refl.
  destruct (Z.compare_spec e e') as [->|L|L]; [rewrite Z.compare_refl; reflexivity| |]; [rewrite (proj2 (Z.compare_gt_iff (- e) (- e'))) by lia|rewrite (proj2 (Z.compare_lt_iff (- e) (- e'))) by lia]; reflexivity.
Qed.
Lemma lexcmp_lt a b : lexcmp a b = Lt <-> lexlt a b.
Proof.
  destruct a as [[a1 a2] a3], b as [[b1 b2] b3]. cbn. destruct (Z.compare_spec a1 b1), (Z.compare_spec a2 b2), (Z.compare_spec a3 b3); split; intros; try congruence; lia.
Qed.
Lemma lexcmp_eq a b : lexcmp a b = Eq <-> a = b.
Proof.
  destruct a as [[a1 a2] a3], b as [[b1 b2] b3]. cbn. destruct (Z.compare_spec a1 b1), (Z.compare_spec a2 b2), (Z.compare_spec a3 b3); split; intros E; try congruence; injection E; lia.
Qed.
Lemma SFltb_rank x y : SFltb x y = true <-> f_isnan x = false /\ f_isnan y = false /\ lexlt (rank x) (rank y).
Proof.
  unfold SFltb. rewrite SFcompare_rank, <- lexcmp_lt. destruct (f_isnan x), (f_isnan y); cbn; try (split; [congruence|intros (? & ? & _); congruence]).
  destruct (lexcmp (rank x) (rank y)); split; intros; try tauto; try congruence; destruct H as (_ & _ & H); congruence.
Qed.
Lemma SFeqb_rank x y : f_isnan x = false -> f_isnan y = false -> (SFeqb x y = true <-> rank x = rank y).
Proof.
  intros Hx Hy. unfold SFeqb. rewrite SFcompare_rank, Hx, Hy, <- lexcmp_eq. cbn. destruct (lexcmp (rank x) (rank y)); split; congruence.
Qed.

Lemma lexlt_irrefl a : ~ lexlt a a.
Proof. destruct a as [[a1 a2] a3]. cbn. lia. Qed.
Lemma lexlt_trans a b c : lexlt a b -> lexlt b c -> lexlt a c.
Proof. destruct a as [[a1 a2] a3], b as [[b1 b2] b3], c as [[c1 c2] c3]. cbn. lia. Qed.
Lemma lexlt_total a b : lexlt a b \/ a = b \/ lexlt b a.
Proof.
  destruct a as [[a1 a2] a3], b as [[b1 b2] b3]. cbn.
  destruct (Z.lt_total a1 b1) as [?|[->|?]]; [lia| |lia]. destruct (Z.lt_total a2 b2) as [?|[->|?]]; [lia| |lia]. destruct (Z.lt_total a3 b3) as [?|[->|?]]; [lia|right; left; reflexivity|lia].
Qed.

Lemma fl64_ord sum : num_ord_ok (fl64 sum).
Proof.
  constructor; cbn [n_isnan n_nan n_ltb n_eqb fl64].
  - reflexivity.
  - intros a. apply not_true_iff_false. rewrite SFltb_rank. intros (_ & _ & H). exact (lexlt_irrefl _ H).
  - intros a b c. rewrite !SFltb_rank. intros (Ha & _ & H1) (_ & Hc & H2). repeat split; auto. eapply lexlt_trans; eassumption.
  - intros a b c Hb H1 H2. apply not_true_iff_false. apply not_true_iff_false in H1, H2. rewrite SFltb_rank in *. intros (Ha & Hc & H).
    destruct (lexlt_total (rank a) (rank b)) as [L|[E|L]]; [tauto|apply H2; rewrite <- E; tauto|]. apply H2. repeat split; auto. eapply lexlt_trans; eassumption.
  - intros a b Ha. apply not_true_iff_false. rewrite SFltb_rank. intros (H & _); congruence.
  - intros a b Hb. apply not_true_iff_false. rewrite SFltb_rank. intros (_ & H & _); congruence.
  - intros a b Ha Hb. apply eq_true_iff_eq. rewrite andb_true_iff, !negb_true_iff, (SFeqb_rank _ _ Ha Hb). rewrite <- !not_true_iff_false, !SFltb_rank. split.
    + intros E. rewrite E. split; intros (_ & _ & H); exact (lexlt_irrefl _ H).
    + intros [H1 H2]. destruct (lexlt_total (rank a) (rank b)) as [L|[E|L]]; [tauto|exact E|tauto].
Qed.

(** ** Signs *)

(** not below zero, or NaN; negative zero is excluded *)
Definition fge0 (x : F) : Prop :=
  match x with S754_nan => True | S754_zero s | S754_infinity s | S754_finite s _ _ => s = false end.

Lemma round_aux_sign s m e l : match binary_round_aux 53 1024 s m e l with S754_nan => True | S754_zero s' | S754_infinity s' | S754_finite s' _ _ => s' = s end.
Proof.
  unfold binary_round_aux. destruct (shr_fexp 53 1024 m e l) as [mrs' e']. destruct (shr_fexp 53 1024 _ e' loc_Exact) as [mrs'' e''].
  destruct (shr_m mrs''); try destruct (Zle_bool _ _); cbn; auto.
Qed.
Lemma round_aux_nonneg m e l : fge0 (binary_round_aux 53 1024 false m e l).
Proof. pose proof (round_aux_sign false m e l) as H. destruct (binary_round_aux 53 1024 false m e l); exact H. Qed.
Lemma round_nonneg m e : fge0 (binary_round 53 1024 false m e).
Proof. unfold binary_round. destruct (shl_align _ _ _). apply round_aux_nonneg. Qed.

Lemma sq_nonneg x : fge0 (fmul x x).
Proof. unfold fmul. destruct x as [s|s| |s m e]; cbn [SFmul fge0]; try (destruct s; reflexivity); auto. rewrite xorb_nilpotent. apply round_aux_nonneg. Qed.
Lemma fadd_nonneg x y : fge0 x -> fge0 y -> fge0 (fadd x y).
Proof.
  unfold fadd. destruct x as [s|s| |s m e], y as [s'|s'| |s' m' e']; cbn [SFadd fge0]; intros; subst; cbn; auto.
  apply round_nonneg.
Qed.
Lemma fdiv_nonneg x y : fge0 x -> fge0 y -> fge0 (fdiv x y).
Proof.
  unfold fdiv. destruct x as [s|s| |s m e], y as [s'|s'| |s' m' e']; cbn [SFdiv fge0]; intros; subst; cbn [xorb]; auto.
  destruct (SFdiv_core_binary 53 1024 (Z.pos m) e (Z.pos m') e') as [[q z] l]. apply round_aux_nonneg.
Qed.
Lemma fsqrt_nonneg x : fge0 x -> fge0 (fsqrt x).
Proof.
  unfold fsqrt. destruct x as [s|s| |s m e]; cbn [SFsqrt fge0]; intros; subst; cbn; auto.
  destruct (SFsqrt_core_binary 53 1024 (Z.pos m) e) as [[q z] l]. apply round_aux_nonneg.
Qed.
Lemma added_nonneg l x : added l x -> Forall fge0 l -> fge0 x.
Proof.
  induction 1 as [|x|l l1 l2 x y Hp _ IH1 _ IH2]; intros H; [reflexivity|inversion H; assumption|].
  rewrite Hp in H. apply Forall_app in H as [H1 H2]. apply fadd_nonneg; auto.
Qed.
Lemma f_ofZ_nonneg z : (0 <= z)%Z -> fge0 (f_ofZ z).
Proof. destruct z as [|z|z]; [reflexivity|intros _; apply round_nonneg|lia]. Qed.
Lemma nonneg_ge0 x : fge0 x -> f_isnan x = false -> SFleb f_zero x = true.
Proof. destruct x as [s|s| |s m e]; cbn; intros; subst; congruence. Qed.

(** ** Exact cases *)

Lemma fsub_self x : f_isnan (fsub x x) = false -> fsub x x = f_zero.
Proof.
  unfold fsub. destruct x as [s|s| |s m e]; cbn [SFsub f_isnan]; try congruence.
  - destruct s; reflexivity.
  - destruct s; cbn; congruence.
  - intros _. replace (Z.sub _ _) with 0%Z by lia. reflexivity.
Qed.
Lemma fsub_nan_self x : f_isnan (fsub x x) = true -> x = S754_nan \/ exists s, x = S754_infinity s.
Proof.
  unfold fsub. destruct x as [s|s| |s m e]; cbn [SFsub]; intros H; [destruct s; discriminate|right; eauto|left; reflexivity|].
  replace (Z.sub _ _) with 0%Z in H by lia. discriminate.
Qed.

(** the square of the triple difference of equal numbers *)
Lemma sq_triple e : f_isnan e = false -> (forall s, e <> S754_infinity s) -> fmul (fsub (fsub e e) e) (fsub (fsub e e) e) = fmul e e.
Proof.
  intros Hn Hi. rewrite (fsub_self e).
  - unfold fsub, fmul. destruct e as [s|s| |s m z]; [destruct s; reflexivity|exfalso; exact (Hi s eq_refl)|discriminate|destruct s; reflexivity].
  - apply not_true_iff_false. intros H. apply fsub_nan_self in H as [->|[s ->]]; [discriminate|]. eapply Hi; reflexivity.
Qed.

Lemma fdiv_self x : fdiv x x = f_one \/ fdiv x x = S754_nan.
Proof.
  unfold fdiv. destruct x as [s|s| |s m e]; cbn [SFdiv]; try (right; reflexivity). left.
  unfold SFdiv_core_binary. rewrite !Z.sub_diag. change (Z.min (fexp 53 1024 0) 0) with (-53)%Z. change (0 - -53)%Z with 53%Z. cbv beta iota zeta.
  assert (E : Z.div_eucl (Z.shiftl (Z.pos m) 53) (Z.pos m) = (2 ^ 53, 0)%Z).
  { rewrite Z.shiftl_mul_pow2 by lia. pose proof (Z_div_exact_full_1 (Z.pos m * 2 ^ 53) (Z.pos m)). 
    rewrite (surjective_pairing (Z.div_eucl _ _)). change (fst (Z.div_eucl (Z.pos m * 2 ^ 53) (Z.pos m))) with (Z.div (Z.pos m * 2 ^ 53) (Z.pos m)).
    change (snd (Z.div_eucl (Z.pos m * 2 ^ 53) (Z.pos m))) with (Z.modulo (Z.pos m * 2 ^ 53) (Z.pos m)).
    rewrite (Z.mul_comm (Z.pos m)), Z.div_mul, Z.mod_mul by lia. reflexivity. }
  rewrite E. rewrite xorb_nilpotent. unfold new_location, new_location_even, new_location_odd. destruct (Z.even (Z.pos m)); vm_compute; reflexivity.
Qed.
