(** Subtraction, division and multiplication of doubles are monotone. *)
From Verif Require Import Py Num Float FloatRound FloatMono.
From Coq Require Import ZArith Zpower SpecFloat Lia Bool.
Open Scope Z_scope.

(** ** Exact values *)
Definition finite (x : F) : Prop := match x with S754_zero _ => True | S754_finite _ m e => bnd m e = true | _ => False end.
(** [x] in units of [2 ^ c] *)
Definition units (x : F) (c : Z) : Z := match x with S754_finite s m e => cond_Zopp s (Zpos m * 2 ^ (e - c)) | _ => 0 end.
Definition above (x : F) (c : Z) : Prop := match x with S754_finite _ _ e => c <= e | _ => True end.
(** at most, in the order of the doubles *)
Definition fle (x y : F) : Prop := f_isnan x = false /\ f_isnan y = false /\ SFltb y x = false.

Lemma finite_above x : finite x -> above x (-1074).
Proof. destruct x; cbn; auto. intros H. apply bnd_spec in H. lia. Qed.
Lemma finite_num x : finite x -> f_isnan x = false.
Proof. destruct x; cbn; intros []; reflexivity. Qed.

Lemma fle_rank x y : f_isnan x = false -> f_isnan y = false -> (fle x y <-> ~ lexlt (rank y) (rank x)).
Proof.
  intros Hx Hy. unfold fle. pose proof (SFltb_rank y x) as H. destruct (SFltb y x); split; intros A; try (destruct A as (_ & _ & A); discriminate); auto.
  - destruct (proj1 H eq_refl) as (_ & _ & B). tauto.
  - intros B. assert (false = true) by tauto. discriminate.
Qed.
Lemma fle_refl x : f_isnan x = false -> fle x x.
Proof. intros H. apply fle_rank; auto. apply lexlt_irrefl. Qed.
Lemma fle_trans x y z : fle x y -> fle y z -> fle x z.
Proof.
  intros H1 H2. pose proof H1 as (A & B & _). pose proof H2 as (_ & C & _). apply fle_rank in H1; auto. apply fle_rank in H2; auto. apply fle_rank; auto.
  intros L. destruct (lexlt_total (rank x) (rank y)) as [L1|[E|L1]]; [|congruence|tauto]. apply H2. eapply lexlt_trans; eassumption.
Qed.
Lemma fle_antisym x y : fle x y -> fle y x -> rank x = rank y.
Proof.
  intros H1 H2. pose proof H1 as (A & B & _). apply fle_rank in H1; auto. apply fle_rank in H2; auto.
  destruct (lexlt_total (rank x) (rank y)) as [L|[E|L]]; tauto.
Qed.
Lemma fle_same x y x' y' : rank x = rank x' -> rank y = rank y' -> f_isnan x' = false -> f_isnan y' = false -> fle x y -> fle x' y'.
Proof. intros E1 E2 Hx Hy H. pose proof H as (A & B & _). apply fle_rank in H; auto. apply fle_rank; auto. congruence. Qed.
Lemma fle_total x y : f_isnan x = false -> f_isnan y = false -> fle x y \/ fle y x.
Proof. intros Hx Hy. destruct (lexlt_total (rank x) (rank y)) as [L|[E|L]]; [left|left|right]; apply fle_rank; auto; [intros B|rewrite E; apply lexlt_irrefl|intros B]; apply (lexlt_irrefl (rank x)); eapply lexlt_trans; eassumption. Qed.
Lemma fge0_fle x : f_isnan x = false -> fge0 x -> fle f_zero x.
Proof. intros H H0. split; [reflexivity|]. split; [exact H|]. destruct x as [s|s| |s m e]; cbn in *; subst; reflexivity || discriminate. Qed.
Lemma rank_zero x : rank x = rank f_zero -> f_isnan x = false -> exists s, x = S754_zero s.
Proof. destruct x as [s|s| |s m e]; cbn; intros E H; try discriminate; eauto; destruct s; discriminate. Qed.

(** ** Rounding integers *)
Lemma round_aux_opp m e l : 0 <= m -> rnd_aux true m e l = SFopp (rnd_aux false m e l).
Proof.
  intros _. unfold binary_round_aux. destruct (shr_fexp 53 1024 m e l) as [mrs' e']. destruct (shr_fexp 53 1024 _ e' loc_Exact) as [mrs'' e''].
  destruct (shr_m mrs''); try destruct (Zle_bool _ _); reflexivity.
Qed.
Lemma normalize_opp z e : z <> 0 -> binary_normalize 53 1024 (- z) e false = SFopp (binary_normalize 53 1024 z e false).
Proof.
  destruct z as [|p|p]; intros H; [lia| |]; cbn [Z.opp binary_normalize]; unfold binary_round; destruct (shl_align _ _ _) as [a b];
    rewrite round_aux_opp by lia; [reflexivity|]. destruct (rnd_aux false (Z.pos a) b loc_Exact) as [s|s| |s m0 e0]; cbn; rewrite ?negb_involutive; reflexivity.
Qed.
Lemma rank_opp x : rank (SFopp x) = match rank x with (a, b, c) => (- a, - b, - c) end.
Proof. destruct x as [s|[]| |[] m e]; cbn; try reflexivity. rewrite Z.opp_involutive. reflexivity. Qed.
Lemma fle_opp x y : fle x y -> fle (SFopp y) (SFopp x).
Proof.
  intros H. pose proof H as (A & B & _). apply fle_rank in H; auto. apply fle_rank; [destruct y; auto|destruct x; auto|].
  rewrite !rank_opp. destruct (rank x) as [[a b] c], (rank y) as [[a' b'] c']. unfold lexlt in *. lia.
Qed.

(** a positive integer times a power of two, as a quotient *)
Lemma round_pos p e : exists a b, binary_round 53 1024 false p e = rnd_aux false (Zpos a) b loc_Exact /\ b <= e /\ b <= fx (Zdigits2 (Zpos a) + b) /\ Zpos a = Zpos p * 2 ^ (e - b).
Proof.
  unfold binary_round. destruct (align_spec p e (fx (Z.pos (digits2_pos p) + e))) as (a & b & -> & Hb & Ha). exists a, b. split; [reflexivity|]. split; [lia|]. split; [|exact Ha].
  assert (Hd : Zdigits2 (Z.pos a) + b = Zdigits2 (Z.pos p) + e).
  { pose proof (digits_bounds p) as [D1 D2]. assert (D0 : 0 < Zdigits2 (Z.pos p)) by reflexivity.
    assert (L1 : Zdigits2 (Z.pos a) <= Zdigits2 (Z.pos p) + (e - b)).
    { apply digits_le; [lia|lia|]. rewrite Ha, Z.pow_add_r by lia. apply Z.mul_lt_mono_pos_r; [apply Z.pow_pos_nonneg; lia|exact D2]. }
    assert (L2 : Zdigits2 (Z.pos p) - 1 + (e - b) < Zdigits2 (Z.pos a)).
    { apply digits_ge; [lia|]. rewrite Ha, Z.pow_add_r by lia. apply Z.mul_le_mono_nonneg_r; [apply Z.pow_nonneg; lia|exact D1]. }
    lia. }
  rewrite Hd. change (Zdigits2 (Z.pos p)) with (Z.pos (digits2_pos p)). lia.
Qed.
Lemma round_aux_num s m e l : 0 <= m -> e <= fx (Zdigits2 m + e) -> f_isnan (rnd_aux s m e l) = false.
Proof.
  intros Hm He. destruct (round_steps m e l Hm He) as (m2 & _ & _ & _ & ->). destruct (m2 =? 0); [reflexivity|].
  destruct (m2 <? 2 ^ 53); [destruct (_ <=? 971)|destruct (_ <=? 971)]; reflexivity.
Qed.
Lemma pos_of_1 A : pos_of A 1 = loc_Exact.
Proof. unfold pos_of. rewrite Z.mod_1_r. reflexivity. Qed.
Lemma exact_mono a b a' b' : 0 <= a -> 0 <= a' -> b <= fx (Zdigits2 a + b) -> b' <= fx (Zdigits2 a' + b') ->
  a * 2 ^ (b - Z.min b b') <= a' * 2 ^ (b' - Z.min b b') -> SFltb (rnd_aux false a' b' loc_Exact) (rnd_aux false a b loc_Exact) = false.
Proof.
  intros H0 H0' H1 H1' H. pose proof (round_mono a 1 b a' 1 b') as E. rewrite !Z.div_1_r, !pos_of_1 in E. apply E; try lia; try assumption.
  unfold qle. rewrite !Z.mul_1_r. exact H.
Qed.

Lemma round_pos_num p e : f_isnan (binary_round 53 1024 false p e) = false.
Proof. destruct (round_pos p e) as (a & b & -> & _ & Hb & _). apply round_aux_num; [lia|exact Hb]. Qed.
Lemma round_pos_mono p e p' e' : Zpos p * 2 ^ (e - Z.min e e') <= Zpos p' * 2 ^ (e' - Z.min e e') ->
  fle (binary_round 53 1024 false p e) (binary_round 53 1024 false p' e').
Proof.
  intros H. split; [apply round_pos_num|]. split; [apply round_pos_num|].
  destruct (round_pos p e) as (a & b & -> & Hb & Hf & Ha). destruct (round_pos p' e') as (a' & b' & -> & Hb' & Hf' & Ha').
  apply exact_mono; try lia; try assumption. rewrite Ha, Ha'. set (c := Z.min e e') in *. set (d := Z.min b b').
  assert (Hd : d <= c) by lia. rewrite <- !Z.mul_assoc, <- !Z.pow_add_r by lia.
  replace (e - b + (b - d)) with ((e - c) + (c - d)) by lia. replace (e' - b' + (b' - d)) with ((e' - c) + (c - d)) by lia.
  rewrite !Z.pow_add_r, !Z.mul_assoc by lia. apply Z.mul_le_mono_nonneg_r; [apply Z.pow_nonneg; lia|exact H].
Qed.
Lemma normalize_num z e : f_isnan (binary_normalize 53 1024 z e false) = false.
Proof.
  destruct z as [|p|p]; [reflexivity|apply round_pos_num|]. change (Z.neg p) with (- Z.pos p). rewrite normalize_opp by lia.
  pose proof (round_pos_num p e) as H. cbn [binary_normalize]. destruct (binary_round 53 1024 false p e); auto.
Qed.
Lemma normalize_nonneg z e : 0 <= z -> fle f_zero (binary_normalize 53 1024 z e false).
Proof. intros H. apply fge0_fle; [apply normalize_num|]. destruct z; [reflexivity|apply round_nonneg|lia]. Qed.
Lemma normalize_nonpos z e : z <= 0 -> fle (binary_normalize 53 1024 z e false) f_zero.
Proof.
  intros H. destruct (Z.eq_dec z 0) as [->|N]; [apply fle_refl; reflexivity|]. replace z with (- - z) by lia. rewrite normalize_opp by lia.
  apply (fle_same (SFopp (binary_normalize 53 1024 (- z) e false)) (SFopp f_zero)); try reflexivity.
  - pose proof (normalize_num (- z) e). destruct (binary_normalize 53 1024 (- z) e false); auto.
  - apply fle_opp, normalize_nonneg. lia.
Qed.

(** rounding [z * 2 ^ e] is monotone *)
Theorem normalize_mono z e z' e' : z * 2 ^ (e - Z.min e e') <= z' * 2 ^ (e' - Z.min e e') ->
  fle (binary_normalize 53 1024 z e false) (binary_normalize 53 1024 z' e' false).
Proof.
  intros H. assert (P1 : 0 < 2 ^ (e - Z.min e e')) by (apply Z.pow_pos_nonneg; lia). assert (P2 : 0 < 2 ^ (e' - Z.min e e')) by (apply Z.pow_pos_nonneg; lia).
  destruct (Z.le_gt_cases z 0) as [Hz|Hz]; [destruct (Z.le_gt_cases 0 z') as [Hz'|Hz']|].
  - eapply fle_trans; [apply normalize_nonpos, Hz|apply normalize_nonneg, Hz'].
  - assert (z < 0) by nia. replace z with (- - z) by lia. replace z' with (- - z') by lia. rewrite (normalize_opp (- z)), (normalize_opp (- z')) by lia. apply fle_opp.
    destruct z as [|p|p]; try lia. destruct z' as [|p'|p']; try lia. cbn [Z.opp binary_normalize]. apply round_pos_mono. rewrite Z.min_comm. lia.
  - assert (0 < z') by nia. destruct z as [|p|p]; try lia. destruct z' as [|p'|p']; try lia. cbn [binary_normalize]. apply round_pos_mono. exact H.
Qed.
Lemma normalize_scale z e c : c <= e -> rank (binary_normalize 53 1024 z e false) = rank (binary_normalize 53 1024 (z * 2 ^ (e - c)) c false).
Proof.
  intros Hc. apply fle_antisym; apply normalize_mono; [replace (Z.min e c) with c by lia|replace (Z.min c e) with c by lia];
    rewrite Z.sub_diag, Z.pow_0_r; lia.
Qed.

(** doubles are not changed by rounding *)
Lemma rne_1 A : rne A 1 = A.
Proof. unfold rne. rewrite pos_of_1. cbn. apply Z.div_1_r. Qed.
Lemma round_pos_id m e : bnd m e = true -> binary_round 53 1024 false m e = S754_finite false m e.
Proof.
  intros H. destruct (bnd_spec m e H) as (C1 & C2 & C3 & C4 & C5). unfold binary_round.
  replace (shl_align m e (fx (Z.pos (digits2_pos m) + e))) with (m, e).
  - rewrite <- (Z.div_1_r (Z.pos m)), <- (pos_of_1 (Z.pos m)). destruct (round_value (Z.pos m) 1 e) as [_ ->]; try lia; rewrite Z.div_1_r in *; [rewrite <- C1; lia|].
    rewrite <- C1, Z.sub_diag, Z.pow_0_r, Z.mul_1_r, rne_1. unfold pack. change (Z.pos m =? 0) with false. cbv iota.
    rewrite (proj2 (Z.ltb_lt _ _)) by exact C4. rewrite (proj2 (Z.leb_le e 971)) by exact C2. reflexivity.
  - change (Z.pos (digits2_pos m)) with (Zdigits2 (Z.pos m)). rewrite <- C1. unfold shl_align. rewrite Z.sub_diag. reflexivity.
Qed.
Lemma normalize_id x c : finite x -> above x c -> rank (binary_normalize 53 1024 (units x c) c false) = rank x.
Proof.
  destruct x as [s|s| |s m e]; cbn [finite above units]; intros Hf Hc; try contradiction; [reflexivity|].
  assert (E : rank (binary_normalize 53 1024 (Z.pos m * 2 ^ (e - c)) c false) = rank (S754_finite false m e)).
  { rewrite <- normalize_scale by exact Hc. cbn [binary_normalize]. rewrite round_pos_id by exact Hf. reflexivity. }
  destruct s; cbn [cond_Zopp]; [|exact E]. assert (0 < 2 ^ (e - c)) by (apply Z.pow_pos_nonneg; lia).
  rewrite normalize_opp, rank_opp, E by lia. reflexivity.
Qed.

(** ** Order and exact values *)
Lemma fle_units x y c : finite x -> finite y -> above x c -> above y c -> (fle x y <-> units x c <= units y c).
Proof.
  intros Hx Hy Ax Ay.
  assert (H : forall a b, finite a -> finite b -> above a c -> above b c -> units a c <= units b c -> fle a b).
  { intros a b Ha Hb Aa Ab L. apply (fle_same (binary_normalize 53 1024 (units a c) c false) (binary_normalize 53 1024 (units b c) c false)); auto using normalize_id, finite_num.
    apply normalize_mono. rewrite Z.min_id, Z.sub_diag, Z.pow_0_r. lia. }
  split; [|apply H; assumption]. intros L. destruct (Z.le_gt_cases (units x c) (units y c)) as [|Hgt]; [assumption|]. exfalso.
  assert (L' : fle y x) by (apply H; auto; lia). pose proof (fle_antisym _ _ L L') as E. clear - E Hgt Ax Ay.
  destruct x as [s|s| |s m e], y as [s'|s'| |s' m' e']; cbn in *; try lia; try (destruct s; discriminate); try (destruct s'; discriminate);
    try (destruct s, s'; discriminate); destruct s; try destruct s'; try discriminate; injection E; intros; subst; cbn in *; try lia;
    assert (e = e') by lia; subst; lia.
Qed.

(** ** Subtraction *)
Lemma sub_rank x y c : finite x -> finite y -> above x c -> above y c -> rank (fsub x y) = rank (binary_normalize 53 1024 (units x c - units y c) c false) /\ f_isnan (fsub x y) = false.
Proof.
  intros Hx Hy Ax Ay. destruct x as [s|s| |s m e]; try contradiction; destruct y as [s'|s'| |s' m' e']; try contradiction.
  - cbn [units]. split; [|destruct s, s'; reflexivity]. destruct s, s'; reflexivity.
  - split; [|reflexivity]. transitivity (rank (S754_finite (negb s') m' e')); [reflexivity|].
    rewrite <- (normalize_id (S754_finite (negb s') m' e') c) by assumption. do 2 f_equal. cbn [units]. destruct s'; cbn [negb cond_Zopp]; lia.
  - split; [|destruct s; reflexivity]. transitivity (rank (S754_finite s m e)); [reflexivity|].
    rewrite <- (normalize_id (S754_finite s m e) c) by assumption. do 2 f_equal. cbn [units]. lia.
  - cbn [above] in *. unfold fsub, SFsub. destruct (align_spec m e (Z.min e e')) as (a1 & b1 & -> & Hb1 & Ha1). destruct (align_spec m' e' (Z.min e e')) as (a2 & b2 & -> & Hb2 & Ha2). cbn [fst].
    split; [|apply normalize_num]. rewrite (normalize_scale _ _ c) by lia. do 2 f_equal.
    assert (E1 : Z.pos m * 2 ^ (e - c) = Z.pos a1 * 2 ^ (Z.min e e' - c)).
    { rewrite Ha1, <- Z.mul_assoc, <- Z.pow_add_r by lia. do 2 f_equal. lia. }
    assert (E2 : Z.pos m' * 2 ^ (e' - c) = Z.pos a2 * 2 ^ (Z.min e e' - c)).
    { rewrite Ha2, <- Z.mul_assoc, <- Z.pow_add_r by lia. do 2 f_equal. lia. }
    cbn [units]. rewrite E1, E2. destruct s, s'; cbn [cond_Zopp]; lia.
Qed.
Lemma sub_mono x y z : finite x -> finite y -> finite z -> fle x y -> fle (fsub x z) (fsub y z).
Proof.
  intros Hx Hy Hz L. pose proof (finite_above x Hx) as Ax. pose proof (finite_above y Hy) as Ay. pose proof (finite_above z Hz) as Az.
  destruct (sub_rank x z (-1074) Hx Hz Ax Az) as [E1 N1]. destruct (sub_rank y z (-1074) Hy Hz Ay Az) as [E2 N2].
  apply (fle_same (binary_normalize 53 1024 (units x (-1074) - units z (-1074)) (-1074) false) (binary_normalize 53 1024 (units y (-1074) - units z (-1074)) (-1074) false)); auto.
  apply (fle_units x y (-1074) Hx Hy Ax Ay) in L. apply normalize_mono. rewrite Z.min_id, Z.sub_diag, Z.pow_0_r. lia.
Qed.
Lemma sub_mono_r x y z : finite x -> finite y -> finite z -> fle x y -> fle (fsub z y) (fsub z x).
Proof.
  intros Hx Hy Hz L. pose proof (finite_above x Hx) as Ax. pose proof (finite_above y Hy) as Ay. pose proof (finite_above z Hz) as Az.
  destruct (sub_rank z x (-1074) Hz Hx Az Ax) as [E1 N1]. destruct (sub_rank z y (-1074) Hz Hy Az Ay) as [E2 N2].
  apply (fle_same (binary_normalize 53 1024 (units z (-1074) - units y (-1074)) (-1074) false) (binary_normalize 53 1024 (units z (-1074) - units x (-1074)) (-1074) false)); auto.
  apply (fle_units x y (-1074) Hx Hy Ax Ay) in L. apply normalize_mono. rewrite Z.min_id, Z.sub_diag, Z.pow_0_r. lia.
Qed.
(** the difference of two different doubles is not rounded to zero *)
Lemma sub_pos x y : finite x -> finite y -> fle x y -> ~ fle y x -> exists m e, fsub y x = S754_finite false m e \/ fsub y x = S754_infinity false.
Proof.
  intros Hx Hy L N. pose proof (finite_above x Hx) as Ax. pose proof (finite_above y Hy) as Ay.
  destruct (sub_rank y x (-1074) Hy Hx Ay Ax) as [E1 N1]. rewrite (fle_units y x (-1074)) in N by assumption.
  assert (L1 : fle (S754_finite false 1 (-1074)) (fsub y x)).
  { apply (fle_same (binary_normalize 53 1024 1 (-1074) false) (binary_normalize 53 1024 (units y (-1074) - units x (-1074)) (-1074) false)); auto.
    apply normalize_mono. rewrite Z.min_id, Z.sub_diag, Z.pow_0_r. lia. }
  destruct L1 as (_ & _ & L1). destruct (fsub y x) as [s|s| |s m e]; try discriminate; (destruct s; [discriminate|]); [exists xH, 0|exists m, e]; auto.
Qed.

(** ** Division by a positive double *)
Lemma new_location_pos D r A : 0 < D -> r = A mod D -> new_location D r = pos_of A D.
Proof.
  intros HD ->. unfold new_location, new_location_even, new_location_odd, pos_of. pose proof (Z.mod_pos_bound A D HD). set (r := A mod D) in *.
  assert (Eb : Zeq_bool r 0 = (r =? 0)) by (destruct (Z.eqb_spec r 0) as [->|N]; [reflexivity|]; apply not_true_iff_false; intros E; apply Zeq_bool_eq in E; contradiction).
  destruct (Z.even D) eqn:Ev; rewrite Eb; [reflexivity|]. destruct (r =? 0); [reflexivity|]. f_equal.
  assert (Ho : 2 * r <> D) by (intros E; rewrite <- E, Z.even_mul in Ev; discriminate).
  destruct (Z.compare_spec (2 * r) D); destruct (Z.compare_spec (2 * r + 1) D); try reflexivity; lia.
Qed.
(** the quotient of mantissas that is rounded *)
Lemma div_core m e m' e' : exists A q e1, SFdiv_core_binary 53 1024 (Zpos m) e (Zpos m') e' = (q, e1, pos_of A (Zpos m')) /\ q = A / Zpos m'
  /\ (e1 <= e - e' /\ (-1074 <= e - e' -> -1074 <= e1)) /\ A = Zpos m * 2 ^ (e - e' - e1) /\ e1 <= fx (Zdigits2 q + e1).
Proof.
  unfold SFdiv_core_binary. set (d := Zdigits2 (Z.pos m) + e - (Zdigits2 (Z.pos m') + e')). set (e1 := Z.min (fx d) (e - e')). set (s := e - e' - e1).
  assert (Hs : 0 <= s) by lia. set (A := Z.pos m * 2 ^ s).
  replace (match s with Z0 => Z.pos m | Zpos _ => Z.shiftl (Z.pos m) s | Zneg _ => 0 end) with A.
  2: { unfold A. destruct s as [|p|p] eqn:E; [rewrite Z.pow_0_r; lia|rewrite Z.shiftl_mul_pow2 by lia; reflexivity|lia]. }
  assert (HA : 0 <= A) by (unfold A; apply Z.mul_nonneg_nonneg; [lia|apply Z.pow_nonneg; lia]).
  exists A, (A / Z.pos m'), e1. split; [|split; [reflexivity|]; split; [split; [lia|intros; unfold e1; rewrite fx_def; lia]|]; split; [reflexivity|]].
  - unfold Z.div. pose proof (Z_div_mod A (Z.pos m')) as Hd. destruct (Z.div_eucl A (Z.pos m')) as [q r] eqn:E. f_equal. apply new_location_pos; [lia|].
    unfold Z.modulo. rewrite E. reflexivity.
  - pose proof (digits_bounds m) as [D1 _]. pose proof (digits_bounds m') as [_ D2]. assert (D0 : 0 < Zdigits2 (Z.pos m)) by reflexivity. assert (D0' : 0 < Zdigits2 (Z.pos m')) by reflexivity.
    enough (d <= Zdigits2 (A / Z.pos m') + e1) by (rewrite fx_def in *; unfold e1 at 1; rewrite fx_def; lia).
    destruct (Z.le_gt_cases (Zdigits2 (Z.pos m) + s) (Zdigits2 (Z.pos m'))) as [Hle|Hgt].
    + assert (0 <= Zdigits2 (A / Z.pos m')) by (apply digits_nonneg, Z.div_pos; lia). unfold d, s in *. lia.
    + enough (Zdigits2 (Z.pos m) + s - Zdigits2 (Z.pos m') - 1 < Zdigits2 (A / Z.pos m')) by (unfold d, s in *; lia).
      apply digits_ge; [lia|]. apply Z.div_le_lower_bound; [lia|].
      apply Z.le_trans with (2 ^ Zdigits2 (Z.pos m') * 2 ^ (Zdigits2 (Z.pos m) + s - Zdigits2 (Z.pos m') - 1)); [apply Z.mul_le_mono_nonneg_r; [apply Z.pow_nonneg; lia|lia]|].
      rewrite <- Z.pow_add_r by lia. replace (Zdigits2 (Z.pos m') + (Zdigits2 (Z.pos m) + s - Zdigits2 (Z.pos m') - 1)) with ((Zdigits2 (Z.pos m) - 1) + s) by lia.
      rewrite Z.pow_add_r by lia. unfold A. apply Z.mul_le_mono_nonneg_r; [apply Z.pow_nonneg; lia|exact D1].
Qed.
Lemma div_mono x y m e : finite x -> finite y -> fge0 x -> fge0 y -> fle x y -> fle (fdiv x (S754_finite false m e)) (fdiv y (S754_finite false m e)).
Proof.
  intros Hx Hy Gx Gy L.
  assert (Hnum : forall z, finite z -> fge0 z -> f_isnan (fdiv z (S754_finite false m e)) = false).
  { intros [s|s| |s mz ez] Hz Gz; try contradiction; [reflexivity|]. cbn in Gz. subst s. unfold fdiv, SFdiv.
    destruct (div_core mz ez m e) as (A & q & e1 & -> & -> & _ & -> & He). apply round_aux_num; [|exact He]. apply Z.div_pos; [|lia]. apply Z.mul_nonneg_nonneg; [lia|apply Z.pow_nonneg; lia]. }
  assert (Hge : forall z, fge0 z -> fge0 (fdiv z (S754_finite false m e))) by (intros z Hz; apply fdiv_nonneg; [exact Hz|reflexivity]).
  destruct x as [s|s| |s mx ex]; try contradiction; [apply (fle_same f_zero (fdiv y (S754_finite false m e))); auto; apply fge0_fle; auto|].
  destruct y as [s'|s'| |s' my ey]; try contradiction; [cbn in Gx; subst s; destruct L as (_ & _ & L); discriminate|].
  cbn in Gx, Gy. subst s s'. split; [apply Hnum; auto; reflexivity|]. split; [apply Hnum; auto; reflexivity|].
  unfold fdiv, SFdiv. destruct (div_core mx ex m e) as (A & q & e1 & -> & -> & Ha & -> & He). destruct (div_core my ey m e) as (A' & q' & e1' & -> & -> & Ha' & -> & He').
  cbn [xorb]. apply round_mono; try lia; try assumption; try (apply Z.mul_nonneg_nonneg; [lia|apply Z.pow_nonneg; lia]).
  apply (fle_units _ _ (Z.min ex ey)) in L; try assumption; try (cbn [above]; lia). cbn [units cond_Zopp] in L. unfold qle. set (c := Z.min e1 e1').
  rewrite !(Z.mul_comm _ (Z.pos m)), <- !Z.mul_assoc. apply Z.mul_le_mono_nonneg_l; [lia|]. rewrite <- !Z.pow_add_r by lia.
  replace (ex - e - e1 + (e1 - c)) with ((ex - Z.min ex ey) + (Z.min ex ey - e - c)) by lia.
  replace (ey - e - e1' + (e1' - c)) with ((ey - Z.min ex ey) + (Z.min ex ey - e - c)) by lia.
  rewrite !Z.pow_add_r, !Z.mul_assoc by lia. apply Z.mul_le_mono_nonneg_r; [apply Z.pow_nonneg; lia|exact L].
Qed.

(** ** Multiplication by a non-negative double *)
Lemma mul_digits m e m' e' : bnd m e = true -> bnd m' e' = true -> e + e' <= fx (Zdigits2 (Zpos (m * m')) + (e + e')).
Proof.
  intros H H'. destruct (bnd_spec m e H) as (C1 & C2 & C3 & C4 & C5). destruct (bnd_spec m' e' H') as (C1' & C2' & C3' & C4' & C5').
  pose proof (digits_bounds m) as [D1 _]. pose proof (digits_bounds m') as [D1' _]. assert (D0 : 0 < Zdigits2 (Z.pos m)) by reflexivity. assert (D0' : 0 < Zdigits2 (Z.pos m')) by reflexivity.
  assert (L : Zdigits2 (Z.pos m) - 1 + (Zdigits2 (Z.pos m') - 1) < Zdigits2 (Z.pos (m * m'))).
  { apply digits_ge; [lia|]. rewrite Z.pow_add_r by lia. rewrite Pos2Z.inj_mul. apply Z.mul_le_mono_nonneg; try lia; apply Z.pow_nonneg; lia. }
  rewrite fx_def in *. lia.
Qed.
Lemma mul_mono x y w : finite x -> finite y -> finite w -> fge0 x -> fge0 y -> fge0 w -> fle x y -> fle (fmul x w) (fmul y w).
Proof.
  intros Hx Hy Hw Gx Gy Gw L.
  assert (Hnum : forall z, finite z -> f_isnan (fmul z w) = false).
  { intros [s|s| |s mz ez] Hz; try contradiction; destruct w as [s'|s'| |s' mw ew]; try contradiction; try reflexivity. unfold fmul, SFmul. apply round_aux_num; [lia|]. apply mul_digits; assumption. }
  assert (Hge : forall z, finite z -> fge0 z -> fge0 (fmul z w)).
  { intros [s|s| |s mz ez] Hz Gz; try contradiction; destruct w as [s'|s'| |s' mw ew]; try contradiction; cbn in Gz, Gw |- *; subst; try reflexivity. apply round_aux_nonneg. }
  destruct x as [s|s| |s mx ex]; try contradiction.
  { apply (fle_same f_zero (fmul y w)); [destruct w; try contradiction; reflexivity|reflexivity|apply Hnum; exact I|apply Hnum; exact Hy|]. apply fge0_fle; auto. }
  destruct w as [s'|s'| |s' mw ew]; try contradiction.
  { split; [reflexivity|]. split; [destruct y; try contradiction; reflexivity|]. destruct y; try contradiction; reflexivity. }
  destruct y as [t|t| |t my ey]; try contradiction; [cbn in Gx; subst s; destruct L as (_ & _ & L); discriminate|].
  cbn in Gx, Gy, Gw. subst s t s'. split; [apply Hnum; assumption|]. split; [apply Hnum; assumption|]. unfold fmul, SFmul. cbn [xorb].
  pose proof (mul_digits mx ex mw ew Hx Hw) as Q1. pose proof (mul_digits my ey mw ew Hy Hw) as Q2.
  apply exact_mono; try lia; try assumption.
  apply (fle_units _ _ (Z.min ex ey)) in L; try assumption; try (cbn [above]; lia). cbn [units cond_Zopp] in L.
  replace (ex + ew - Z.min (ex + ew) (ey + ew)) with (ex - Z.min ex ey) by lia. replace (ey + ew - Z.min (ex + ew) (ey + ew)) with (ey - Z.min ex ey) by lia.
  rewrite !Pos2Z.inj_mul, !(Z.mul_comm _ (Z.pos mw)), <- !Z.mul_assoc. apply Z.mul_le_mono_nonneg_l; [lia|exact L].
Qed.
Lemma mul_one w : finite w -> fmul f_one w = w.
Proof.
  destruct w as [s|s| |s m e]; intros H; try contradiction; [destruct s; reflexivity|]. unfold fmul, SFmul, f_one. replace (xorb false s) with s by (destruct s; reflexivity).
  destruct (bnd_spec m e H) as (C1 & C2 & C3 & C4 & C5). pose proof (digits_bounds m) as [D1 D2]. assert (D0 : 0 < Zdigits2 (Z.pos m)) by reflexivity.
  set (A := Z.pos (4503599627370496 * m)). assert (EA : A = Z.pos m * 2 ^ 52) by (unfold A; rewrite Pos2Z.inj_mul; change (Z.pos 4503599627370496) with (2 ^ 52); ring).
  assert (Hd : Zdigits2 A = Zdigits2 (Z.pos m) + 52).
  { assert (L1 : Zdigits2 A <= Zdigits2 (Z.pos m) + 52) by (apply digits_le; [unfold A; lia|lia|]; rewrite EA, Z.pow_add_r by lia; apply Z.mul_lt_mono_pos_r; [reflexivity|exact D2]).
    assert (L2 : Zdigits2 (Z.pos m) - 1 + 52 < Zdigits2 A) by (apply digits_ge; [lia|]; rewrite EA, Z.pow_add_r by lia; apply Z.mul_le_mono_nonneg_r; [apply Z.pow_nonneg; lia|exact D1]). lia. }
  rewrite <- (Z.div_1_r A), <- (pos_of_1 A). destruct (round_value A 1 (-52 + e)) as [_ ->]; [unfold A; lia|lia|rewrite Z.div_1_r, Hd; replace (Zdigits2 (Z.pos m) + 52 + (-52 + e)) with (Zdigits2 (Z.pos m) + e) by lia; rewrite <- C1; lia|].
  rewrite Z.div_1_r, Hd. replace (Zdigits2 (Z.pos m) + 52 + (-52 + e)) with (Zdigits2 (Z.pos m) + e) by lia. rewrite <- C1. replace (e - (-52 + e)) with 52 by lia.
  assert (Er : rne A (1 * 2 ^ 52) = Z.pos m) by (unfold rne; rewrite EA, Z.mul_1_l, Z.div_mul, pos_exact by lia; reflexivity).
  rewrite Er. unfold pack. change (Z.pos m =? 0) with false. cbv iota. rewrite (proj2 (Z.ltb_lt _ _)) by exact C4. rewrite (proj2 (Z.leb_le e 971)) by exact C2. reflexivity.
Qed.

(** ** Results are doubles *)
Lemma pack_finite A D e : 0 <= A -> 0 < D -> let e1 := fx (Zdigits2 (A / D) + e) in e <= e1 ->
  forall s, match pack s (rne A (D * 2 ^ (e1 - e))) e1 with S754_finite _ m e' => bnd m e' = true | _ => True end.
Proof.
  intros HA HD e1 He s. destruct (round_value A D e HA HD He) as [B _]. fold e1 in B. set (m2 := rne A (D * 2 ^ (e1 - e))).
  assert (Hlow : -1074 <= e1) by (unfold e1; rewrite fx_def; lia).
  assert (Hb : forall m e', Zpos m < 2 ^ 53 -> -1074 <= e' <= 971 -> (-1074 < e' -> 2 ^ 52 <= Zpos m) -> bnd m e' = true).
  { intros m e' Hm He' Hn. unfold bounded, canonical_mantissa. apply andb_true_iff. split; [|apply Zle_imp_le_bool; lia].
    change (Z.pos (digits2_pos m)) with (Zdigits2 (Z.pos m)). rewrite fx_def. assert (Zdigits2 (Z.pos m) <= 53) by (apply digits_le; lia).
    replace (Z.max (Zdigits2 (Z.pos m) + e' - 53) (-1074)) with e'; [unfold Zeq_bool; rewrite Z.compare_refl; reflexivity|].
    destruct (Z.eq_dec e' (-1074)) as [->|]; [lia|]. assert (52 < Zdigits2 (Z.pos m)) by (apply digits_ge; [lia|apply Hn; lia]). lia. }
  assert (Hn : -1074 < e1 -> 2 ^ 52 <= m2).
  { intros Hgt. apply Z.le_trans with (A / (D * 2 ^ (e1 - e))); [|destruct (rne_near A (D * 2 ^ (e1 - e))); unfold m2; lia].
    assert (Hk : 0 < 2 ^ (e1 - e)) by (apply Z.pow_pos_nonneg; lia). rewrite <- Z.div_div by lia. apply Z.div_le_lower_bound; [exact Hk|].
    assert (Hm' : 0 <= A / D) by (apply Z.div_pos; lia). destruct (A / D) as [|p|p] eqn:Em; [exfalso; unfold e1 in *; rewrite fx_def in *; cbn [Zdigits2] in *; lia| |lia].
    pose proof (digits_bounds p) as [D1 _]. refine (Z.le_trans _ _ _ _ D1). rewrite <- Z.pow_add_r by lia. apply Z.pow_le_mono_r; [lia|]. unfold e1 in *. rewrite fx_def in *. lia. }
  assert (H2 : 0 <= m2 <= 2 ^ 53) by (destruct (rne_near A (D * 2 ^ (e1 - e))); unfold m2; lia).
  unfold pack. destruct (Z.eqb_spec m2 0); [exact I|]. destruct (Z.ltb_spec m2 (2 ^ 53)).
  - destruct (Z.leb_spec e1 971); [|exact I]. apply Hb; rewrite ?Z2Pos.id by lia; first [lia|exact Hn].
  - destruct (Z.leb_spec (e1 + 1) 971); [|exact I]. apply Hb; [reflexivity|lia|]. intros _. change (Z.pos 4503599627370496) with (2 ^ 52). lia.
Qed.
Definition double (x : F) : Prop := match x with S754_finite _ m e => bnd m e = true | _ => True end.
Lemma exact_double s a b : 0 <= a -> b <= fx (Zdigits2 a + b) -> double (rnd_aux s a b loc_Exact).
Proof.
  intros Ha Hb. destruct (round_value a 1 b Ha ltac:(lia)) as [_ E]; [rewrite Z.div_1_r; exact Hb|]. specialize (E s).
  pose proof (pack_finite a 1 b Ha ltac:(lia)) as Hp. rewrite Z.div_1_r, pos_of_1 in *. rewrite E. apply Hp, Hb.
Qed.
Lemma normalize_double z e : double (binary_normalize 53 1024 z e false).
Proof.
  assert (Hpos : forall p, double (binary_round 53 1024 false p e)) by (intros p; destruct (round_pos p e) as (a & b & -> & _ & Hb & _); apply exact_double; [lia|exact Hb]).
  destruct z as [|p|p]; [exact I|apply Hpos|]. change (Z.neg p) with (- Z.pos p). rewrite normalize_opp by lia. specialize (Hpos p). cbn [binary_normalize].
  destruct (binary_round 53 1024 false p e); exact Hpos.
Qed.
Lemma sub_double x y : finite x -> finite y -> double (fsub x y).
Proof.
  intros Hx Hy. destruct x as [s|s| |s m e]; try contradiction; destruct y as [s'|s'| |s' m' e']; try contradiction; try exact I; try assumption.
  - destruct s, s'; exact I.
  - apply normalize_double.
Qed.
Lemma div_double x m e : finite x -> double (fdiv x (S754_finite false m e)).
Proof.
  intros Hx. destruct x as [s|s| |s mx ex]; try contradiction; [exact I|]. unfold fdiv, SFdiv. destruct (div_core mx ex m e) as (A & q & e1 & -> & -> & _ & EA & He).
  assert (HA : 0 <= A) by (rewrite EA; apply Z.mul_nonneg_nonneg; [lia|apply Z.pow_nonneg; lia]).
  destruct (round_value A (Z.pos m) e1 HA ltac:(lia) He) as [_ E]. rewrite E. apply pack_finite; [exact HA|lia|exact He].
Qed.
(** between two finite doubles *)
Lemma double_between x a b : double x -> finite a -> finite b -> fle a x -> fle x b -> finite x.
Proof.
  intros Hx Ha Hb (_ & N & L1) (_ & _ & L2). destruct x as [s|s| |s m e]; try exact I; try exact Hx; try discriminate.
  destruct s; [destruct a as [[]|[]| |[] m e]; try contradiction; discriminate|destruct b as [[]|[]| |[] m e]; try contradiction; discriminate].
Qed.
Lemma one_finite : finite f_one.
Proof. reflexivity. Qed.
(** a quotient of non-negative doubles is at most one when the divisor is not smaller *)
Lemma div_le_one x y : finite x -> fge0 x -> (exists m e, y = S754_finite false m e) -> finite y -> fle x y -> fle (fdiv x y) f_one.
Proof.
  intros Hx Gx (m & e & ->) Hy L. pose proof (div_mono x (S754_finite false m e) m e Hx Hy Gx eq_refl L) as H.
  destruct (fdiv_self (S754_finite false m e)) as [E|E]; rewrite E in H; [exact H|]. destruct H as (_ & H & _). discriminate.
Qed.
(** a difference that is not negative is not a negative zero either *)
Lemma sub_ge0 x y : finite x -> finite y -> fge0 x -> fge0 y -> fle y x -> fge0 (fsub x y).
Proof.
  intros Fx Fy Gx Gy L. destruct x as [s|s| |s m e], y as [s'|s'| |s' m' e']; try contradiction; cbn in Gx, Gy; subst; try reflexivity.
  - destruct L as (_ & _ & L). discriminate.
  - apply (fle_units _ _ (Z.min e e')) in L; try assumption; try (cbn [above]; lia). cbn [units cond_Zopp] in L.
    unfold fsub, SFsub. destruct (align_spec m e (Z.min e e')) as (a1 & b1 & -> & Hb1 & Ha1). destruct (align_spec m' e' (Z.min e e')) as (a2 & b2 & -> & Hb2 & Ha2). cbn [fst cond_Zopp].
    replace b1 with (Z.min e e') in Ha1 by lia. replace b2 with (Z.min e e') in Ha2 by lia. rewrite Ha1, Ha2.
    destruct (Z.pos m * 2 ^ (e - Z.min e e') - Z.pos m' * 2 ^ (e' - Z.min e e')) as [|p|p] eqn:E; [reflexivity|apply round_nonneg|lia].
Qed.
