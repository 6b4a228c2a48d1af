(** The operations on doubles compared with the operations on real numbers. *)
From Verif Require Import Py Num NumR Float FloatRound FloatMono FloatOps FloatErr FloatInt.
From Coq Require Import ZArith SpecFloat Reals Lra Lia Permutation.
Open Scope Z_scope.

(** the real number a finite double stands for *)
Definition fv (x : F) : R := match x with S754_finite s m e => (IZR (cond_Zopp s (Zpos m)) * powerRZ 2 e)%R | _ => 0%R end.
(** half a unit in the last place of 1, and half the smallest positive double *)
Definition ulp : R := powerRZ 2 (-53).
Definition eta : R := powerRZ 2 (-1075).

Notation P2 := (powerRZ 2).
Lemma P2_add a b : (P2 (a + b) = P2 a * P2 b)%R. Proof. apply powerRZ_add. lra. Qed.
Lemma P2_pos a : (0 < P2 a)%R. Proof. apply powerRZ_lt. lra. Qed.
Lemma P2_IZR n : 0 <= n -> IZR (2 ^ n) = P2 n.
Proof.
  intros Hn. pattern n. apply natlike_ind; [reflexivity| |exact Hn]. intros k Hk IH. unfold Z.succ. rewrite Z.pow_add_r, mult_IZR, IH, P2_add by lia. change (IZR (2 ^ 1)) with 2%R. change (P2 1) with (2 * 1)%R. ring.
Qed.
Lemma P2_le a b : a <= b -> (P2 a <= P2 b)%R.
Proof.
  intros H. replace b with (a + (b - a)) by lia. rewrite P2_add. rewrite <- (P2_IZR (b - a)) by lia.
  assert (1 <= IZR (2 ^ (b - a)))%R by (apply IZR_le; assert (0 < 2 ^ (b - a)) by (apply Z.pow_pos_nonneg; lia); lia). pose proof (P2_pos a). nra.
Qed.
Lemma P2_lt_inv a b : (P2 a <= P2 b)%R -> a <= b.
Proof.
  intros H. destruct (Z.le_gt_cases a b) as [|G]; [assumption|]. exfalso. pose proof (P2_le (b + 1) a ltac:(lia)) as L. rewrite P2_add in L. change (P2 1) with (2 * 1)%R in L. pose proof (P2_pos b). lra.
Qed.
Lemma P2_nz a : (P2 a <> 0)%R. Proof. pose proof (P2_pos a). lra. Qed.
Lemma ulp_pos : (0 < ulp)%R. Proof. apply P2_pos. Qed.
Lemma eta_pos : (0 < eta)%R. Proof. apply P2_pos. Qed.

Lemma fv_tiny x : finite x -> fv x = (IZR (tiny x) * P2 (-1074))%R.
Proof.
  destruct x as [s|s| |s m e]; intros H; cbn [fv]; try contradiction; [unfold tiny; cbn [units]; lra|]. destruct (bnd_spec m e H) as (_ & _ & Hl & _).
  unfold tiny. cbn [units]. replace (P2 e) with (P2 (e - -1074) * P2 (-1074))%R by (rewrite <- P2_add; f_equal; lia). rewrite <- Rmult_assoc. f_equal.
  rewrite <- (P2_IZR (e - -1074)) by lia. destruct s; cbn [cond_Zopp]; rewrite ?opp_IZR, mult_IZR; ring.
Qed.

Lemma scaled_le a b : 2 ^ 53 * Z.abs a <= Z.abs b -> (Rabs (IZR a * P2 (-1074)) <= ulp * Rabs (IZR b * P2 (-1074)))%R.
Proof.
  intros H. apply IZR_le in H. rewrite mult_IZR, (P2_IZR 53), !abs_IZR in H by lia. rewrite !Rabs_mult, (Rabs_pos_eq (P2 (-1074))) by (left; apply P2_pos).
  unfold ulp. assert (E : (P2 53 * P2 (-53) = 1)%R) by (rewrite <- P2_add; reflexivity). pose proof (P2_pos (-1074)). pose proof (P2_pos (-53)) as Hp.
  rewrite <- Rmult_assoc. apply Rmult_le_compat_r; [lra|]. apply (Rmult_le_compat_l (P2 (-53))) in H; [|lra]. rewrite <- Rmult_assoc, (Rmult_comm (P2 (-53))), E, Rmult_1_l in H. exact H.
Qed.

(** ** Sums and differences *)
Lemma sub_real x y : finite x -> finite y -> (Rabs (fv x - fv y) <= P2 1023)%R ->
  finite (fsub x y) /\ (Rabs (fv (fsub x y) - (fv x - fv y)) <= ulp * Rabs (fv x - fv y))%R.
Proof.
  intros Hx Hy Hb. assert (E : (fv x - fv y = IZR (tiny x - tiny y) * P2 (-1074))%R) by (rewrite minus_IZR, !fv_tiny by assumption; ring).
  assert (Hf : finite (fsub x y)).
  { apply sub_finite; try assumption. apply le_IZR. rewrite abs_IZR, P2_IZR by lia. rewrite E, Rabs_mult, (Rabs_pos_eq (P2 (-1074))) in Hb by (left; apply P2_pos).
    replace (P2 1023) with (P2 2097 * P2 (-1074))%R in Hb by (rewrite <- P2_add; reflexivity). apply Rmult_le_reg_r in Hb; [exact Hb|apply P2_pos]. }
  split; [exact Hf|]. rewrite E, (fv_tiny _ Hf), <- Rmult_minus_distr_r, <- minus_IZR. apply scaled_le, sub_err; assumption.
Qed.
Lemma fv_opp x : fv (SFopp x) = (- fv x)%R.
Proof. destruct x as [s|s| |s m e]; cbn [SFopp fv]; try lra. destruct s; cbn [negb cond_Zopp]; [rewrite (opp_IZR (Zpos m))|rewrite opp_IZR]; lra. Qed.
Lemma add_real x y : finite x -> finite y -> (Rabs (fv x + fv y) <= P2 1023)%R ->
  finite (fadd x y) /\ (Rabs (fv (fadd x y) - (fv x + fv y)) <= ulp * Rabs (fv x + fv y))%R.
Proof.
  intros Hx Hy Hb. rewrite add_sub. replace (fv x + fv y)%R with (fv x - fv (SFopp y))%R in * by (rewrite fv_opp; lra). apply sub_real; [exact Hx|apply finite_opp, Hy|exact Hb].
Qed.

(** ** Division by a count *)
Lemma div_real x k : finite x -> 0 < k <= 2 ^ 52 ->
  finite (fdiv x (f_ofZ k)) /\ (Rabs (fv (fdiv x (f_ofZ k)) - fv x / IZR k) <= ulp * Rabs (fv x / IZR k) + eta)%R.
Proof.
  intros Hx Hk. pose proof (div_finite x k Hx Hk) as Hf. split; [exact Hf|]. pose proof (div_err x k Hx Hk Hf) as H.
  set (t := tiny (fdiv x (f_ofZ k))) in *. rewrite (fv_tiny _ Hf), (fv_tiny x Hx). fold t. set (a := tiny x) in *.
  apply IZR_le in H. rewrite plus_IZR, !mult_IZR, !abs_IZR, minus_IZR, mult_IZR, (P2_IZR 53), (P2_IZR 52) in H by lia.
  assert (Hk0 : (0 < IZR k)%R) by (apply IZR_lt; lia). pose proof (P2_pos (-1074)) as Hp.
  assert (E1 : (IZR t * P2 (-1074) - IZR a * P2 (-1074) / IZR k = (IZR t * IZR k - IZR a) * (/ IZR k * P2 (-1074)))%R) by (field; lra).
  assert (E2 : (IZR a * P2 (-1074) / IZR k = IZR a * (/ IZR k * P2 (-1074)))%R) by (field; lra).
  rewrite E1, E2, !Rabs_mult. rewrite !(Rabs_pos_eq (/ IZR k)) by (left; apply Rinv_0_lt_compat, Hk0). rewrite !(Rabs_pos_eq (P2 (-1074))) by lra.
  assert (Q : (P2 53 * ulp = 1)%R) by (unfold ulp; rewrite <- P2_add; reflexivity).
  assert (Q2 : (P2 52 * ulp * P2 (-1074) = eta)%R) by (unfold ulp, eta; rewrite <- !P2_add; reflexivity). pose proof ulp_pos as Hu.
  apply (Rmult_le_compat_r (ulp * (/ IZR k * P2 (-1074)))%R) in H; [|apply Rmult_le_pos; [lra|apply Rmult_le_pos; [left; apply Rinv_0_lt_compat, Hk0|lra]]].
  set (X := Rabs (IZR t * IZR k - IZR a)) in *. set (Y := Rabs (IZR a)) in *. set (w := (/ IZR k * P2 (-1074))%R) in *.
  replace (P2 53 * X * (ulp * w))%R with (P2 53 * ulp * (X * w))%R in H by ring. rewrite Q, Rmult_1_l in H.
  replace ((Y + P2 52 * IZR k) * (ulp * w))%R with (ulp * (Y * w) + P2 52 * ulp * P2 (-1074) * (IZR k * / IZR k))%R in H by (unfold w; ring).
  rewrite Q2, Rinv_r, Rmult_1_r in H by lra. exact H.
Qed.

(** ** Products *)
Lemma pack_fv m2 e1 s : 0 <= m2 <= 2 ^ 53 -> -1074 <= e1 -> finite (pack s m2 e1) -> fv (pack s m2 e1) = (IZR (cond_Zopp s m2) * P2 e1)%R.
Proof.
  intros Hm He Hf. rewrite (fv_tiny _ Hf), (pack_tiny _ _ _ Hm He Hf). replace (P2 e1) with (P2 (e1 + 1074) * P2 (-1074))%R by (rewrite <- P2_add; f_equal; lia).
  rewrite <- (P2_IZR (e1 + 1074)) by lia. destruct s; cbn [cond_Zopp]; rewrite ?opp_IZR, !mult_IZR; ring.
Qed.

Lemma mul_real x y : finite x -> finite y -> (Rabs (fv x * fv y) <= P2 1022)%R ->
  finite (fmul x y) /\ (Rabs (fv (fmul x y) - fv x * fv y) <= ulp * Rabs (fv x * fv y) + eta)%R.
Proof.
  intros Hx Hy Hb. pose proof eta_pos. pose proof ulp_pos.
  destruct x as [s|s| |s m e]; try contradiction; destruct y as [s'|s'| |s' m' e']; try contradiction.
  1-3: split; [exact I|cbn [fmul fv]; unfold fmul; cbn [SFmul fv]; rewrite ?Rmult_0_l, ?Rmult_0_r, Rminus_0_r, Rabs_R0; lra].
  pose proof (mul_digits m e m' e' Hx Hy) as He. unfold fmul. cbn [SFmul]. set (A := Zpos (m * m')) in *. set (c := e + e') in *. set (sg := xorb s s').
  assert (HA : 0 <= A) by (unfold A; lia). rewrite <- (Z.div_1_r A), <- (pos_of_1 A).
  destruct (round_value A 1 c HA ltac:(lia)) as [HB HV]; [rewrite Z.div_1_r; exact He|]. rewrite (HV sg). pose proof (pack_finite A 1 c HA ltac:(lia)) as HP. cbv zeta in HP. rewrite Z.div_1_r in *.
  set (E := fx (Zdigits2 A + c)) in *. specialize (HP He sg). rewrite Z.mul_1_l in *.
  assert (HE : E = Z.max (Zdigits2 A + c - 53) (-1074)) by apply fx_def.
  assert (HPp : 0 < 2 ^ (E - c)) by (apply Z.pow_pos_nonneg; lia). pose proof (rne_range A _ HA HPp (proj2 HB)) as HR. pose proof (rne_err A _ HA HPp) as Herr.
  set (m2 := rne A (2 ^ (E - c))) in *. clear HV.
  assert (EX : (fv (S754_finite s m e) * fv (S754_finite s' m' e') = IZR (cond_Zopp sg A) * P2 c)%R).
  { cbn [fv]. unfold c, A, sg. rewrite P2_add. destruct s, s'; cbn [xorb cond_Zopp]; rewrite ?opp_IZR, Pos2Z.inj_mul, ?mult_IZR; ring. }
  assert (EXa : Rabs (fv (S754_finite s m e) * fv (S754_finite s' m' e')) = (IZR A * P2 c)%R).
  { rewrite EX, Rabs_mult, (Rabs_pos_eq (P2 c)) by (left; apply P2_pos). f_equal. rewrite <- abs_IZR. f_equal. destruct sg; cbn [cond_Zopp]; lia. }
  rewrite EXa in Hb |- *. rewrite EX. clear EX EXa.
  assert (HD : (P2 (Zdigits2 A - 1 + c) <= IZR A * P2 c)%R).
  { rewrite P2_add. apply Rmult_le_compat_r; [left; apply P2_pos|]. rewrite <- P2_IZR by (assert (0 < Zdigits2 A) by reflexivity; lia). apply IZR_le. apply (digits_bounds (m * m')). }
  assert (HE2 : E <= 970) by (pose proof (P2_lt_inv _ _ (Rle_trans _ _ _ HD Hb)); lia).
  assert (Hf : finite (pack sg m2 E)).
  { unfold pack in HP |- *. destruct (Z.eqb_spec m2 0); [exact I|]. destruct (Z.ltb_spec m2 (2 ^ 53)).
    - destruct (Z.leb_spec E 971); [exact HP|lia].
    - destruct (Z.leb_spec (E + 1) 971); [exact HP|lia]. }
  split; [exact Hf|]. rewrite pack_fv by (assumption || lia).
  assert (ER : (IZR (cond_Zopp sg m2) * P2 E - IZR (cond_Zopp sg A) * P2 c = IZR (cond_Zopp sg (m2 * 2 ^ (E - c) - A)) * P2 c)%R).
  { replace (P2 E) with (P2 (E - c) * P2 c)%R by (rewrite <- P2_add; f_equal; lia). rewrite <- (P2_IZR (E - c)) by lia. destruct sg; cbn [cond_Zopp]; rewrite ?opp_IZR, ?minus_IZR, ?mult_IZR, ?opp_IZR; ring. }
  rewrite ER, Rabs_mult, (Rabs_pos_eq (P2 c)) by (left; apply P2_pos).
  assert (EA : Rabs (IZR (cond_Zopp sg (m2 * 2 ^ (E - c) - A))) = IZR (Z.abs (m2 * 2 ^ (E - c) - A))) by (rewrite <- abs_IZR; f_equal; destruct sg; cbn [cond_Zopp]; lia).
  rewrite EA. apply IZR_le in Herr. rewrite mult_IZR, (P2_IZR (E - c)) in Herr by lia.
  assert (Hh : (IZR (Z.abs (m2 * 2 ^ (E - c) - A)) * P2 c <= P2 (E - 1))%R).
  { pose proof (P2_pos c). replace (P2 (E - 1)) with (P2 (E - c) * P2 c * / 2)%R; [nra|]. rewrite <- P2_add. replace (E - c + c) with ((E - 1) + 1) by lia. rewrite P2_add. change (P2 1) with (2 * 1)%R. field. }
  eapply Rle_trans; [exact Hh|]. pose proof (P2_pos (Zdigits2 A - 1 + c)).
  destruct (Z.eq_dec E (-1074)) as [E0|N0].
  - rewrite E0. change (-1074 - 1) with (-1075). fold eta. assert (0 <= ulp * (IZR A * P2 c))%R by (apply Rmult_le_pos; lra). lra.
  - replace (E - 1) with (-53 + (Zdigits2 A - 1 + c)) by lia. rewrite P2_add. fold ulp. apply (Rmult_le_compat_l ulp) in HD; lra.
Qed.

(** ** Square roots *)
Lemma sqrt_digits m : 0 < m -> Zdigits2 (Z.sqrt m) = (Zdigits2 m + 1) / 2.
Proof.
  intros Hm. destruct m as [|p|p]; try lia. pose proof (digits_bounds p) as [D1 D2]. assert (D0 : 0 < Zdigits2 (Z.pos p)) by reflexivity.
  set (d := Zdigits2 (Z.pos p)) in *. pose proof (Z.sqrt_spec (Z.pos p) ltac:(lia)) as [S1 S2]. set (q := Z.sqrt (Z.pos p)) in *. assert (Hq : 0 <= q) by apply Z.sqrt_nonneg.
  pose proof (Z.div_mod (d + 1) 2 ltac:(lia)) as Ed. pose proof (Z.mod_pos_bound (d + 1) 2 ltac:(lia)) as Er. set (h := (d + 1) / 2) in *.
  assert (L1 : 2 ^ (h - 1) <= q).
  { apply Z.lt_succ_r. apply Z.square_lt_simpl_nonneg; [lia|]. refine (Z.le_lt_trans _ _ _ _ S2). rewrite <- Z.pow_add_r by lia. refine (Z.le_trans _ _ _ _ D1). apply Z.pow_le_mono_r; lia. }
  assert (L2 : q < 2 ^ h).
  { apply Z.square_lt_simpl_nonneg; [apply Z.pow_nonneg; lia|]. apply Z.le_lt_trans with (Z.pos p); [exact S1|]. rewrite <- Z.pow_add_r by lia. refine (Z.lt_le_trans _ _ _ D2 _). apply Z.pow_le_mono_r; lia. }
  pose proof (digits_le q h Hq ltac:(lia) L2). pose proof (digits_ge q (h - 1) ltac:(lia) L1). lia.
Qed.
Lemma digits_shift p k : 0 <= k -> Zdigits2 (Zpos p * 2 ^ k) = Zdigits2 (Zpos p) + k.
Proof.
  intros Hk. pose proof (digits_bounds p) as [D1 D2]. assert (D0 : 0 < Zdigits2 (Z.pos p)) by reflexivity. assert (P0 : 0 < 2 ^ k) by (apply Z.pow_pos_nonneg; lia).
  assert (Zdigits2 (Z.pos p * 2 ^ k) <= Zdigits2 (Z.pos p) + k) by (apply digits_le; [lia|lia|]; rewrite Z.pow_add_r by lia; apply Z.mul_lt_mono_pos_r; assumption).
  assert (Zdigits2 (Z.pos p) - 1 + k < Zdigits2 (Z.pos p * 2 ^ k)) by (apply digits_ge; [lia|]; rewrite Z.pow_add_r by lia; apply Z.mul_le_mono_nonneg_r; lia). lia.
Qed.

Lemma sqrt_real x : finite x -> (0 <= fv x)%R -> finite (fsqrt x) /\ (Rabs (fv (fsqrt x) - sqrt (fv x)) <= 2 * ulp * sqrt (fv x))%R.
Proof.
  destruct x as [s|s| |s m e]; intros Hx Hp; try contradiction.
  { split; [exact I|]. cbn [fsqrt fv]. unfold fsqrt. cbn [SFsqrt fv]. rewrite sqrt_0, Rminus_0_r, Rabs_R0. lra. }
  assert (s = false) as ->.
  { destruct s; [|reflexivity]. exfalso. cbn [fv cond_Zopp] in Hp. rewrite opp_IZR in Hp. pose proof (P2_pos e). assert (0 < IZR (Z.pos m))%R by (apply IZR_lt; lia). nra. }
  unfold fsqrt. cbn [SFsqrt]. unfold SFsqrt_core_binary. set (d := Zdigits2 (Z.pos m)). set (c := Z.min (fx (Z.div2 (d + e + 1))) (Z.div2 e)). 
  destruct (bnd_spec m e Hx) as (_ & Hhi & Hlow & Hm53 & _).
  assert (Hc : c <= e / 2) by (unfold c; rewrite <- Z.div2_div; lia). pose proof (Z.div_mod e 2 ltac:(lia)) as Ee. pose proof (Z.mod_pos_bound e 2 ltac:(lia)) as Er.
  assert (Hk : 0 <= e - 2 * c) by lia. set (k := e - 2 * c) in *.
  assert (EM : match k with Z0 => Z.pos m | Zpos _ => Z.shiftl (Z.pos m) k | Zneg _ => 0 end = Z.pos m * 2 ^ k).
  { destruct k as [|p|p]; [rewrite Z.pow_0_r; lia|apply Z.shiftl_mul_pow2; lia|lia]. }
  match goal with |- context [Z.sqrtrem ?X] => replace X with (Z.pos m * 2 ^ k) by (symmetry; exact EM) end. clear EM.
  assert (P0 : 0 < 2 ^ k) by (apply Z.pow_pos_nonneg; lia). set (M := Z.pos m * 2 ^ k). assert (HM : 0 < M) by (unfold M; lia).
  pose proof (Z.sqrtrem_sqrt M) as HS. destruct (Z.sqrtrem M) as [q r] eqn:Eqr. cbn [fst] in HS. assert (Hq : q = Z.sqrt M) by exact HS. clear HS. 
  match goal with |- context [binary_round_aux 53 1024 false q c ?L] => set (l := L) end.
  assert (Hq0 : 0 <= q) by (rewrite Hq; apply Z.sqrt_nonneg).
  assert (Hdq : Zdigits2 q = (d + k + 1) / 2) by (rewrite Hq, sqrt_digits by exact HM; unfold M; rewrite digits_shift by exact Hk; reflexivity).
  assert (Hdc : Zdigits2 q + c = (d + e + 1) / 2). { rewrite Hdq. replace (d + e + 1) with (d + k + 1 + c * 2) by lia. rewrite Z.div_add by lia. reflexivity. }
  assert (D0 : 0 < d) by reflexivity.
  assert (Hd53 : d <= 53) by (apply digits_le; lia).
  pose proof (Z.div_mod (d + e + 1) 2 ltac:(lia)) as Eh. pose proof (Z.mod_pos_bound (d + e + 1) 2 ltac:(lia)) as Ehr. set (h := (d + e + 1) / 2) in *.
  assert (EE : fx (Zdigits2 q + c) = h - 53) by (rewrite Hdc, fx_def; lia).
  assert (Hle : c <= fx (Zdigits2 q + c)) by (rewrite Hdc; unfold c; rewrite Z.div2_div; fold h; lia).
  destruct (round_steps q c l Hq0 Hle) as (m2 & Hm2 & Hm1 & _ & HV). rewrite EE in *. set (E := h - 53) in *. set (m1 := q / 2 ^ (E - c)) in *.
  assert (Hq1 : 0 < q). { destruct (Z.eq_dec q 0) as [E0|]; [|lia]. rewrite E0 in *. cbn [Zdigits2] in *. lia. }
  assert (B1 : 2 ^ (Zdigits2 q - 1) <= q) by (destruct q as [|p|p]; try lia; apply digits_bounds).
  assert (PE : 0 < 2 ^ (E - c)) by (apply Z.pow_pos_nonneg; lia).
  assert (Hm1q : m1 * 2 ^ (E - c) <= q < (m1 + 1) * 2 ^ (E - c)).
  { unfold m1. pose proof (Z.mul_div_le q _ PE). pose proof (Z.mul_succ_div_gt q _ PE). lia. }
  assert (Hm1lo : 2 ^ 52 <= m1).
  { unfold m1. apply Z.div_le_lower_bound; [exact PE|]. refine (Z.le_trans _ _ _ _ B1). rewrite <- Z.pow_add_r by lia. apply Z.pow_le_mono_r; lia. }
  assert (V : rnd_aux false q c l = pack false m2 E) by (rewrite (HV false); reflexivity).
  assert (Hf : finite (pack false m2 E)).
  { unfold pack. destruct (Z.eqb_spec m2 0); [exact I|]. destruct (Z.ltb_spec m2 (2 ^ 53)).
    - destruct (Z.leb_spec E 971); [|lia]. cbn [finite]. apply bnd_intro; rewrite ?Z2Pos.id by lia; lia.
    - destruct (Z.leb_spec (E + 1) 971); [|lia]. cbn [finite]. apply bnd_intro; lia. }
  rewrite V. split; [exact Hf|]. rewrite pack_fv by (assumption || lia). cbn [cond_Zopp].
  (* the exact root *)
  pose proof (Z.sqrt_spec M ltac:(lia)) as [S1 S2]. rewrite <- Hq in S1, S2.
  assert (EV : fv (S754_finite false m e) = (IZR M * (P2 c * P2 c))%R).
  { cbn [fv cond_Zopp]. unfold M. rewrite mult_IZR, P2_IZR, Rmult_assoc, <- !P2_add by exact Hk. do 2 f_equal. lia. }
  rewrite EV, sqrt_mult, sqrt_square; [|left; apply P2_pos|apply IZR_le; lia|left; apply Rmult_lt_0_compat; apply P2_pos].
  pose proof (P2_pos c) as Pc. set (y := sqrt (IZR M)).
  assert (Y1 : (IZR q <= y)%R). { unfold y. rewrite <- (sqrt_square (IZR q)) by (apply IZR_le; lia). apply sqrt_le_1_alt. rewrite <- mult_IZR. apply IZR_le, S1. }
  assert (Y2 : (y <= IZR (q + 1))%R). { unfold y. rewrite <- (sqrt_square (IZR (q + 1))) by (apply IZR_le; lia). apply sqrt_le_1_alt. rewrite <- mult_IZR. apply IZR_le. unfold Z.succ in S2. lia. }
  assert (PEc : (P2 E = P2 (E - c) * P2 c)%R) by (rewrite <- P2_add; f_equal; lia).
  assert (Z1 : (IZR m1 * P2 E <= y * P2 c)%R).
  { rewrite PEc, <- Rmult_assoc. apply Rmult_le_compat_r; [lra|]. rewrite <- P2_IZR, <- mult_IZR by lia. eapply Rle_trans; [|exact Y1]. apply IZR_le. lia. }
  assert (Z2 : (y * P2 c <= (IZR m1 + 1) * P2 E)%R).
  { rewrite PEc, <- Rmult_assoc. apply Rmult_le_compat_r; [lra|]. rewrite <- P2_IZR by lia. change 1%R with (IZR 1). rewrite <- plus_IZR, <- mult_IZR. eapply Rle_trans; [exact Y2|]. apply IZR_le. lia. }
  assert (Z3 : (P2 E <= 2 * ulp * (y * P2 c))%R).
  { apply Rle_trans with (2 * ulp * (IZR m1 * P2 E))%R; [|apply Rmult_le_compat_l; [pose proof ulp_pos; lra|exact Z1]].
    assert (L : (IZR (2 ^ 52) <= IZR m1)%R) by (apply IZR_le, Hm1lo). rewrite P2_IZR in L by lia.
    assert (Q : (2 * ulp * P2 52 = 1)%R) by (unfold ulp; rewrite Rmult_assoc, <- P2_add; change (P2 (-53 + 52)) with (/ (2 * 1))%R; field).
    pose proof (P2_pos E) as Pe. pose proof ulp_pos. replace (2 * ulp * (IZR m1 * P2 E))%R with (2 * ulp * IZR m1 * P2 E)%R by ring.
    rewrite <- (Rmult_1_l (P2 E)) at 1. apply Rmult_le_compat_r; [lra|]. rewrite <- Q. apply Rmult_le_compat_l; [lra|exact L]. }
  eapply Rle_trans; [|exact Z3]. pose proof (P2_pos E). destruct Hm2 as [->| ->]; [|rewrite plus_IZR]; apply Rabs_le; lra.
Qed.

(** ** Sums, in any order and grouping *)
Definition fvs (l : list F) : list R := map fv l.
Definition fabs (l : list F) : list R := map (fun x => Rabs (fv x)) l.

Lemma fabs_nonneg l : (0 <= Rsum (fabs l))%R.
Proof. apply Rsum_nonneg. intros x Hx. apply in_map_iff in Hx as (y & <- & _). apply Rabs_pos. Qed.
Lemma fvs_abs l : (Rabs (Rsum (fvs l)) <= Rsum (fabs l))%R.
Proof.
  unfold fvs, fabs. induction l as [|x l IH]; [cbn [map]; rewrite Rsum_nil, Rabs_R0; lra|]. cbn [map]. rewrite !Rsum_cons. eapply Rle_trans; [apply Rabs_triang|]. lra.
Qed.
Lemma fv_zero x : finite x -> fv x = 0%R -> tiny x = 0.
Proof.
  intros Hx H. rewrite (fv_tiny x Hx) in H. apply Rmult_integral in H as [H|H]; [|exfalso; exact (P2_nz _ H)]. apply eq_IZR in H. exact H.
Qed.

Lemma sum_steps l s : added l s -> Forall finite l -> (4 * (INR (length l) * ulp) <= 1)%R -> (Rsum (fabs l) <= P2 1021)%R ->
  finite s /\ (l = [] -> fv s = 0%R) /\ (Rabs (fv s - Rsum (fvs l)) <= 2 * INR (length l - 1) * ulp * Rsum (fabs l))%R.
Proof.
  pose proof ulp_pos as Hu. induction 1 as [|x|l l1 l2 x y Hp _ IH1 _ IH2]; intros Hf Hn Hb.
  - split; [exact I|]. split; [reflexivity|]. cbn [fvs fabs map length Nat.sub INR]. rewrite Rsum_nil. change (fv f_zero) with 0%R. rewrite Rminus_0_r, Rabs_R0. lra.
  - inversion Hf; subst. split; [assumption|]. split; [discriminate|]. cbn [fvs fabs map length Nat.sub INR]. rewrite !Rsum_cons, !Rsum_nil, Rplus_0_r, Rminus_diag_eq, Rabs_R0 by reflexivity. lra.
  - assert (Hf2 : Forall finite (l1 ++ l2)) by (rewrite <- Hp; exact Hf). apply Forall_app in Hf2 as [F1 F2].
    assert (EN : length l = (length l1 + length l2)%nat) by (rewrite (Permutation_length Hp); apply app_length). rewrite EN in Hn |- *.
    assert (ES : Rsum (fvs l) = (Rsum (fvs l1) + Rsum (fvs l2))%R) by (rewrite <- Rsum_app; unfold fvs; rewrite <- map_app; apply Rsum_perm, Permutation_map, Hp).
    assert (EA : Rsum (fabs l) = (Rsum (fabs l1) + Rsum (fabs l2))%R) by (rewrite <- Rsum_app; unfold fabs; rewrite <- map_app; apply Rsum_perm, Permutation_map, Hp).
    rewrite ES, EA in *. pose proof (fabs_nonneg l1) as A1. pose proof (fabs_nonneg l2) as A2. pose proof (fvs_abs l1) as V1. pose proof (fvs_abs l2) as V2.
    set (n1 := length l1) in *. set (n2 := length l2) in *. rewrite plus_INR in Hn. pose proof (pos_INR n1) as P1. pose proof (pos_INR n2) as P2'.
    destruct (IH1 F1) as (G1 & Z1 & B1); [nra|lra|]. destruct (IH2 F2) as (G2 & Z2 & B2); [nra|lra|]. clear IH1 IH2.
    set (S1 := Rsum (fabs l1)) in *. set (S2 := Rsum (fabs l2)) in *. set (T1 := Rsum (fvs l1)) in *. set (T2 := Rsum (fvs l2)) in *.
    assert (U1 : (INR (n1 - 1) <= INR n1)%R) by (apply le_INR; lia). assert (U2 : (INR (n2 - 1) <= INR n2)%R) by (apply le_INR; lia).
    assert (C1 : (2 * INR (n1 - 1) * ulp * S1 <= S1 / 2)%R) by (assert (2 * INR (n1 - 1) * ulp <= / 2)%R by nra; nra).
    assert (C2 : (2 * INR (n2 - 1) * ulp * S2 <= S2 / 2)%R) by (assert (2 * INR (n2 - 1) * ulp <= / 2)%R by nra; nra).
    assert (Q : (Rabs (fv x + fv y) <= 2 * (S1 + S2))%R).
    { replace (fv x + fv y)%R with ((fv x - T1) + (fv y - T2) + (T1 + T2))%R by ring. eapply Rle_trans; [apply Rabs_triang|]. eapply Rle_trans; [apply Rplus_le_compat; [apply Rabs_triang|apply Rabs_triang]|]. lra. }
    assert (HP : (2 * P2 1021 <= P2 1023)%R) by (change 1023 with (2 + 1021); rewrite P2_add; change (P2 2) with (2 * (2 * 1))%R; pose proof (P2_pos 1021); lra).
    destruct (add_real x y G1 G2 ltac:(lra)) as [G B]. split; [exact G|]. split.
    { intros El. rewrite El in *. apply Permutation_nil in Hp. apply app_eq_nil in Hp as [E1 E2].
      destruct (FloatInt.add_zero_tiny x y G1 (fv_zero x G1 (Z1 E1)) G2) as [[_ T] _]. rewrite (fv_tiny _ G), T, <- (fv_tiny y G2). exact (Z2 E2). }
    destruct (Nat.eq_dec n1 0) as [E1|N1]; [|destruct (Nat.eq_dec n2 0) as [E2|N2]].
    + assert (El : l1 = []) by (destruct l1; [reflexivity|discriminate]). destruct (FloatInt.add_zero_tiny x y G1 (fv_zero x G1 (Z1 El)) G2) as [[_ T] _].
      rewrite (fv_tiny _ G), T, <- (fv_tiny y G2). unfold T1, S1. rewrite El. cbn [fvs fabs map]. rewrite Rsum_nil, !Rplus_0_l, E1. exact B2.
    + assert (El : l2 = []) by (destruct l2; [reflexivity|discriminate]). destruct (FloatInt.add_zero_tiny y x G2 (fv_zero y G2 (Z2 El)) G1) as [_ [_ T]].
      rewrite (fv_tiny _ G), T, <- (fv_tiny x G1). unfold T2, S2. rewrite El. cbn [fvs fabs map]. rewrite Rsum_nil, !Rplus_0_r, E2, Nat.add_0_r. exact B1.
    + replace (fv (fadd x y) - (T1 + T2))%R with ((fv (fadd x y) - (fv x + fv y)) + (fv x - T1) + (fv y - T2))%R by ring.
      eapply Rle_trans; [apply Rabs_triang|]. eapply Rle_trans; [apply Rplus_le_compat_r, Rabs_triang|].
      assert (D : (ulp * Rabs (fv x + fv y) <= 2 * ulp * (S1 + S2))%R) by (pose proof (Rmult_le_compat_l ulp _ _ (Rlt_le _ _ Hu) Q); lra).
      assert (L1 : (INR (n1 - 1) + 1 <= INR (n1 + n2 - 1))%R) by (rewrite <- S_INR; apply le_INR; lia).
      assert (L2 : (INR (n2 - 1) + 1 <= INR (n1 + n2 - 1))%R) by (rewrite <- S_INR; apply le_INR; lia).
      set (N := INR (n1 + n2 - 1)) in *. assert (W : forall a S, (0 <= S)%R -> (a + 1 <= N)%R -> (2 * a * ulp * S + 2 * ulp * S <= 2 * N * ulp * S)%R).
      { intros a S HS Ha. assert (0 <= ulp * S)%R by (apply Rmult_le_pos; lra). nra. }
      pose proof (W _ S1 A1 L1). pose proof (W _ S2 A2 L2). lra.
Qed.

Lemma sum_real l s : added l s -> Forall finite l -> (4 * (INR (length l) * ulp) <= 1)%R -> (Rsum (fabs l) <= P2 1021)%R ->
  finite s /\ (Rabs (fv s - Rsum (fvs l)) <= 2 * INR (length l - 1) * ulp * Rsum (fabs l))%R.
Proof. intros H1 H2 H3 H4. destruct (sum_steps l s H1 H2 H3 H4) as (A & _ & B). split; assumption. Qed.

(** ** Means *)
Lemma mean_real sum (Hsum : forall l, added l (sum l)) l : l <> [] -> Forall finite l -> (4 * (INR (length l) * ulp) <= 1)%R -> (Rsum (fabs l) <= P2 1021)%R ->
  finite (np_mean (fl64 sum) l) /\ (Rabs (fv (np_mean (fl64 sum) l) - Rmean (fvs l)) <= 2 * (INR (length l) * ulp) * Rmean (fabs l) + eta)%R.
Proof.
  intros Hne Hf Hn Hb. pose proof ulp_pos as Hu. destruct (sum_real l (sum l) (Hsum l) Hf Hn Hb) as [G B].
  assert (Hl : (1 <= length l)%nat) by (destruct l; [congruence|cbn; lia]).
  assert (Hk : 0 < Z.of_nat (length l) <= 2 ^ 52).
  { split; [lia|]. apply le_IZR. rewrite <- INR_IZR_INZ, P2_IZR by lia.
    assert (E : (P2 52 * ulp = / 2)%R) by (unfold ulp; rewrite <- P2_add; change (P2 (52 + -53)) with (/ (2 * 1))%R; field). nra. }
  destruct (div_real (sum l) _ G Hk) as [G2 B2]. unfold np_mean. cbn [n_div n_sum n_ofZ fl64]. split; [exact G2|].
  rewrite <- INR_IZR_INZ in B2. set (k := INR (length l)) in *. assert (Hk1 : (1 <= k)%R) by (unfold k; change 1%R with (INR 1); apply le_INR, Hl).
  assert (Ek : INR (length l - 1) = (k - 1)%R) by (rewrite minus_INR by exact Hl; reflexivity). rewrite Ek in B.
  unfold Rmean. unfold fvs at 2, fabs at 2. rewrite !map_length. fold k. set (S := Rsum (fabs l)) in *. set (T := Rsum (fvs l)) in *.
  pose proof (fabs_nonneg l) as HS. fold S in HS. pose proof (fvs_abs l) as HT. fold S T in HT. set (s := fv (sum l)) in *. set (m := fv (fdiv (sum l) (f_ofZ (Z.of_nat (length l))))) in *.
  assert (Hi : (0 < / k)%R) by (apply Rinv_0_lt_compat; lra).
  assert (D1 : (Rabs (s / k - T / k) <= 2 * (k - 1) * ulp * (S / k))%R).
  { unfold Rdiv. rewrite <- Rmult_minus_distr_r, Rabs_mult, (Rabs_pos_eq (/ k)) by lra. replace (2 * (k - 1) * ulp * (S * / k))%R with ((2 * (k - 1) * ulp * S) * / k)%R by ring. apply Rmult_le_compat_r; lra. }
  assert (HA : (0 <= S / k)%R) by (apply Rmult_le_pos; lra).
  assert (D2 : (Rabs (T / k) <= S / k)%R) by (unfold Rdiv; rewrite Rabs_mult, (Rabs_pos_eq (/ k)) by lra; apply Rmult_le_compat_r; lra).
  set (A := (S / k)%R) in *.
  assert (D3 : (Rabs (s / k) <= 2 * A)%R).
  { replace (s / k)%R with ((s / k - T / k) + T / k)%R by ring. eapply Rle_trans; [apply Rabs_triang|]. assert (2 * (k - 1) * ulp * A <= A)%R by (assert (2 * (k - 1) * ulp <= 1)%R by nra; nra). lra. }
  replace (m - T / k)%R with ((m - s / k) + (s / k - T / k))%R by ring. eapply Rle_trans; [apply Rabs_triang|].
  pose proof (Rmult_le_compat_l ulp _ _ (Rlt_le _ _ Hu) D3). nra.
Qed.
(** non-negative doubles *)
Lemma fge0_fv x : finite x -> fge0 x -> (0 <= fv x)%R.
Proof.
  destruct x as [s|s| |s m e]; intros Hf H; try contradiction; cbn [fv]; [lra|]. cbn in H. subst s. cbn [cond_Zopp]. apply Rmult_le_pos; [apply IZR_le; lia|left; apply P2_pos].
Qed.
(** roots of nearby numbers *)
Lemma sqrt_near a b c d : (0 <= a -> 0 <= b -> 0 <= c <= / 2 -> 0 <= d -> Rabs (b - a) <= c * a + d -> Rabs (sqrt b - sqrt a) <= c * sqrt a + sqrt d)%R.
Proof.
  intros Ha Hb Hc Hd H. pose proof (sqrt_pos a) as Pa. pose proof (sqrt_pos b) as Pb. pose proof (sqrt_pos d) as Pd.
  assert (K : forall x y, (0 <= x -> 0 <= y -> sqrt (x + y) <= sqrt x + sqrt y)%R).
  { intros x y Hx Hy. pose proof (sqrt_pos x). pose proof (sqrt_pos y). rewrite <- (sqrt_Rsqr (sqrt x + sqrt y)) by lra. apply sqrt_le_1_alt. unfold Rsqr.
    pose proof (sqrt_sqrt x Hx). pose proof (sqrt_sqrt y Hy). nra. }
  assert (H1 : (b <= (1 + c) * a + d)%R) by (apply Rabs_def2 in H || idtac; unfold Rabs in H; destruct (Rcase_abs (b - a)); lra).
  assert (H2 : ((1 - c) * a <= b + d)%R) by (unfold Rabs in H; destruct (Rcase_abs (b - a)); lra).
  assert (S1 : (sqrt b <= (1 + c) * sqrt a + sqrt d)%R).
  { eapply Rle_trans; [apply sqrt_le_1_alt, H1|]. eapply Rle_trans; [apply K; nra|]. apply Rplus_le_compat_r. rewrite sqrt_mult by lra. apply Rmult_le_compat_r; [lra|].
    rewrite <- (sqrt_Rsqr (1 + c)) at 2 by lra. apply sqrt_le_1_alt. unfold Rsqr. nra. }
  assert (S2 : ((1 - c) * sqrt a <= sqrt b + sqrt d)%R).
  { apply Rle_trans with (sqrt (b + d)); [|apply K; lra]. apply Rle_trans with (sqrt ((1 - c) * a)); [|apply sqrt_le_1_alt, H2]. rewrite sqrt_mult by lra. apply Rmult_le_compat_r; [lra|].
    rewrite <- (sqrt_Rsqr (1 - c)) at 1 by lra. apply sqrt_le_1_alt. unfold Rsqr. nra. }
  apply Rabs_le. lra.
Qed.

(** ** Any quotient rounded to a double *)
Lemma round_real A D e s : 0 <= A -> 0 < D -> e <= fx (Zdigits2 (A / D) + e) -> (IZR A / IZR D * P2 e <= P2 1022)%R ->
  let r := rnd_aux s (A / D) e (pos_of A D) in
  finite r /\ (Rabs (fv r - (if s then - (IZR A / IZR D * P2 e) else IZR A / IZR D * P2 e)) <= ulp * (IZR A / IZR D * P2 e) + eta)%R.
Proof.
  intros HA HD He Hb r. pose proof eta_pos as Het. pose proof ulp_pos as Hul. unfold r. destruct (round_value A D e HA HD He) as [HB HV]. rewrite (HV s). clear HV r.
  pose proof (pack_finite A D e HA HD) as HP. cbv zeta in HP. specialize (HP He s). set (q := A / D) in *. set (E := fx (Zdigits2 q + e)) in *.
  assert (HE : E = Z.max (Zdigits2 q + e - 53) (-1074)) by apply fx_def. assert (Hq0 : 0 <= q) by (apply Z.div_pos; lia).
  assert (HPp : 0 < 2 ^ (E - e)) by (apply Z.pow_pos_nonneg; lia). assert (HDm : 0 < D * 2 ^ (E - e)) by (apply Z.mul_pos_pos; assumption).
  pose proof (rne_range A _ HA HDm (proj2 HB)) as HR. pose proof (rne_err A _ HA HDm) as Herr. set (m2 := rne A (D * 2 ^ (E - e))) in *.
  assert (HDr : (0 < IZR D)%R) by (apply IZR_lt, HD). assert (HAr : (0 <= IZR A)%R) by (apply IZR_le, HA). assert (Pe : (0 < P2 e)%R) by apply P2_pos. set (X := (IZR A / IZR D * P2 e)%R) in *.
  assert (HX0 : (0 <= X)%R) by (unfold X; apply Rmult_le_pos; [apply Rmult_le_pos; [exact HAr|left; apply Rinv_0_lt_compat, HDr]|lra]).
  assert (HQ : (IZR q * P2 e <= X)%R).
  { unfold X. apply Rmult_le_compat_r; [lra|]. apply (Rmult_le_reg_r (IZR D)); [exact HDr|]. unfold Rdiv. rewrite Rmult_assoc, Rinv_l, Rmult_1_r by lra. rewrite <- mult_IZR. apply IZR_le. unfold q. rewrite Z.mul_comm. apply Z.mul_div_le, HD. }
  assert (HDg : q = 0 \/ (P2 (Zdigits2 q - 1 + e) <= X)%R).
  { destruct q as [|p|p] eqn:Eq; [left; reflexivity|right|lia]. eapply Rle_trans; [|exact HQ]. rewrite P2_add. apply Rmult_le_compat_r; [lra|]. rewrite <- P2_IZR by (assert (0 < Zdigits2 (Z.pos p)) by reflexivity; lia). apply IZR_le. apply (digits_bounds p). }
  assert (HE2 : E <= 970).
  { destruct HDg as [E0|G]; [rewrite E0 in *; cbn [Zdigits2] in *; lia|]. pose proof (P2_lt_inv _ _ (Rle_trans _ _ _ G Hb)). lia. }
  assert (Hf : finite (pack s m2 E)).
  { unfold pack in HP |- *. destruct (Z.eqb_spec m2 0); [exact I|]. destruct (Z.ltb_spec m2 (2 ^ 53)).
    - destruct (Z.leb_spec E 971); [exact HP|lia].
    - destruct (Z.leb_spec (E + 1) 971); [exact HP|lia]. }
  split; [exact Hf|]. rewrite pack_fv by (assumption || lia).
  assert (EP : P2 E = (P2 (E - e) * P2 e)%R) by (rewrite <- P2_add; f_equal; lia).
  assert (Hh : (Rabs (IZR m2 * P2 E - X) <= P2 (E - 1))%R).
  { apply IZR_le in Herr. rewrite !mult_IZR, abs_IZR, minus_IZR, !mult_IZR, (P2_IZR (E - e)) in Herr by lia.
    replace (IZR m2 * P2 E - X)%R with ((IZR m2 * (IZR D * P2 (E - e)) - IZR A) * (/ IZR D * P2 e))%R by (unfold X; rewrite EP; field; lra).
    assert (Pd : (0 < / IZR D)%R) by (apply Rinv_0_lt_compat, HDr). rewrite Rabs_mult, (Rabs_pos_eq (/ IZR D * P2 e)) by (apply Rmult_le_pos; lra).
    replace (P2 (E - 1)) with (/ 2 * (IZR D * P2 (E - e)) * (/ IZR D * P2 e))%R.
    - apply Rmult_le_compat_r; [apply Rmult_le_pos; lra|]. lra.
    - replace (E - 1) with (-1 + (E - e + e)) by lia. rewrite !P2_add. change (P2 (-1)) with (/ (2 * 1))%R. field. lra. }
  assert (Hs : Rabs (IZR (cond_Zopp s m2) * P2 E - (if s then - X else X)) = Rabs (IZR m2 * P2 E - X)).
  { destruct s; cbn [cond_Zopp]; [|reflexivity]. rewrite opp_IZR. rewrite <- (Rabs_Ropp (IZR m2 * P2 E - X)). f_equal. ring. }
  rewrite Hs. eapply Rle_trans; [exact Hh|].
  destruct (Z.eq_dec E (-1074)) as [E0|N0].
  - rewrite E0. change (-1074 - 1) with (-1075). fold eta. assert (0 <= ulp * X)%R by (apply Rmult_le_pos; lra). lra.
  - destruct HDg as [Q0|G]; [rewrite Q0 in *; cbn [Zdigits2] in *; lia|]. replace (E - 1) with (-53 + (Zdigits2 q - 1 + e)) by lia. rewrite P2_add. fold ulp. apply (Rmult_le_compat_l ulp) in G; lra.
Qed.

(** ** Division *)
Lemma quot_real x y : finite x -> finite y -> (0 < fv y)%R -> (Rabs (fv x / fv y) <= P2 1022)%R ->
  finite (fdiv x y) /\ (Rabs (fv (fdiv x y) - fv x / fv y) <= ulp * Rabs (fv x / fv y) + eta)%R.
Proof.
  intros Hx Hy Hp Hb. pose proof eta_pos as Het. pose proof ulp_pos as Hul.
  destruct y as [s'|s'| |s' m' e']; try contradiction; try (cbn [fv] in Hp; lra). assert (s' = false) as ->.
  { destruct s'; [|reflexivity]. cbn [fv cond_Zopp] in Hp. rewrite opp_IZR in Hp. pose proof (P2_pos e'). assert (0 < IZR (Z.pos m'))%R by (apply IZR_lt; lia). nra. }
  destruct x as [s|s| |s m e]; try contradiction.
  { split; [exact I|]. unfold fdiv. cbn [SFdiv fv]. unfold Rdiv. rewrite Rmult_0_l, Rminus_0_r, Rabs_R0. lra. }
  unfold fdiv, SFdiv. destruct (div_core m e m' e') as (A & q & e1 & -> & -> & [Hle _] & EA & He). rewrite xorb_false_r.
  assert (HA : 0 <= A) by (rewrite EA; apply Z.mul_nonneg_nonneg; [lia|apply Z.pow_nonneg; lia]).
  assert (Pm : (0 < IZR (Z.pos m'))%R) by (apply IZR_lt; lia).
  assert (EX : (IZR (Z.pos m) * P2 e / (IZR (Z.pos m') * P2 e') = IZR A / IZR (Z.pos m') * P2 e1)%R).
  { rewrite EA, mult_IZR, P2_IZR by lia. replace (P2 e) with (P2 (e - e' - e1) * P2 e' * P2 e1)%R by (rewrite <- !P2_add; f_equal; lia). pose proof (P2_nz e'). field. split; lra. }
  assert (HX : (0 <= IZR A / IZR (Z.pos m') * P2 e1)%R) by (apply Rmult_le_pos; [apply Rmult_le_pos; [apply IZR_le, HA|left; apply Rinv_0_lt_compat, Pm]|left; apply P2_pos]).
  assert (EF : (fv (S754_finite s m e) / fv (S754_finite false m' e') = if s then - (IZR A / IZR (Z.pos m') * P2 e1) else IZR A / IZR (Z.pos m') * P2 e1)%R).
  { rewrite <- EX. cbn [fv cond_Zopp]. destruct s; cbn [cond_Zopp]; [|reflexivity]. rewrite opp_IZR. pose proof (P2_nz e'). field. split; lra. }
  assert (EAb : Rabs (fv (S754_finite s m e) / fv (S754_finite false m' e')) = (IZR A / IZR (Z.pos m') * P2 e1)%R).
  { rewrite EF. destruct s; rewrite ?Rabs_Ropp; apply Rabs_pos_eq, HX. }
  rewrite EAb in *. rewrite EF. apply round_real; [exact HA|lia|exact He|exact Hb].
Qed.
