(** Bounds on the error of sums and means of doubles. *)
From Verif Require Import Py Num Float FloatRound FloatMono FloatOps NpSum.
From Coq Require Import ZArith SpecFloat Lia.
Open Scope Z_scope.
Open Scope list_scope.

(** a double in units of the smallest positive double *)
Definition tiny (x : F) : Z := units x (-1074).

Lemma rne_err A D : 0 <= A -> 0 < D -> 2 * Z.abs (rne A D * D - A) <= D.
Proof.
  intros HA HD. pose proof (Z.div_mod A D ltac:(lia)) as E. pose proof (Z.mod_pos_bound A D HD) as B.
  assert (Ht : 2 * (A mod D) < D /\ rne A D = A / D \/ 2 * (A mod D) = D /\ (rne A D = A / D \/ rne A D = A / D + 1) \/ D < 2 * (A mod D) /\ rne A D = A / D + 1).
  { unfold rne, pos_of. destruct (Z.eqb_spec (A mod D) 0) as [E0|N0]; [left; split; [lia|reflexivity]|].
    destruct (Z.compare_spec (2 * (A mod D)) D); cbn [round_nearest_even]; [right; left|left|right; right]; (split; [assumption|]); try reflexivity. destruct (Z.even (A / D)); auto. }
  destruct Ht as [[H ->]|[[H [->| ->]]|[H ->]]]; nia.
Qed.

Lemma tiny_rank x y : finite x -> finite y -> rank x = rank y -> tiny x = tiny y.
Proof.
  intros Hx Hy H. unfold tiny. destruct x as [[]|[]| |[] m e], y as [[]|[]| |[] m' e']; try contradiction; cbn [rank] in H; try discriminate; try reflexivity;
    injection H as H1 H2; cbn [units cond_Zopp]; subst; try reflexivity. replace e' with e by lia. reflexivity.
Qed.
Lemma tiny_opp x : tiny (SFopp x) = - tiny x.
Proof. unfold tiny. destruct x as [s|s| |s m e]; try reflexivity. cbn [SFopp units]. destruct s; cbn [cond_Zopp negb]; lia. Qed.
Lemma finite_opp x : finite x -> finite (SFopp x).
Proof. destruct x; auto. Qed.

Lemma pack_tiny m2 e1 s : 0 <= m2 <= 2 ^ 53 -> -1074 <= e1 -> finite (pack s m2 e1) -> tiny (pack s m2 e1) = cond_Zopp s (m2 * 2 ^ (e1 + 1074)).
Proof.
  intros Hm He Hf. unfold pack in *. unfold tiny. destruct (Z.eqb_spec m2 0) as [->|N]; [destruct s; reflexivity|].
  destruct (Z.ltb_spec m2 (2 ^ 53)).
  - destruct (e1 <=? 971); [|contradiction]. cbn [units]. rewrite Z2Pos.id by lia. replace (e1 - -1074) with (e1 + 1074) by lia. reflexivity.
  - destruct (e1 + 1 <=? 971); [|contradiction]. cbn [units]. replace (e1 + 1 - -1074) with (1 + (e1 + 1074)) by lia. rewrite Z.pow_add_r by lia.
    replace m2 with (2 ^ 53) by lia. change (2 ^ 53) with (4503599627370496 * 2). change (2 ^ 1) with 2. f_equal. ring.
Qed.
Lemma rne_range A D : 0 <= A -> 0 < D -> A / D < 2 ^ 53 -> 0 <= rne A D <= 2 ^ 53.
Proof. intros HA HD H. assert (0 <= A / D) by (apply Z.div_pos; lia). destruct (rne_near A D) as [->| ->]; lia. Qed.

(** a quotient rounded to a double: the error is half a unit in the last place *)
Lemma round_err A D e s : 0 <= A -> 0 < D -> -1074 <= e -> e <= fx (Zdigits2 (A / D) + e) ->
  let r := rnd_aux s (A / D) e (pos_of A D) in finite r ->
  exists M, tiny r = cond_Zopp s M /\ 0 <= M /\ 2 ^ 53 * Z.abs (M * D - A * 2 ^ (e + 1074)) <= A * 2 ^ (e + 1074) + 2 ^ 52 * D
    /\ (D = 1 -> 2 ^ 53 * Z.abs (M * D - A * 2 ^ (e + 1074)) <= A * 2 ^ (e + 1074)).
Proof.
  intros HA HD Hlow He r Hf. destruct (round_value A D e HA HD He) as [HB HV]. unfold r in *. rewrite (HV s) in *. clear HV r.
  assert (Hq0 : 0 <= A / D) by (apply Z.div_pos; lia).
  set (q := A / D) in *. set (E := fx (Zdigits2 q + e)) in *.
  assert (HE : E = Z.max (Zdigits2 q + e - 53) (-1074)) by (unfold E; apply fx_def).
  assert (HP : 0 < 2 ^ (E - e)) by (apply Z.pow_pos_nonneg; lia). assert (HT : 0 < 2 ^ (e + 1074)) by (apply Z.pow_pos_nonneg; lia).
  assert (HDm : 0 < D * 2 ^ (E - e)) by (apply Z.mul_pos_pos; assumption).
  pose proof (rne_range A _ HA HDm (proj2 HB)) as HR. pose proof (rne_err A _ HA HDm) as Herr.
  rewrite pack_tiny in * by (assumption || lia). set (m2 := rne A (D * 2 ^ (E - e))) in *. exists (m2 * 2 ^ (E + 1074)). split; [reflexivity|].
  split; [apply Z.mul_nonneg_nonneg; [lia|apply Z.pow_nonneg; lia]|].
  assert (EP : 2 ^ (E + 1074) = 2 ^ (E - e) * 2 ^ (e + 1074)) by (rewrite <- Z.pow_add_r by lia; f_equal; lia).
  replace (m2 * 2 ^ (E + 1074) * D - A * 2 ^ (e + 1074)) with ((m2 * (D * 2 ^ (E - e)) - A) * 2 ^ (e + 1074)) by (rewrite EP; ring).
  rewrite Z.abs_mul, (Z.abs_eq (2 ^ (e + 1074))) by lia. set (err := Z.abs (m2 * (D * 2 ^ (E - e)) - A)) in *.
  destruct (Z.eq_dec E (-1074)) as [E0|N0].
  - assert (e = -1074) by lia. subst e. rewrite E0 in *. change (2 ^ (-1074 - -1074)) with 1 in *. change (2 ^ (-1074 + 1074)) with 1 in *. rewrite !Z.mul_1_r in *.
    change (2 ^ 53) with (2 ^ 52 * 2). split; [nia|]. intros ->. replace err with 0; [lia|]. unfold err. replace m2 with (rne A 1) by (unfold m2; rewrite E0; reflexivity). rewrite ?E0, rne_1. change (1 * 2 ^ (-1074 - -1074)) with 1. rewrite ?Z.mul_1_r, Z.sub_diag. reflexivity.
  - assert (E1 : E - e = Zdigits2 q - 53) by lia.
    assert (Hq1 : 2 ^ (Zdigits2 q - 1) <= q) by (destruct q as [|p|p]; [cbn in E1; lia|apply digits_bounds|lia]).
    assert (Hqd : q * D <= A) by (unfold q; rewrite Z.mul_comm; apply Z.mul_div_le, HD).
    assert (K : 2 ^ 53 * (err * 2 ^ (e + 1074)) <= A * 2 ^ (e + 1074)).
    { replace (2 ^ 53 * (err * 2 ^ (e + 1074))) with (2 ^ 52 * (2 * err) * 2 ^ (e + 1074)) by (change (2 ^ 53) with (2 ^ 52 * 2); ring).
      apply Z.mul_le_mono_nonneg_r; [lia|]. transitivity (2 ^ 52 * (D * 2 ^ (E - e))); [apply Z.mul_le_mono_nonneg_l; [lia|exact Herr]|].
      rewrite E1. replace (2 ^ 52 * (D * 2 ^ (Zdigits2 q - 53))) with (2 ^ (Zdigits2 q - 1) * D); [nia|].
      replace (Zdigits2 q - 1) with (52 + (Zdigits2 q - 53)) by lia. rewrite Z.pow_add_r by lia. ring. }
    assert (0 <= 2 ^ 52 * D) by lia. split; [lia|intros _; exact K].
Qed.

(** an integral number of units rounded *)
Lemma normalize_err z : finite (binary_normalize 53 1024 z (-1074) false) -> 2 ^ 53 * Z.abs (tiny (binary_normalize 53 1024 z (-1074) false) - z) <= Z.abs z.
Proof.
  assert (Hpos : forall p, finite (binary_round 53 1024 false p (-1074)) -> 2 ^ 53 * Z.abs (tiny (binary_round 53 1024 false p (-1074)) - Zpos p) <= Zpos p).
  { intros p. unfold binary_round. destruct (align_spec p (-1074) (fx (Z.pos (digits2_pos p) + -1074))) as (a & b & -> & Hb & Ha). rewrite fx_def in Hb.
    assert (Eb : b = -1074) by lia. clear Hb. subst b. rewrite Z.sub_diag, Z.pow_0_r, Z.mul_1_r in Ha. injection Ha as ->.
    intros Hf. rewrite <- (Z.div_1_r (Z.pos p)), <- (pos_of_1 (Z.pos p)) in Hf |- *. 
    destruct (round_err (Z.pos p) 1 (-1074) false) with (5 := Hf) as (M & -> & _ & _ & K); try lia; [rewrite fx_def; lia|]. specialize (K eq_refl).
    cbn [cond_Zopp]. rewrite Z.div_1_r. change (2 ^ (-1074 + 1074)) with 1 in K. rewrite !Z.mul_1_r in K. exact K. }
  intros Hf. destruct z as [|p|p]; [cbn; lia|apply Hpos, Hf|]. change (Z.neg p) with (- Z.pos p) in *. rewrite normalize_opp in * by lia. cbn [binary_normalize] in *. rewrite tiny_opp.
  assert (Hf' : finite (binary_round 53 1024 false p (-1074))) by (apply finite_opp in Hf; destruct (binary_round 53 1024 false p (-1074)); exact Hf).
  specialize (Hpos p Hf'). replace (- tiny (binary_round 53 1024 false p (-1074)) - - Z.pos p) with (- (tiny (binary_round 53 1024 false p (-1074)) - Z.pos p)) by ring.
  rewrite !Z.abs_opp. lia.
Qed.

Lemma finite_rank x y : finite x -> double y -> f_isnan y = false -> rank x = rank y -> finite y.
Proof. intros Hx Hy Hn H. destruct x as [s|s| |s m e], y as [s'|s'| |s' m' e']; try contradiction; try discriminate; auto; destruct s, s'; discriminate. Qed.

(** the relative error of a difference and of a sum *)
Lemma sub_err x y : finite x -> finite y -> finite (fsub x y) -> 2 ^ 53 * Z.abs (tiny (fsub x y) - (tiny x - tiny y)) <= Z.abs (tiny x - tiny y).
Proof.
  intros Hx Hy Hf. destruct (sub_rank x y (-1074) Hx Hy (finite_above x Hx) (finite_above y Hy)) as [E Hn].
  pose proof (normalize_num (tiny x - tiny y) (-1074)) as N1. pose proof (normalize_double (tiny x - tiny y) (-1074)) as D1. fold (tiny x) (tiny y) in E.
  pose proof (finite_rank _ _ Hf D1 N1 E) as Hf'. rewrite (tiny_rank _ _ Hf Hf' E). apply normalize_err, Hf'.
Qed.
Lemma add_sub x y : fadd x y = fsub x (SFopp y).
Proof.
  unfold fadd, fsub. destruct x as [s|s| |s m e], y as [s'|s'| |s' m' e']; cbn [SFadd SFsub SFopp]; rewrite ?negb_involutive; try reflexivity.
  f_equal. destruct s'; cbn [cond_Zopp negb]; lia.
Qed.
Lemma add_err x y : finite x -> finite y -> finite (fadd x y) -> 2 ^ 53 * Z.abs (tiny (fadd x y) - (tiny x + tiny y)) <= Z.abs (tiny x + tiny y).
Proof.
  intros Hx Hy. rewrite add_sub. intros Hf. pose proof (sub_err x (SFopp y) Hx (finite_opp y Hy) Hf) as H. rewrite tiny_opp in H. replace (tiny x - - tiny y) with (tiny x + tiny y) in H by ring. exact H.
Qed.
Lemma add_double x y : finite x -> finite y -> double (fadd x y).
Proof. intros Hx Hy. rewrite add_sub. apply sub_double; [exact Hx|apply finite_opp, Hy]. Qed.

(** the sum of [k] copies of a number, in any order *)
Lemma sum_copies x l s : finite x -> added l s -> Forall (eq x) l -> Z.of_nat (length l) <= 2 ^ 52 -> double s /\ (finite s -> 
  (l = [] -> s = f_zero) /\ 2 ^ 52 * Z.abs (tiny s - Z.of_nat (length l) * tiny x) <= Z.of_nat (length l) * Z.of_nat (length l) * Z.abs (tiny x)).
Proof.
  intros Hx. induction 1 as [|y|l l1 l2 a b Hp _ IH1 _ IH2]; intros Hall Hlen.
  - split; [exact I|]. intros _. split; [reflexivity|]. cbn. lia.
  - inversion Hall; subst. split; [destruct y; try exact I; exact Hx|]. intros _. split; [discriminate|]. cbn [length]. change (Z.of_nat 1) with 1. rewrite !Z.mul_1_l, Z.sub_diag. cbn [Z.abs]. lia.
  - rewrite Hp in Hall. apply Forall_app in Hall as [A1 A2]. rewrite (Permutation_length Hp), app_length, Nat2Z.inj_add in Hlen |- *.
    destruct (IH1 A1 ltac:(lia)) as [D1 K1]. destruct (IH2 A2 ltac:(lia)) as [D2 K2]. clear IH1 IH2.
    assert (Hd : double (fadd a b) /\ (finite (fadd a b) -> finite a /\ finite b)).
    { destruct a as [s|s| |s m e], b as [s'|s'| |s' m' e']; try (split; [apply add_double; assumption|intros _; split; assumption]); cbn; try (destruct s, s'; cbn; tauto); tauto. }
    destruct Hd as [Hd Hf]. split; [exact Hd|]. intros Hs. destruct (Hf Hs) as [Fa Fb]. destruct (K1 Fa) as [Z1 B1]. destruct (K2 Fb) as [Z2 B2]. clear K1 K2 Hf.
    set (k1 := Z.of_nat (length l1)) in *. set (k2 := Z.of_nat (length l2)) in *.
    split.
    + intros ->. apply Permutation_nil in Hp. apply app_eq_nil in Hp as [-> ->]. rewrite (Z1 eq_refl), (Z2 eq_refl). reflexivity.
    + destruct (Z.eq_dec k1 0) as [E1|N1]; [|destruct (Z.eq_dec k2 0) as [E2|N2]].
      * assert (El : l1 = []) by (destruct l1; [reflexivity|cbn in k1; lia]). rewrite (Z1 El) in *. replace (tiny (fadd f_zero b)) with (tiny b) by (destruct b as [[]|[]| |[] m e]; reflexivity).
        rewrite E1, Z.add_0_l. exact B2.
      * assert (El : l2 = []) by (destruct l2; [reflexivity|cbn in k2; lia]). rewrite (Z2 El) in *. replace (tiny (fadd a f_zero)) with (tiny a) by (destruct a as [[]|[]| |[] m e]; reflexivity).
        rewrite E2, Z.add_0_r. exact B1.
      * pose proof (add_err a b Fa Fb Hs) as B3. set (X := tiny x) in *. set (S1 := tiny a) in *. set (S2 := tiny b) in *. set (S := tiny (fadd a b)) in *.
        assert (P1 : 0 < k1) by lia. assert (P2 : 0 < k2) by lia. clearbody k1 k2 X S1 S2 S.
        set (k := k1 + k2) in *. set (mx := Z.max k1 k2). assert (Hmx : mx + 1 <= k) by lia.
        assert (Q : 2 ^ 52 * Z.abs (S1 + S2 - k * X) <= mx * k * Z.abs X).
        { replace (S1 + S2 - k * X) with ((S1 - k1 * X) + (S2 - k2 * X)) by (unfold k; ring). pose proof (Z.abs_triangle (S1 - k1 * X) (S2 - k2 * X)).
          assert (k1 * k1 * Z.abs X <= mx * k1 * Z.abs X) by (apply Z.mul_le_mono_nonneg_r; [lia|nia]). assert (k2 * k2 * Z.abs X <= mx * k2 * Z.abs X) by (apply Z.mul_le_mono_nonneg_r; [lia|nia]).
          replace (mx * k * Z.abs X) with (mx * k1 * Z.abs X + mx * k2 * Z.abs X) by (unfold k; ring). lia. }
        assert (Q2 : Z.abs (S1 + S2) <= 2 * (k * Z.abs X)).
        { assert (Z.abs (S1 + S2) <= Z.abs (S1 + S2 - k * X) + Z.abs (k * X)) by (pose proof (Z.abs_triangle (S1 + S2 - k * X) (k * X)) as T; replace (S1 + S2 - k * X + k * X) with (S1 + S2) in T by ring; exact T).
          rewrite Z.abs_mul, (Z.abs_eq k) in H by lia. assert (0 <= k * Z.abs X) by (apply Z.mul_nonneg_nonneg; lia).
          assert (mx * k * Z.abs X <= 2 ^ 52 * (k * Z.abs X)) by (rewrite <- Z.mul_assoc; apply Z.mul_le_mono_nonneg_r; lia). lia. }
        assert (Q3 : Z.abs (S - k * X) <= Z.abs (S - (S1 + S2)) + Z.abs (S1 + S2 - k * X)) by (pose proof (Z.abs_triangle (S - (S1 + S2)) (S1 + S2 - k * X)) as T; replace (S - (S1 + S2) + (S1 + S2 - k * X)) with (S - k * X) in T by ring; exact T).
        change (2 ^ 53) with (2 * 2 ^ 52) in B3.
        assert (Q4 : 2 ^ 52 * Z.abs (S - (S1 + S2)) <= k * Z.abs X) by lia.
        assert ((mx + 1) * (k * Z.abs X) <= k * (k * Z.abs X)) by (apply Z.mul_le_mono_nonneg_r; [apply Z.mul_nonneg_nonneg; lia|lia]).
        replace (k * k * Z.abs X) with (k * (k * Z.abs X)) by ring. replace (mx * k * Z.abs X) with (mx * (k * Z.abs X)) in Q by ring. lia.
Qed.

(** a count is a double *)
Lemma count_double k : 0 < k <= 2 ^ 52 -> exists m e, f_ofZ k = S754_finite false m e /\ e <= 0 /\ Zpos m = k * 2 ^ (- e) /\ finite (f_ofZ k).
Proof.
  intros Hk. destruct k as [|p|p]; try lia. pose proof (normalize_double (Z.pos p) 0) as Hd. unfold f_ofZ. cbn [binary_normalize] in *. unfold binary_round in *.
  destruct (align_spec p 0 (fx (Z.pos (digits2_pos p) + 0))) as (a & b & E & Hb & Ha). rewrite E in *. rewrite Z.add_0_r, fx_def in Hb. change (Z.pos (digits2_pos p)) with (Zdigits2 (Z.pos p)) in Hb.
  assert (Hdig : Zdigits2 (Z.pos p) <= 53) by (apply digits_le; [lia|lia|]; change (2 ^ 53) with (2 * 2 ^ 52); lia).
  assert (D0 : 0 < Zdigits2 (Z.pos p)) by reflexivity. assert (Eb : b = Zdigits2 (Z.pos p) - 53) by lia. clear Hb.
  pose proof (digits_bounds p) as [D1 D2]. replace (0 - b) with (- b) in Ha by lia.
  assert (A2 : Z.pos a < 2 ^ 53). { rewrite Ha. replace (2 ^ 53) with (2 ^ Zdigits2 (Z.pos p) * 2 ^ (- b)) by (rewrite <- Z.pow_add_r by lia; f_equal; lia). apply Z.mul_lt_mono_pos_r; [apply Z.pow_pos_nonneg; lia|exact D2]. }
  assert (A1 : 2 ^ 52 <= Z.pos a). { rewrite Ha. replace (2 ^ 52) with (2 ^ (Zdigits2 (Z.pos p) - 1) * 2 ^ (- b)) by (rewrite <- Z.pow_add_r by lia; f_equal; lia). apply Z.mul_le_mono_nonneg_r; [apply Z.pow_nonneg; lia|exact D1]. }
  assert (Hda : Zdigits2 (Z.pos a) = 53). { assert (Zdigits2 (Z.pos a) <= 53) by (apply digits_le; lia). assert (52 < Zdigits2 (Z.pos a)) by (apply digits_ge; lia). lia. }
  destruct (round_value (Z.pos a) 1 b) as [_ V]; try lia; [rewrite Z.div_1_r, fx_def; lia|]. specialize (V false). rewrite Z.div_1_r, pos_of_1, fx_def, Hda in V.
  replace (Z.max (53 + b - 53) (-1074)) with b in V by lia. rewrite Z.sub_diag in V. change (1 * 2 ^ 0) with 1 in V. rewrite rne_1 in V.
  unfold pack in V. destruct (Z.eqb_spec (Z.pos a) 0); [lia|]. destruct (Z.ltb_spec (Z.pos a) (2 ^ 53)); [|lia]. destruct (Z.leb_spec b 971); [|lia]. cbn [Z.to_pos] in V.
  exists a, b. rewrite V in *. split; [reflexivity|]. split; [lia|]. split; [exact Ha|exact Hd].
Qed.

(** the error of a division by a count *)
Lemma div_err x k : finite x -> 0 < k <= 2 ^ 52 -> finite (fdiv x (f_ofZ k)) ->
  2 ^ 53 * Z.abs (tiny (fdiv x (f_ofZ k)) * k - tiny x) <= Z.abs (tiny x) + 2 ^ 52 * k.
Proof.
  intros Hx Hk. destruct (count_double k Hk) as (m' & e' & E & He' & Hm' & _). rewrite E. clear E. destruct x as [s|s| |s m e]; try contradiction.
  { intros _. unfold tiny, fdiv. cbn [SFdiv units]. rewrite Z.mul_0_l, Z.sub_diag. change (Z.abs 0) with 0. lia. }
  unfold fdiv. cbn [SFdiv]. destruct (div_core m e m' e') as (A & q & e1 & -> & -> & [H1 H1'] & HA & Hf). intros Hfin.
  replace (xorb s false) with s in * by (destruct s; reflexivity).
  destruct (bnd_spec m e Hx) as (_ & _ & Hlow & _ & _).
  assert (HA0 : 0 <= A) by (rewrite HA; apply Z.mul_nonneg_nonneg; [lia|apply Z.pow_nonneg; lia]).
  destruct (round_err A (Z.pos m') e1 s HA0 ltac:(lia) ltac:(lia) Hf Hfin) as (M & -> & HM & K & _). clear Hfin.
  assert (P0 : 0 < 2 ^ (- e')) by (apply Z.pow_pos_nonneg; lia).
  assert (ET : A * 2 ^ (e1 + 1074) = (Z.pos m * 2 ^ (e + 1074)) * 2 ^ (- e')).
  { rewrite HA, <- !Z.mul_assoc, <- !Z.pow_add_r by lia. do 2 f_equal. lia. }
  assert (EX : Z.abs (tiny (S754_finite s m e)) = Z.pos m * 2 ^ (e + 1074)).
  { unfold tiny. cbn [units]. replace (e - -1074) with (e + 1074) by lia. assert (0 <= Z.pos m * 2 ^ (e + 1074)) by (apply Z.mul_nonneg_nonneg; [lia|apply Z.pow_nonneg; lia]). destruct s; cbn [cond_Zopp]; lia. }
  assert (EY : Z.abs (cond_Zopp s M * k - tiny (S754_finite s m e)) = Z.abs (M * k - Z.pos m * 2 ^ (e + 1074))).
  { unfold tiny. cbn [units]. replace (e - -1074) with (e + 1074) by lia. destruct s; cbn [cond_Zopp]; [rewrite <- Z.abs_opp|]; f_equal; ring. }
  rewrite EX, EY. rewrite ET, Hm' in K.
  replace (M * (k * 2 ^ (- e')) - Z.pos m * 2 ^ (e + 1074) * 2 ^ (- e')) with ((M * k - Z.pos m * 2 ^ (e + 1074)) * 2 ^ (- e')) in K by ring.
  rewrite Z.abs_mul, (Z.abs_eq (2 ^ (- e'))) in K by lia.
  apply (Z.mul_le_mono_pos_r _ _ (2 ^ (- e'))); [exact P0|].
  replace (2 ^ 53 * Z.abs (M * k - Z.pos m * 2 ^ (e + 1074)) * 2 ^ (- e')) with (2 ^ 53 * (Z.abs (M * k - Z.pos m * 2 ^ (e + 1074)) * 2 ^ (- e'))) by ring.
  replace ((Z.pos m * 2 ^ (e + 1074) + 2 ^ 52 * k) * 2 ^ (- e')) with (Z.pos m * 2 ^ (e + 1074) * 2 ^ (- e') + 2 ^ 52 * (k * 2 ^ (- e'))) by ring. exact K.
Qed.

(** no overflow *)
Lemma normalize_finite z : Z.abs z <= 2 ^ 2097 -> finite (binary_normalize 53 1024 z (-1074) false).
Proof.
  intros H.
  assert (Hm : forall y, y <= 2 ^ 2097 -> fle (binary_normalize 53 1024 y (-1074) false) (S754_finite false 4503599627370496 971)).
  { intros y Hy. replace (S754_finite false 4503599627370496 971) with (binary_normalize 53 1024 (2 ^ 2097) (-1074) false) by (vm_compute; reflexivity).
    apply normalize_mono. rewrite Z.min_id, Z.sub_diag, Z.pow_0_r. lia. }
  apply (double_between _ (S754_finite true 4503599627370496 971) (S754_finite false 4503599627370496 971)); [apply normalize_double|reflexivity|reflexivity| |apply Hm; lia].
  destruct (Z.eq_dec z 0) as [->|N]; [repeat split|]. replace z with (- - z) by lia. rewrite normalize_opp by lia. change (S754_finite true 4503599627370496 971) with (SFopp (S754_finite false 4503599627370496 971)).
  apply fle_opp, Hm. lia.
Qed.
Lemma sub_finite x y : finite x -> finite y -> Z.abs (tiny x - tiny y) <= 2 ^ 2097 -> finite (fsub x y).
Proof.
  intros Hx Hy H. destruct (sub_rank x y (-1074) Hx Hy (finite_above x Hx) (finite_above y Hy)) as [E Hn]. fold (tiny x) (tiny y) in E.
  eapply finite_rank; [apply normalize_finite, H|apply sub_double; assumption|exact Hn|symmetry; exact E].
Qed.
Lemma add_finite x y : finite x -> finite y -> Z.abs (tiny x + tiny y) <= 2 ^ 2097 -> finite (fadd x y).
Proof. intros Hx Hy H. rewrite add_sub. apply sub_finite; [exact Hx|apply finite_opp, Hy|]. rewrite tiny_opp. replace (tiny x - - tiny y) with (tiny x + tiny y) by ring. exact H. Qed.

Lemma div_finite x k : finite x -> 0 < k <= 2 ^ 52 -> finite (fdiv x (f_ofZ k)).
Proof.
  intros Hx Hk. destruct (count_double k Hk) as (m' & e' & E & He' & Hm' & _). rewrite E. clear E. pose proof (div_double x m' e' Hx) as Hd. destruct x as [s|s| |s m e]; try contradiction; [exact I|].
  unfold fdiv in *. cbn [SFdiv] in *. destruct (div_core m e m' e') as (A & q & e1 & E & -> & [H1 H1'] & HA & Hf). rewrite E in *. clear E.
  destruct (bnd_spec m e Hx) as (Ce & Ce2 & Hlow & Hm53 & _).
  assert (HA0 : 0 <= A) by (rewrite HA; apply Z.mul_nonneg_nonneg; [lia|apply Z.pow_nonneg; lia]).
  assert (P0 : 0 < 2 ^ (- e')) by (apply Z.pow_pos_nonneg; lia). assert (Pm : 2 ^ (- e') <= Z.pos m') by (rewrite Hm'; nia).
  destruct (round_value A (Z.pos m') e1 HA0 ltac:(lia) Hf) as [HB V]. rewrite V in *. clear V. set (q := A / Z.pos m') in *. set (E := fx (Zdigits2 q + e1)) in *.
  assert (Hq0 : 0 <= q) by (apply Z.div_pos; lia).
  assert (Hqd : q * Z.pos m' <= A) by (unfold q; rewrite Z.mul_comm; apply Z.mul_div_le; lia).
  assert (HE : E <= e).
  { unfold E in *. rewrite fx_def in *. destruct q as [|p|p] eqn:Eq; [cbn [Zdigits2] in *; lia| |lia].
    pose proof (digits_bounds p) as [D1 _]. pose proof (digits_bounds m) as [_ D2]. assert (D0 : 0 < Zdigits2 (Z.pos p)) by reflexivity. assert (D0' : 0 < Zdigits2 (Z.pos m)) by reflexivity.
    enough (Zdigits2 (Z.pos p) - 1 - e' < Zdigits2 (Z.pos m) + (e - e' - e1)) by lia.
    apply (Z.pow_lt_mono_r_iff 2); [lia|lia|]. replace (Zdigits2 (Z.pos p) - 1 - e') with ((Zdigits2 (Z.pos p) - 1) + - e') by lia. rewrite !Z.pow_add_r by lia.
    apply Z.le_lt_trans with A; [|rewrite HA; apply Z.mul_lt_mono_pos_r; [apply Z.pow_pos_nonneg; lia|exact D2]].
    apply Z.le_trans with (Z.pos p * Z.pos m'); [|exact Hqd]. apply Z.mul_le_mono_nonneg; try lia. }
  assert (HP : 0 < 2 ^ (E - e1)) by (apply Z.pow_pos_nonneg; lia).
  assert (HM : rne A (Z.pos m' * 2 ^ (E - e1)) < 2 ^ 53 \/ E < e).
  { destruct (Z.eq_dec E e) as [Ee|N]; [left|right; lia]. apply Z.le_lt_trans with (Z.pos m); [|exact Hm53]. rewrite <- (rne_1 (Z.pos m)). apply rne_mono; try lia.
    rewrite HA, Z.mul_1_r. replace (e - e' - e1) with (- e' + (E - e1)) by lia. rewrite Z.pow_add_r by lia. apply Z.mul_le_mono_nonneg_l; [lia|]. apply Z.mul_le_mono_nonneg_r; lia. }
  unfold pack in *. destruct (_ =? 0); [exact I|]. destruct (Z.ltb_spec (rne A (Z.pos m' * 2 ^ (E - e1))) (2 ^ 53)).
  - destruct (Z.leb_spec E 971); [exact Hd|lia].
  - destruct (Z.leb_spec (E + 1) 971); [exact Hd|lia].
Qed.

Lemma copies_size x l s : finite x -> added l s -> Forall (eq x) l -> Z.of_nat (length l) <= 2 ^ 52 -> finite s -> Z.abs (tiny s) <= 2 * (Z.of_nat (length l) * Z.abs (tiny x)).
Proof.
  intros Hx Ha Hl Hn Hs. destruct (sum_copies x l s Hx Ha Hl Hn) as [_ K]. destruct (K Hs) as [_ B]. set (k := Z.of_nat (length l)) in *. assert (0 <= k) by lia. set (X := tiny x) in *. set (S := tiny s) in *. clearbody k X S.
  assert (T : Z.abs S <= Z.abs (S - k * X) + Z.abs (k * X)) by (pose proof (Z.abs_triangle (S - k * X) (k * X)) as T; replace (S - k * X + k * X) with S in T by ring; exact T).
  rewrite Z.abs_mul, (Z.abs_eq k) in T by lia. assert (0 <= k * Z.abs X) by (apply Z.mul_nonneg_nonneg; lia).
  assert (k * k * Z.abs X <= 2 ^ 52 * (k * Z.abs X)) by (rewrite <- Z.mul_assoc; apply Z.mul_le_mono_nonneg_r; lia). lia.
Qed.
Lemma copies_finite x l s : finite x -> added l s -> Forall (eq x) l -> Z.of_nat (length l) <= 2 ^ 52 -> 2 * (Z.of_nat (length l) * Z.abs (tiny x)) <= 2 ^ 2097 -> finite s.
Proof.
  intros Hx. induction 1 as [|y|l l1 l2 a b Hp A1 IH1 A2 IH2]; intros Hall Hlen Hb; [exact I|inversion Hall; subst; exact Hx|].
  rewrite Hp in Hall. apply Forall_app in Hall as [L1 L2]. rewrite (Permutation_length Hp), app_length, Nat2Z.inj_add in Hlen, Hb.
  assert (0 <= Z.of_nat (length l1) * Z.abs (tiny x)) by (apply Z.mul_nonneg_nonneg; lia). assert (0 <= Z.of_nat (length l2) * Z.abs (tiny x)) by (apply Z.mul_nonneg_nonneg; lia).
  rewrite Z.mul_add_distr_r in Hb. assert (Fa : finite a) by (apply IH1; [exact L1|lia|lia]). assert (Fb : finite b) by (apply IH2; [exact L2|lia|lia]).
  apply add_finite; [exact Fa|exact Fb|]. pose proof (copies_size x l1 a Hx A1 L1 ltac:(lia) Fa). pose proof (copies_size x l2 b Hx A2 L2 ltac:(lia) Fb).
  pose proof (Z.abs_triangle (tiny a) (tiny b)). lia.
Qed.

(** the mean of copies of a number minus the number *)
Theorem mean_minus x l s : finite x -> added l s -> Forall (eq x) l -> 0 < Z.of_nat (length l) <= 2 ^ 50 -> 2 * (Z.of_nat (length l) * Z.abs (tiny x)) <= 2 ^ 2097 ->
  let v := fsub (fdiv s (f_ofZ (Z.of_nat (length l)))) x in
  finite v /\ 2 ^ 52 * Z.abs (tiny v) <= (Z.of_nat (length l) + 2) * Z.abs (tiny x) + 2 ^ 52.
Proof.
  intros Hx Ha Hl Hn Hb v. change (2 ^ 52) with (4 * 2 ^ 50). set (H50 := 2 ^ 50) in *. assert (E50 : H50 = 1125899906842624) by reflexivity. assert (E53 : 2 ^ 53 = 8 * H50) by reflexivity. assert (E52 : 2 ^ 52 = 4 * H50) by reflexivity.
  assert (Hn52 : Z.of_nat (length l) <= 2 ^ 52) by lia.
  pose proof (copies_finite x l s Hx Ha Hl Hn52 Hb) as Hs. pose proof (copies_size x l s Hx Ha Hl Hn52 Hs) as Hsz. destruct (sum_copies x l s Hx Ha Hl Hn52) as [_ K]. destruct (K Hs) as [_ B1]. clear K.
  set (k := Z.of_nat (length l)) in *. assert (Hk : 0 < k <= 2 ^ 52) by lia.
  pose proof (div_finite s k Hs Hk) as Hd. pose proof (div_err s k Hs Hk Hd) as B2. set (d := fdiv s (f_ofZ k)) in *.
  set (X := tiny x) in *. set (S := tiny s) in *. set (D := tiny d) in *.
  assert (B3 : 2 ^ 53 * Z.abs (D - X) <= (2 * k + 2) * Z.abs X + 2 ^ 52).
  { apply (Z.mul_le_mono_pos_r _ _ k); [lia|].
    replace (2 ^ 53 * Z.abs (D - X) * k) with (2 ^ 53 * Z.abs (D * k - k * X)) by (replace (D * k - k * X) with ((D - X) * k) by ring; rewrite Z.abs_mul, (Z.abs_eq k) by lia; ring).
    assert (T : Z.abs (D * k - k * X) <= Z.abs (D * k - S) + Z.abs (S - k * X)) by (pose proof (Z.abs_triangle (D * k - S) (S - k * X)) as T; replace (D * k - S + (S - k * X)) with (D * k - k * X) in T by ring; exact T).
    replace (((2 * k + 2) * Z.abs X + 2 ^ 52) * k) with (2 * (k * k * Z.abs X) + 2 * (k * Z.abs X) + 2 ^ 52 * k) by ring. rewrite E53, E52 in *. clearbody H50. lia. }
  clear B1 B2.
  assert (Hsmall : Z.abs (D - X) <= 2 ^ 2097).
  { assert (M : (2 * k + 2) * Z.abs X <= 2 ^ 2097 + 2 ^ 2097) by (assert (Z.abs X <= k * Z.abs X) by nia; replace ((2 * k + 2) * Z.abs X) with (2 * (k * Z.abs X) + 2 * Z.abs X) by ring; lia).
    change (2 ^ 2097) with (2 ^ 52 * 2 ^ 2045) in *. assert (1 <= 2 ^ 2045) by (vm_compute; discriminate). set (W := 2 ^ 2045) in *. clearbody W. rewrite E53, E52 in *. clearbody H50. lia. }
  split; [apply sub_finite; assumption|].
  pose proof (sub_err d x Hd Hx (sub_finite d x Hd Hx Hsmall)) as B4. fold v X D in B4. set (V := tiny v) in *.
  assert (T : Z.abs V <= Z.abs (V - (D - X)) + Z.abs (D - X)) by (pose proof (Z.abs_triangle (V - (D - X)) (D - X)) as T; replace (V - (D - X) + (D - X)) with V in T by ring; exact T).
  assert (T2 : 2 ^ 53 * Z.abs V <= (2 ^ 53 + 1) * Z.abs (D - X)) by lia.
  (* (k + 1) X is at most 2^51 X *)
  assert (B5 : 2 ^ 53 * (2 ^ 53 * Z.abs V) <= (2 ^ 53 + 1) * ((2 * k + 2) * Z.abs X + 2 ^ 52)) by (apply Z.le_trans with ((2 ^ 53 + 1) * (2 ^ 53 * Z.abs (D - X))); [replace ((2 ^ 53 + 1) * (2 ^ 53 * Z.abs (D - X))) with (2 ^ 53 * ((2 ^ 53 + 1) * Z.abs (D - X))) by ring; apply Z.mul_le_mono_nonneg_l; [lia|exact T2]|apply Z.mul_le_mono_nonneg_l; lia]).
  assert (B6 : (2 * k + 2) * Z.abs X <= 2 ^ 53 * (2 * Z.abs X)) by (apply Z.le_trans with ((2 ^ 53 * 2) * Z.abs X); [apply Z.mul_le_mono_nonneg_r; lia|lia]).
  rewrite E53, E52 in *.
  assert (B7 : 8 * H50 * (8 * H50 * Z.abs V) <= 8 * H50 * (2 * ((k + 2) * Z.abs X + 4 * H50))).
  { eapply Z.le_trans; [exact B5|]. replace (8 * H50 * (2 * ((k + 2) * Z.abs X + 4 * H50))) with (8 * H50 * ((2 * k + 2) * Z.abs X) + 8 * H50 * (2 * Z.abs X) + 64 * H50 * H50) by ring.
    replace ((8 * H50 + 1) * ((2 * k + 2) * Z.abs X + 4 * H50)) with (8 * H50 * ((2 * k + 2) * Z.abs X) + (2 * k + 2) * Z.abs X + 32 * H50 * H50 + 4 * H50) by ring.
    assert (4 * H50 <= 32 * H50 * H50) by nia. lia. }
  apply Z.mul_le_mono_pos_l in B7; [|lia]. lia.
Qed.
