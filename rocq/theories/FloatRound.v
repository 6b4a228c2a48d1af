(** Rounding to nearest never crosses a double: if the exact result is at most (at least) a
    double, so is the rounded result. *)
From Verif Require Import Py Num Float.
From Coq Require Import ZArith Zpower SpecFloat Lia.
Open Scope Z_scope.

Notation bnd := (bounded 53 1024).
Notation fx := (fexp 53 1024).
Notation rnd_aux := (binary_round_aux 53 1024).

Lemma fx_def e : fx e = Z.max (e - 53) (-1074).
Proof. reflexivity. Qed.

Lemma digits_bounds p : 2 ^ (Zdigits2 (Zpos p) - 1) <= Zpos p < 2 ^ Zdigits2 (Zpos p).
Proof.
  cbn [Zdigits2]. induction p as [p IH|p IH|]; cbn [digits2_pos]; [| |cbn; lia];
    rewrite Pos2Z.inj_succ, <- Z.add_1_r;
    replace (Z.pos (digits2_pos p) + 1 - 1) with ((Z.pos (digits2_pos p) - 1) + 1) by lia;
    rewrite !Z.pow_add_r by lia; change (2 ^ 1) with 2; lia.
Qed.

Lemma digits_nonneg m : 0 <= m -> 0 <= Zdigits2 m /\ m < 2 ^ Zdigits2 m.
Proof. intros H. destruct m as [|p|p]; [cbn; lia| |lia]. pose proof (digits_bounds p). cbn [Zdigits2] in *. lia. Qed.

Lemma digits_le m d : 0 <= m -> 0 <= d -> m < 2 ^ d -> Zdigits2 m <= d.
Proof.
  intros H Hd Hm. destruct m as [|p|p]; [cbn; lia| |lia]. pose proof (digits_bounds p) as [H1 _].
  destruct (Z.le_gt_cases (Zdigits2 (Z.pos p)) d) as [|Hgt]; [assumption|].
  assert (2 ^ d <= 2 ^ (Zdigits2 (Z.pos p) - 1)) by (apply Z.pow_le_mono_r; lia). lia.
Qed.

Lemma digits_ge m d : 0 <= d -> 2 ^ d <= m -> d < Zdigits2 m.
Proof.
  intros Hd Hm. assert (0 < 2 ^ d) by (apply Z.pow_pos_nonneg; lia). destruct (digits_nonneg m) as [H1 H2]; [lia|].
  destruct (Z.le_gt_cases (Zdigits2 m) d) as [Hle|]; [|assumption].
  assert (2 ^ Zdigits2 m <= 2 ^ d) by (apply Z.pow_le_mono_r; lia). lia.
Qed.

(** ** Shifting right *)
Lemma shr_1_m x : 0 <= shr_m x -> shr_m (shr_1 x) = shr_m x / 2.
Proof. destruct x as [[|[p|p|]|p] r s]; cbn [shr_m shr_1]; intros H; try lia; try reflexivity.
  - rewrite Pos2Z.inj_xI, Z.mul_comm, Z.div_add_l by lia. cbn. lia.
  - rewrite Pos2Z.inj_xO, Z.mul_comm, Z.div_mul by lia. reflexivity. Qed.

Lemma iter_shr_m n : forall x, 0 <= shr_m x -> shr_m (iter_pos shr_1 n x) = shr_m x / 2 ^ Zpos n.
Proof.
  assert (Hpos : forall x, 0 <= shr_m x -> 0 <= shr_m x / 2) by (intros; apply Z.div_pos; lia).
  induction n as [n IH|n IH|]; intros x H; cbn [iter_pos].
  - assert (H1 : 0 <= shr_m (shr_1 x)) by (rewrite shr_1_m by exact H; auto).
    assert (H2 : 0 <= shr_m (iter_pos shr_1 n (shr_1 x))) by (rewrite IH by exact H1; apply Z.div_pos; [exact H1|apply Z.pow_pos_nonneg; lia]).
    rewrite IH, IH, shr_1_m by assumption. assert (Hp : 0 < 2 ^ Z.pos n) by (apply Z.pow_pos_nonneg; lia).
    rewrite !Z.div_div by nia. replace (2 ^ Z.pos n~1) with (2 * (2 ^ Z.pos n * 2 ^ Z.pos n)); [reflexivity|].
    rewrite Pos2Z.inj_xI. replace (2 * Z.pos n + 1) with (1 + (Z.pos n + Z.pos n)) by lia. rewrite !Z.pow_add_r by lia. reflexivity.
  - assert (H2 : 0 <= shr_m (iter_pos shr_1 n x)) by (rewrite IH by exact H; apply Z.div_pos; [exact H|apply Z.pow_pos_nonneg; lia]).
    rewrite IH, IH by assumption. assert (Hp : 0 < 2 ^ Z.pos n) by (apply Z.pow_pos_nonneg; lia).
    rewrite Z.div_div by nia. replace (2 ^ Z.pos n~0) with (2 ^ Z.pos n * 2 ^ Z.pos n); [reflexivity|].
    replace (Z.pos n~0) with (Z.pos n + Z.pos n) by lia. rewrite !Z.pow_add_r by lia. reflexivity.
  - apply shr_1_m, H.
Qed.

(** nothing is lost when the shifted out digits are 0 *)
Lemma iter_shr_exact n : forall q, 0 <= q -> iter_pos shr_1 n {| shr_m := q * 2 ^ Zpos n; shr_r := false; shr_s := false |} = {| shr_m := q; shr_r := false; shr_s := false |}.
Proof.
  assert (H1 : forall q, 0 <= q -> shr_1 {| shr_m := q * 2; shr_r := false; shr_s := false |} = {| shr_m := q; shr_r := false; shr_s := false |}).
  { intros [|p|p] H; [reflexivity| |lia]. rewrite Z.mul_comm. reflexivity. }
  induction n as [n IH|n IH|]; intros q H; cbn [iter_pos].
  - replace (q * 2 ^ Z.pos n~1) with ((q * 2 ^ Z.pos n) * 2 ^ Z.pos n * 2)
      by (replace (Z.pos n~1) with (Z.pos n + Z.pos n + 1) by lia; rewrite !Z.pow_add_r by lia; change (2 ^ 1) with 2; ring).
    assert (0 < 2 ^ Z.pos n) by (apply Z.pow_pos_nonneg; lia).
    rewrite H1 by (apply Z.mul_nonneg_nonneg; [apply Z.mul_nonneg_nonneg; lia|lia]). rewrite IH by (apply Z.mul_nonneg_nonneg; lia). apply IH, H.
  - replace (q * 2 ^ Z.pos n~0) with ((q * 2 ^ Z.pos n) * 2 ^ Z.pos n)
      by (replace (Z.pos n~0) with (Z.pos n + Z.pos n) by lia; rewrite !Z.pow_add_r by lia; ring).
    assert (0 < 2 ^ Z.pos n) by (apply Z.pow_pos_nonneg; lia).
    rewrite IH by (apply Z.mul_nonneg_nonneg; lia). apply IH, H.
  - apply H1, H.
Qed.

Lemma rec_m m l : shr_m (shr_record_of_loc m l) = m.
Proof. destruct l as [|[]]; reflexivity. Qed.

(** shr by n >= 0 *)
Lemma shr_spec m l e n : 0 <= m -> 0 <= n ->
  exists x, shr (shr_record_of_loc m l) e n = (x, e + n) /\ shr_m x = m / 2 ^ n
    /\ (l = loc_Exact -> (exists q, m = q * 2 ^ n) -> loc_of_shr_record x = loc_Exact).
Proof.
  intros Hm Hn. destruct n as [|p|p]; [| |lia].
  - exists (shr_record_of_loc m l). cbn [shr]. rewrite Z.add_0_r, rec_m, Z.pow_0_r, Z.div_1_r. split; [reflexivity|]. split; [reflexivity|]. intros -> _. reflexivity.
  - exists (iter_pos shr_1 p (shr_record_of_loc m l)). cbn [shr]. split; [reflexivity|]. split; [rewrite iter_shr_m by (rewrite rec_m; exact Hm); rewrite rec_m; reflexivity|].
    intros -> (q & ->). assert (0 < 2 ^ Z.pos p) by (apply Z.pow_pos_nonneg; lia). cbn [shr_record_of_loc]. rewrite iter_shr_exact by nia. reflexivity.
Qed.

Lemma shr_none x e n : n <= 0 -> shr x e n = (x, e).
Proof. destruct n; cbn; intros; [reflexivity|lia|reflexivity]. Qed.

Lemma bnd_spec m e : bnd m e = true -> e = fx (Zdigits2 (Zpos m) + e) /\ e <= 971 /\ -1074 <= e /\ Zpos m < 2 ^ 53 /\ (-1074 < e -> 2 ^ 52 <= Zpos m).
Proof.
  unfold bounded, canonical_mantissa. intros H. apply andb_true_iff in H as [H1 H2]. apply Zeq_bool_eq in H1. apply Zle_bool_imp_le in H2.
  change (Z.pos (digits2_pos m)) with (Zdigits2 (Z.pos m)) in H1. pose proof (digits_bounds m) as [B1 B2]. rewrite fx_def in *.
  assert (Hd : Zdigits2 (Z.pos m) <= 53) by lia. split; [lia|]. split; [exact H2|]. split; [lia|].
  assert (2 ^ Zdigits2 (Z.pos m) <= 2 ^ 53) by (apply Z.pow_le_mono_r; lia). split; [lia|].
  intros He. assert (Zdigits2 (Z.pos m) = 53) by lia. rewrite H0 in B1. exact B1.
Qed.

(** the two steps of the rounding: [m] in units of the last place, then rounded to [m2] *)
Lemma round_steps m e l : 0 <= m -> e <= fx (Zdigits2 m + e) ->
  let e1 := fx (Zdigits2 m + e) in let m1 := m / 2 ^ (e1 - e) in
  exists m2, (m2 = m1 \/ m2 = m1 + 1) /\ 0 <= m1 < 2 ^ 53
    /\ (l = loc_Exact -> (exists q, m = q * 2 ^ (e1 - e)) -> m2 = m1)
    /\ forall s, rnd_aux s m e l =
        if m2 =? 0 then S754_zero s
        else if m2 <? 2 ^ 53 then (if e1 <=? 971 then S754_finite s (Z.to_pos m2) e1 else S754_infinity s)
        else (if e1 + 1 <=? 971 then S754_finite s 4503599627370496 (e1 + 1) else S754_infinity s).
Proof.
  intros Hm He e1 m1. destruct (shr_spec m l e (e1 - e)) as (x & Ex & Hx & Hex); [exact Hm|unfold e1; lia|].
  exists (round_nearest_even (shr_m x) (loc_of_shr_record x)). fold m1 in Hx.
  assert (Hm1 : 0 <= m1 < 2 ^ 53).
  { unfold m1. assert (Hp : 0 < 2 ^ (e1 - e)) by (apply Z.pow_pos_nonneg; unfold e1; lia). split; [apply Z.div_pos; lia|].
    apply Z.div_lt_upper_bound; [exact Hp|]. destruct (digits_nonneg m Hm) as [D1 D2]. refine (Z.lt_le_trans _ _ _ D2 _).
    rewrite <- Z.pow_add_r by (unfold e1; lia). apply Z.pow_le_mono_r; [lia|]. unfold e1. rewrite fx_def. lia. }
  assert (Hr : round_nearest_even (shr_m x) (loc_of_shr_record x) = m1 \/ round_nearest_even (shr_m x) (loc_of_shr_record x) = m1 + 1).
  { rewrite Hx. destruct (loc_of_shr_record x) as [|[]]; cbn; auto. destruct (Z.even m1); auto. }
  split; [exact Hr|]. split; [exact Hm1|]. split.
  { intros Hl Hq. rewrite (Hex Hl Hq). cbn. exact Hx. }
  intros s. set (m2 := round_nearest_even (shr_m x) (loc_of_shr_record x)) in *.
  assert (Hm2 : 0 <= m2 <= 2 ^ 53) by lia.
  unfold binary_round_aux, shr_fexp at 1. fold e1. rewrite Ex. replace (e + (e1 - e)) with e1 by lia. fold m2. unfold shr_fexp.
  destruct (Z.eqb_spec m2 0) as [E0|N0].
  - rewrite E0. rewrite shr_none by (cbn [Zdigits2]; unfold e1; rewrite !fx_def; lia). reflexivity.
  - destruct (Z.ltb_spec m2 (2 ^ 53)) as [Hlt|Hge].
    + assert (Hd : Zdigits2 m2 <= 53) by (apply digits_le; lia).
      rewrite shr_none by (unfold e1 in *; rewrite !fx_def in *; lia). cbn [shr_record_of_loc shr_m]. destruct m2 as [|p|p]; [lia| |lia].
      cbn [Z.to_pos]. reflexivity.
    + assert (m2 = 2 ^ 53) as -> by lia. replace (fx (Zdigits2 (2 ^ 53) + e1) - e1) with 1.
      2: { change (Zdigits2 (2 ^ 53)) with 54. assert (-1074 <= e1) by (unfold e1; rewrite fx_def; lia). rewrite fx_def. lia. }
      reflexivity.
Qed.

(** ** Bounds *)
Definition fpos m e : F := S754_finite false m e.

Lemma fpos_ltb_false m1 e1 m2 e2 : e2 < e1 \/ (e2 = e1 /\ Zpos m2 <= Zpos m1) -> SFltb (fpos m1 e1) (fpos m2 e2) = false.
Proof.
  intros H. unfold SFltb, fpos. cbn [SFcompare]. destruct (Z.compare_spec e1 e2) as [E|L|G]; [|lia|reflexivity].
  pose proof (Pos.compare_spec m1 m2) as Hc. unfold Pos.compare in Hc. destruct Hc; try reflexivity. lia.
Qed.
Lemma fpos_zero_ltb m e s : SFltb (fpos m e) (S754_zero s) = false.
Proof. reflexivity. Qed.
Lemma fpos_inf_ltb m e : SFltb (S754_infinity false) (fpos m e) = false.
Proof. reflexivity. Qed.

Theorem round_aux_le m e l my ey : 0 <= m -> e <= fx (Zdigits2 m + e) -> bnd my ey = true -> e <= ey ->
  m < Zpos my * 2 ^ (ey - e) \/ (m = Zpos my * 2 ^ (ey - e) /\ l = loc_Exact) ->
  SFltb (fpos my ey) (rnd_aux false m e l) = false.
Proof.
  intros Hm He Hb Hey Hle. destruct (round_steps m e l Hm He) as (m2 & Hm2 & Hm1 & Hex & HEq). rewrite (HEq false).
  destruct (bnd_spec my ey Hb) as (C1 & C2 & C3 & C4 & C5). set (e1 := fx (Zdigits2 m + e)) in *. set (m1 := m / 2 ^ (e1 - e)) in *.
  assert (Hpe : 0 < 2 ^ (ey - e)) by (apply Z.pow_pos_nonneg; lia).
  assert (Hd : Zdigits2 m + e <= Zdigits2 (Z.pos my) + ey).
  { pose proof (digits_bounds my) as [_ B]. destruct (digits_nonneg (Z.pos my)) as [D0 _]; [lia|].
    enough (Zdigits2 m <= Zdigits2 (Z.pos my) + (ey - e)) by lia. apply digits_le; [exact Hm|lia|]. rewrite Z.pow_add_r by lia. nia. }
  assert (He1 : e1 <= ey) by (rewrite C1; unfold e1; rewrite !fx_def; lia).
  assert (Hlow : -1074 <= e1) by (unfold e1; rewrite fx_def; lia).
  assert (Hsame : e1 = ey -> m2 <= Z.pos my).
  { intros E. destruct Hle as [Hlt|[Heq Hl]].
    - assert (m1 < Z.pos my) by (unfold m1; rewrite E; apply Z.div_lt_upper_bound; lia). lia.
    - assert (m1 = Z.pos my) by (unfold m1; rewrite E, Heq, Z.div_mul by lia; reflexivity).
      rewrite (Hex Hl) by (exists (Z.pos my); rewrite E; exact Heq). lia. }
  destruct (Z.eqb_spec m2 0); [apply fpos_zero_ltb|].
  destruct (Z.ltb_spec m2 (2 ^ 53)).
  - replace (e1 <=? 971) with true by (symmetry; apply Z.leb_le; lia). apply fpos_ltb_false.
    destruct (Z.eq_dec e1 ey) as [E|]; [right|left; lia]. specialize (Hsame E). split; [exact E|]. rewrite Z2Pos.id by lia. exact Hsame.
  - assert (e1 <> ey) by (intros E; specialize (Hsame E); lia).
    replace (e1 + 1 <=? 971) with true by (symmetry; apply Z.leb_le; lia). apply fpos_ltb_false.
    destruct (Z.eq_dec (e1 + 1) ey) as [E|]; [right|left; lia]. split; [exact E|]. apply C5. lia.
Qed.

Theorem round_aux_ge m e l my ey : 0 <= m -> e <= fx (Zdigits2 m + e) -> bnd my ey = true -> e <= ey ->
  Zpos my * 2 ^ (ey - e) <= m ->
  SFltb (rnd_aux false m e l) (fpos my ey) = false.
Proof.
  intros Hm He Hb Hey Hle. destruct (round_steps m e l Hm He) as (m2 & Hm2 & Hm1 & Hex & HEq). rewrite (HEq false).
  destruct (bnd_spec my ey Hb) as (C1 & C2 & C3 & C4 & C5). set (e1 := fx (Zdigits2 m + e)) in *. set (m1 := m / 2 ^ (e1 - e)) in *.
  assert (Hpe : 0 < 2 ^ (ey - e)) by (apply Z.pow_pos_nonneg; lia).
  assert (Hd : Zdigits2 (Z.pos my) + ey <= Zdigits2 m + e).
  { pose proof (digits_bounds my) as [B _]. assert (D0 : 0 < Zdigits2 (Z.pos my)) by reflexivity.
    enough (Zdigits2 (Z.pos my) - 1 + (ey - e) < Zdigits2 m) by lia. apply digits_ge; [lia|]. rewrite Z.pow_add_r by lia. nia. }
  assert (He1 : ey <= e1) by (rewrite C1; unfold e1; rewrite !fx_def; lia).
  assert (Hsame : e1 = ey -> Z.pos my <= m2).
  { intros E. assert (Z.pos my <= m1) by (unfold m1; rewrite E; apply Z.div_le_lower_bound; lia). lia. }
  assert (Hbig : ey < e1 -> 0 < m1).
  { intros L. unfold m1. apply Z.div_str_pos. split; [apply Z.pow_pos_nonneg; lia|].
    destruct m as [|p|p]; [nia| |lia]. pose proof (digits_bounds p) as [B _]. refine (Z.le_trans _ _ _ _ B). apply Z.pow_le_mono_r; [lia|].
    unfold e1 in *. rewrite fx_def in *. lia. }
  destruct (Z.eqb_spec m2 0) as [E0|]; [destruct (Z.eq_dec e1 ey) as [E|N]; [specialize (Hsame E); lia|lia]|].
  destruct (Z.ltb_spec m2 (2 ^ 53)).
  - destruct (e1 <=? 971); [|apply fpos_inf_ltb]. apply fpos_ltb_false.
    destruct (Z.eq_dec e1 ey) as [E|]; [right|left; lia]. specialize (Hsame E). split; [auto|]. rewrite Z2Pos.id by lia. exact Hsame.
  - destruct (e1 + 1 <=? 971); [|apply fpos_inf_ltb]. apply fpos_ltb_false. left. lia.
Qed.

(** ** One minus a non-negative number *)
Lemma align_spec m e e' : exists m1 e1, shl_align m e e' = (m1, e1) /\ e1 = Z.min e e' /\ Zpos m1 = Zpos m * 2 ^ (e - e1).
Proof.
  unfold shl_align. destruct (e' - e) as [|p|p] eqn:E.
  - exists m, e. split; [reflexivity|]. split; [lia|]. rewrite Z.sub_diag, Z.pow_0_r. lia.
  - exists m, e. split; [reflexivity|]. split; [lia|]. rewrite Z.sub_diag, Z.pow_0_r. lia.
  - exists (shift_pos p m), e'. split; [reflexivity|]. split; [lia|]. replace (e - e') with (Z.pos p) by lia.
    rewrite shift_pos_correct. cbn [Z.pow]. lia.
Qed.

Lemma one_bounded : bnd 4503599627370496 (-52) = true.
Proof. reflexivity. Qed.

Lemma fsub_one_le x : fge0 x -> SFltb f_one (fsub f_one x) = false.
Proof.
  unfold f_one. destruct x as [s|s| |s m e]; cbn [fge0]; intros H; try subst s; try reflexivity.
  unfold fsub, SFsub. destruct (align_spec 4503599627370496 (-52) (Z.min (-52) e)) as (a1 & b1 & -> & Hb1 & Ha1).
  destruct (align_spec m e (Z.min (-52) e)) as (a2 & b2 & -> & Hb2 & Ha2). cbn [fst cond_Zopp].
  set (ez := Z.min (-52) e) in *. assert (E1 : b1 = ez) by lia. rewrite E1 in Ha1. clear Hb1 Hb2 E1.
  unfold binary_normalize. destruct (Z.pos a1 - Z.pos a2) as [|p|p] eqn:Ep; [reflexivity| |].
  - unfold binary_round. destruct (align_spec p ez (fx (Z.pos (digits2_pos p) + ez))) as (pm & pe & -> & Hpe & Hpm).
    assert (Hd : Zdigits2 (Z.pos pm) + pe = Zdigits2 (Z.pos p) + ez).
    { pose proof (digits_bounds p) as [D1 D2]. pose proof (digits_bounds pm) as [D3 D4].
      assert (L1 : Zdigits2 (Z.pos pm) <= Zdigits2 (Z.pos p) + (ez - pe)).
      { apply digits_le; [lia|destruct (digits_nonneg (Z.pos p)); lia|]. rewrite Hpm, Z.pow_add_r by (destruct (digits_nonneg (Z.pos p)); lia).
        apply Z.mul_lt_mono_pos_r; [apply Z.pow_pos_nonneg; lia|exact D2]. }
      assert (L2 : Zdigits2 (Z.pos p) - 1 + (ez - pe) < Zdigits2 (Z.pos pm)).
      { assert (0 < Zdigits2 (Z.pos p)) by reflexivity. apply digits_ge; [lia|]. rewrite Hpm, Z.pow_add_r by lia.
        apply Z.mul_le_mono_nonneg_r; [apply Z.pow_nonneg; lia|exact D1]. }
      lia. }
    apply (round_aux_le (Z.pos pm) pe loc_Exact 4503599627370496 (-52)); [lia| |exact one_bounded|lia|].
    + rewrite Hd. change (Zdigits2 (Z.pos p)) with (Z.pos (digits2_pos p)). lia.
    + left. rewrite Hpm. replace (-52 - pe) with ((-52 - ez) + (ez - pe)) by lia. rewrite Z.pow_add_r by lia.
      rewrite Z.mul_assoc, <- Ha1. apply Z.mul_lt_mono_pos_r; [apply Z.pow_pos_nonneg; lia|lia].
  - unfold binary_round. destruct (shl_align p ez _) as [pm pe].
    pose proof (round_aux_sign true (Z.pos pm) pe loc_Exact) as Hs. destruct (rnd_aux true (Z.pos pm) pe loc_Exact); subst; reflexivity.
Qed.
