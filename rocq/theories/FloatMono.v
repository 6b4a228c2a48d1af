(** Rounding to nearest even is monotone: if one exact result is at most another, so are the
    rounded results.  Exact results are quotients [A / D * 2 ^ e]. *)
From Verif Require Import Py Num Float FloatRound.
From Coq Require Import ZArith Zpower SpecFloat Lia.
Open Scope Z_scope.

(** where [A / D] lies between its floor and the next number *)
Definition pos_of (A D : Z) : location := if A mod D =? 0 then loc_Exact else loc_Inexact (Z.compare (2 * (A mod D)) D).
(** [A / D] rounded to the nearest number, to the even one of two *)
Definition rne (A D : Z) : Z := round_nearest_even (A / D) (pos_of A D).
(** the double made of [m2] units of [2 ^ e1] *)
Definition pack (s : bool) (m2 e1 : Z) : F :=
  if m2 =? 0 then S754_zero s
  else if m2 <? 2 ^ 53 then (if e1 <=? 971 then S754_finite s (Z.to_pos m2) e1 else S754_infinity s)
  else (if e1 + 1 <=? 971 then S754_finite s 4503599627370496 (e1 + 1) else S754_infinity s).

Lemma pos_exact A D : 0 < D -> (pos_of (A * D) D = loc_Exact).
Proof. intros H. unfold pos_of. rewrite Z.mod_mul by lia. reflexivity. Qed.

Lemma rec_loc m l : loc_of_shr_record (shr_record_of_loc m l) = l.
Proof. destruct l as [|[]]; reflexivity. Qed.
Lemma rec_of m l : shr_record_of_loc m l = {| shr_m := m; shr_r := match l with loc_Inexact Eq | loc_Inexact Gt => true | _ => false end;
  shr_s := match l with loc_Inexact Lt | loc_Inexact Gt => true | _ => false end |}.
Proof. destruct l as [|[]]; reflexivity. Qed.
Lemma rec_sticky l : orb (match l with loc_Inexact Eq | loc_Inexact Gt => true | _ => false end) (match l with loc_Inexact Lt | loc_Inexact Gt => true | _ => false end)
  = match l with loc_Exact => false | _ => true end.
Proof. destruct l as [|[]]; reflexivity. Qed.
Lemma shr_1_eq m r s : 0 <= m -> shr_1 {| shr_m := m; shr_r := r; shr_s := s |} = {| shr_m := m / 2; shr_r := Z.odd m; shr_s := orb r s |}.
Proof.
  destruct m as [|[p|p|]|p]; intros H; try lia; cbn [shr_1]; try reflexivity.
  - f_equal. rewrite Pos2Z.inj_xI, Z.mul_comm, Z.div_add_l by lia. cbn. lia.
  - f_equal. rewrite Pos2Z.inj_xO, Z.mul_comm, Z.div_mul by lia. reflexivity.
Qed.

Lemma half_div A D : 0 < D -> A / (D * 2) = A / D / 2.
Proof. intros H. rewrite Z.div_div by lia. reflexivity. Qed.
Lemma half_mod A D : 0 < D -> A mod (D * 2) = A mod D + (if Z.odd (A / D) then D else 0).
Proof.
  intros H. pose proof (Z.div_mod A D ltac:(lia)) as E1. pose proof (Z.div_mod (A / D) 2 ltac:(lia)) as E2. pose proof (Z.mod_pos_bound A D H).
  assert (Eo : (A / D) mod 2 = if Z.odd (A / D) then 1 else 0) by apply Zmod_odd.
  symmetry. apply Z.mod_unique with (q := A / D / 2); [left; destruct (Z.odd (A / D)); lia|].
  rewrite E2, Eo in E1 at 1. destruct (Z.odd (A / D)); lia.
Qed.
Lemma shr_1_step A D : 0 <= A -> 0 < D -> shr_1 (shr_record_of_loc (A / D) (pos_of A D)) = shr_record_of_loc (A / (D * 2)) (pos_of A (D * 2)).
Proof.
  intros HA HD. rewrite (rec_of (A / D)), shr_1_eq by (apply Z.div_pos; lia). rewrite rec_sticky, rec_of, half_div by exact HD.
  unfold pos_of. rewrite half_mod by exact HD. pose proof (Z.mod_pos_bound A D HD). f_equal.
  - destruct (Z.odd (A / D)).
    + destruct (Z.eqb_spec (A mod D + D) 0); [lia|]. destruct (Z.compare_spec (2 * (A mod D + D)) (D * 2)); try reflexivity. lia.
    + rewrite Z.add_0_r. destruct (Z.eqb_spec (A mod D) 0); [reflexivity|]. destruct (Z.compare_spec (2 * (A mod D)) (D * 2)); try reflexivity; lia.
  - destruct (Z.odd (A / D)).
    + destruct (Z.eqb_spec (A mod D) 0) as [E|E]; destruct (Z.eqb_spec (A mod D + D) 0); try lia; destruct (Z.compare_spec (2 * (A mod D + D)) (D * 2)); try reflexivity; lia.
    + rewrite Z.add_0_r. destruct (Z.eqb_spec (A mod D) 0); [reflexivity|]. destruct (Z.compare_spec (2 * (A mod D)) (D * 2)); try reflexivity; lia.
Qed.
Lemma shr_steps n : forall A D, 0 <= A -> 0 < D -> iter_pos shr_1 n (shr_record_of_loc (A / D) (pos_of A D)) = shr_record_of_loc (A / (D * 2 ^ Zpos n)) (pos_of A (D * 2 ^ Zpos n)).
Proof.
  induction n as [n IH|n IH|]; intros A D HA HD; cbn [iter_pos]; assert (Hp : forall k, 0 < 2 ^ Zpos k) by (intros; apply Z.pow_pos_nonneg; lia).
  - rewrite shr_1_step, IH, IH by (first [exact HA|exact HD|lia|apply Z.mul_pos_pos; [lia|apply Hp]]).
    replace (D * 2 * 2 ^ Z.pos n * 2 ^ Z.pos n) with (D * 2 ^ Z.pos n~1); [reflexivity|].
    replace (Z.pos n~1) with (1 + (Z.pos n + Z.pos n)) by lia. rewrite !Z.pow_add_r by lia. rewrite Z.pow_1_r. ring.
  - rewrite IH, IH by (first [exact HA|exact HD|lia|apply Z.mul_pos_pos; [lia|apply Hp]]).
    replace (D * 2 ^ Z.pos n * 2 ^ Z.pos n) with (D * 2 ^ Z.pos n~0); [reflexivity|].
    replace (Z.pos n~0) with (Z.pos n + Z.pos n) by lia. rewrite !Z.pow_add_r by lia. ring.
  - rewrite shr_1_step by assumption. rewrite Z.pow_1_r. reflexivity.
Qed.

Lemma rne_near A D : rne A D = A / D \/ rne A D = A / D + 1.
Proof. unfold rne. destruct (pos_of A D) as [|[]]; cbn [round_nearest_even]; auto. destruct (Z.even (A / D)); auto. Qed.

(** the rounded result *)
Theorem round_value A D e : 0 <= A -> 0 < D ->
  let e1 := fx (Zdigits2 (A / D) + e) in e <= e1 ->
  0 <= A / (D * 2 ^ (e1 - e)) < 2 ^ 53 /\ forall s, rnd_aux s (A / D) e (pos_of A D) = pack s (rne A (D * 2 ^ (e1 - e))) e1.
Proof.
  intros HA HD e1 He. assert (Hm : 0 <= A / D) by (apply Z.div_pos; lia). set (m := A / D) in *.
  assert (Hp : 0 < 2 ^ (e1 - e)) by (apply Z.pow_pos_nonneg; lia).
  assert (Hm1 : 0 <= A / (D * 2 ^ (e1 - e)) < 2 ^ 53).
  { rewrite <- Z.div_div by lia. fold m. split; [apply Z.div_pos; lia|].
    apply Z.div_lt_upper_bound; [exact Hp|]. destruct (digits_nonneg m Hm) as [D1 D2]. refine (Z.lt_le_trans _ _ _ D2 _).
    rewrite <- Z.pow_add_r by (unfold e1; lia). apply Z.pow_le_mono_r; [lia|]. unfold e1. rewrite fx_def. lia. }
  split; [exact Hm1|]. intros s. unfold binary_round_aux, shr_fexp at 1. fold e1.
  assert (Es : shr (shr_record_of_loc m (pos_of A D)) e (e1 - e) = (shr_record_of_loc (A / (D * 2 ^ (e1 - e))) (pos_of A (D * 2 ^ (e1 - e))), e1)).
  { destruct (e1 - e) as [|p|p] eqn:Ep; [| |lia]; cbn [shr].
    - rewrite Z.pow_0_r, Z.mul_1_r. f_equal; lia.
    - unfold m. rewrite shr_steps by assumption. f_equal; lia. }
  rewrite Es, rec_m, rec_loc. fold (rne A (D * 2 ^ (e1 - e))). set (m2 := rne A (D * 2 ^ (e1 - e))).
  assert (Hm2 : 0 <= m2 <= 2 ^ 53) by (destruct (rne_near A (D * 2 ^ (e1 - e))); unfold m2; lia).
  unfold shr_fexp, pack. destruct (Z.eqb_spec m2 0) as [E0|N0].
  - rewrite E0. rewrite shr_none by (cbn [Zdigits2]; unfold e1; rewrite !fx_def; lia). reflexivity.
  - destruct (Z.ltb_spec m2 (2 ^ 53)) as [Hlt|Hge].
    + assert (Hd : Zdigits2 m2 <= 53) by (apply digits_le; lia).
      rewrite shr_none by (unfold e1 in *; rewrite !fx_def in *; lia). cbn [shr_record_of_loc shr_m]. destruct m2 as [|p|p]; [lia| |lia].
      cbn [Z.to_pos]. reflexivity.
    + assert (m2 = 2 ^ 53) as -> by lia. replace (fx (Zdigits2 (2 ^ 53) + e1) - e1) with 1.
      2: { change (Zdigits2 (2 ^ 53)) with 54. assert (-1074 <= e1) by (unfold e1; rewrite fx_def; lia). rewrite fx_def. lia. }
      reflexivity.
Qed.

Lemma rne_mono A D A' D' : 0 <= A -> 0 < D -> 0 <= A' -> 0 < D' -> A * D' <= A' * D -> rne A D <= rne A' D'.
Proof.
  intros HA HD HA' HD' H. pose proof (Z.div_mod A D ltac:(lia)) as E. pose proof (Z.div_mod A' D' ltac:(lia)) as E'.
  pose proof (Z.mod_pos_bound A D HD) as B. pose proof (Z.mod_pos_bound A' D' HD') as B'.
  assert (Hq : A / D <= A' / D').
  { destruct (Z.le_gt_cases (A / D) (A' / D')) as [|Hgt]; [assumption|]. exfalso. assert (D' * (A' / D') + D' <= D' * (A / D)) by nia. nia. }
  destruct (Z.eq_dec (A / D) (A' / D')) as [Eq0|Ne].
  2: { destruct (rne_near A D), (rne_near A' D'); lia. }
  assert (Hr : (A mod D) * D' <= (A' mod D') * D) by nia.
  unfold rne, pos_of. rewrite <- Eq0. set (q := A / D) in *. set (r := A mod D) in *. set (r' := A' mod D') in *.
  destruct (Z.eqb_spec r 0) as [R0|R0]; destruct (Z.eqb_spec r' 0) as [R1|R1]; cbn [round_nearest_even]; try lia.
  - destruct (2 * r' ?= D'); try lia. destruct (Z.even q); lia.
  - destruct (Z.compare_spec (2 * r) D); destruct (Z.compare_spec (2 * r') D'); try (destruct (Z.even q)); try lia; exfalso; nia.
Qed.

Lemma pack_mono m2 e1 m2' e1' : 0 <= m2 <= 2 ^ 53 -> 0 <= m2' <= 2 ^ 53 -> (e1 = e1' /\ m2 <= m2' \/ e1 < e1' /\ 2 ^ 52 <= m2') ->
  SFltb (pack false m2' e1') (pack false m2 e1) = false.
Proof.
  intros B B' H. unfold pack.
  destruct (Z.eqb_spec m2 0); [destruct (m2' =? 0); [reflexivity|]; destruct (m2' <? 2 ^ 53); [destruct (e1' <=? 971)|destruct (e1' + 1 <=? 971)]; reflexivity|].
  destruct (Z.eqb_spec m2' 0); [lia|].
  destruct (Z.ltb_spec m2 (2 ^ 53)); destruct (Z.ltb_spec m2' (2 ^ 53)).
  - destruct (Z.leb_spec e1 971); destruct (Z.leb_spec e1' 971); try reflexivity; [|lia]. apply fpos_ltb_false. rewrite !Z2Pos.id by lia. lia.
  - destruct (Z.leb_spec e1 971); destruct (Z.leb_spec (e1' + 1) 971); try reflexivity; [|lia]. apply fpos_ltb_false. lia.
  - destruct (Z.leb_spec (e1 + 1) 971); destruct (Z.leb_spec e1' 971); try reflexivity; [|lia]. apply fpos_ltb_false. rewrite Z2Pos.id by lia. lia.
  - destruct (Z.leb_spec (e1 + 1) 971); destruct (Z.leb_spec (e1' + 1) 971); try reflexivity; [|lia]. apply fpos_ltb_false. lia.
Qed.

(** [A / D * 2 ^ e <= A' / D' * 2 ^ e'] *)
Definition qle (A D e A' D' e' : Z) : Prop := let c := Z.min e e' in A * D' * 2 ^ (e - c) <= A' * D * 2 ^ (e' - c).

Theorem round_mono A D e A' D' e' : 0 <= A -> 0 < D -> 0 <= A' -> 0 < D' ->
  e <= fx (Zdigits2 (A / D) + e) -> e' <= fx (Zdigits2 (A' / D') + e') -> qle A D e A' D' e' ->
  SFltb (rnd_aux false (A' / D') e' (pos_of A' D')) (rnd_aux false (A / D) e (pos_of A D)) = false.
Proof.
  intros HA HD HA' HD' He He' H. unfold qle in H. set (c := Z.min e e') in *.
  destruct (round_value A D e HA HD He) as [Bm ->]. destruct (round_value A' D' e' HA' HD' He') as [Bm' ->].
  set (e1 := fx (Zdigits2 (A / D) + e)) in *. set (e1' := fx (Zdigits2 (A' / D') + e')) in *.
  assert (Hk : 0 < 2 ^ (e1 - e)) by (apply Z.pow_pos_nonneg; lia). assert (Hk' : 0 < 2 ^ (e1' - e')) by (apply Z.pow_pos_nonneg; lia).
  assert (Hc : 0 < 2 ^ (e - c)) by (apply Z.pow_pos_nonneg; lia). assert (Hc' : 0 < 2 ^ (e' - c)) by (apply Z.pow_pos_nonneg; lia).
  assert (Hd : e1 <= e1').
  { assert (Hm : 0 <= A / D) by (apply Z.div_pos; lia). destruct (A / D) as [|p|p] eqn:Em; [| |lia].
    - unfold e1, e1'. rewrite !fx_def. cbn [Zdigits2]. unfold e1 in He. rewrite fx_def in He. cbn [Zdigits2] in He. lia.
    - pose proof (digits_bounds p) as [D1 _]. set (d := Zdigits2 (Z.pos p)) in *. assert (Hd0 : 0 < d) by reflexivity.
      pose proof (Z.div_mod A D ltac:(lia)) as E. rewrite Em in E. pose proof (Z.mod_pos_bound A D HD) as B.
      assert (L1 : D * 2 ^ (d - 1) <= A) by nia.
      assert (Hm' : 0 <= A' / D') by (apply Z.div_pos; lia). destruct (digits_nonneg (A' / D') Hm') as [F1 F2]. set (d' := Zdigits2 (A' / D')) in *.
      pose proof (Z.div_mod A' D' ltac:(lia)) as E'. pose proof (Z.mod_pos_bound A' D' HD') as B'.
      assert (L2 : A' < D' * 2 ^ d') by nia.
      assert (L3 : 2 ^ (d - 1) * 2 ^ (e - c) < 2 ^ d' * 2 ^ (e' - c)).
      { apply (Z.mul_lt_mono_pos_l (D * D')); [lia|].
        apply Z.le_lt_trans with (A * D' * 2 ^ (e - c)); [|apply Z.le_lt_trans with (A' * D * 2 ^ (e' - c)); [exact H|]].
        - replace (D * D' * (2 ^ (d - 1) * 2 ^ (e - c))) with (D * 2 ^ (d - 1) * (D' * 2 ^ (e - c))) by ring. rewrite <- (Z.mul_assoc A). apply Z.mul_le_mono_nonneg_r; [lia|exact L1].
        - replace (D * D' * (2 ^ d' * 2 ^ (e' - c))) with (D' * 2 ^ d' * (D * 2 ^ (e' - c))) by ring. rewrite <- (Z.mul_assoc A'). apply Z.mul_lt_mono_pos_r; [lia|exact L2]. }
      rewrite <- !Z.pow_add_r in L3 by lia. apply Z.pow_lt_mono_r_iff in L3; [|lia|lia]. unfold e1, e1'. rewrite !fx_def. lia. }
  assert (Bn : 0 <= rne A (D * 2 ^ (e1 - e)) <= 2 ^ 53) by (destruct (rne_near A (D * 2 ^ (e1 - e))); lia).
  assert (Bn' : 0 <= rne A' (D' * 2 ^ (e1' - e')) <= 2 ^ 53) by (destruct (rne_near A' (D' * 2 ^ (e1' - e'))); lia).
  apply pack_mono; [exact Bn|exact Bn'|]. destruct (Z.eq_dec e1 e1') as [Ee|Ne].
  - left. split; [exact Ee|]. apply rne_mono; try lia. rewrite <- Ee in *.
    apply (Z.mul_le_mono_pos_r _ _ (2 ^ (e1 - c))); [apply Z.pow_pos_nonneg; lia|].
    replace (A * (D' * 2 ^ (e1 - e')) * 2 ^ (e1 - c)) with (A * D' * 2 ^ (e - c) * (2 ^ (e1 - e) * 2 ^ (e1 - e')))
      by (replace (e1 - c) with ((e - c) + (e1 - e)) by lia; rewrite Z.pow_add_r by lia; ring).
    replace (A' * (D * 2 ^ (e1 - e)) * 2 ^ (e1 - c)) with (A' * D * 2 ^ (e' - c) * (2 ^ (e1 - e) * 2 ^ (e1 - e')))
      by (replace (e1 - c) with ((e' - c) + (e1 - e')) by lia; rewrite Z.pow_add_r by lia; ring).
    apply Z.mul_le_mono_nonneg_r; [lia|exact H].
  - right. split; [lia|]. apply Z.le_trans with (A' / (D' * 2 ^ (e1' - e'))); [|destruct (rne_near A' (D' * 2 ^ (e1' - e'))); lia].
    rewrite <- Z.div_div by lia. apply Z.div_le_lower_bound; [exact Hk'|].
    assert (Hm' : 0 <= A' / D') by (apply Z.div_pos; lia). assert (Hlow : -1074 <= e1) by (unfold e1; rewrite fx_def; lia).
    destruct (A' / D') as [|p|p] eqn:Em; [exfalso; unfold e1' in *; rewrite fx_def in *; cbn [Zdigits2] in *; lia| |lia].
    pose proof (digits_bounds p) as [D1 _]. refine (Z.le_trans _ _ _ _ D1). rewrite <- Z.pow_add_r by lia. apply Z.pow_le_mono_r; [lia|].
    unfold e1' in *. rewrite fx_def in *. lia.
Qed.
