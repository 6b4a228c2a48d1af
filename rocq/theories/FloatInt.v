(** Sums of whole numbers in double precision are exact, and the division by a count is correctly rounded. *)
From Verif Require Import Py Num Float FloatRound FloatMono FloatOps FloatErr NpSum.
From Coq Require Import ZArith SpecFloat Lia List Permutation Bool.
Import ListNotations.
Open Scope Z_scope.
Open Scope list_scope.

(** ** Whole numbers *)
Definition unit1 : Z := 2 ^ 1074.
Lemma unit1_pos : 0 < unit1. Proof. reflexivity. Qed.
Lemma unit1_big : 2 ^ 110 < unit1. Proof. reflexivity. Qed.
Global Opaque unit1.

Lemma ofZ_exact z : Z.abs z <= 2 ^ 52 -> finite (f_ofZ z) /\ tiny (f_ofZ z) = z * unit1.
Proof.
  assert (Hp : forall k, 0 < k <= 2 ^ 52 -> finite (f_ofZ k) /\ tiny (f_ofZ k) = k * unit1).
  { intros k Hk. destruct (count_double k Hk) as (m & e & E & He & Hm & Hf). split; [exact Hf|]. rewrite E in *. destruct (bnd_spec m e Hf) as (_ & _ & Hlow & _ & _).
    unfold tiny. cbn [units cond_Zopp]. rewrite Hm, <- Z.mul_assoc, <- Z.pow_add_r by lia. replace (- e + (e - -1074)) with 1074 by lia. reflexivity. }
  intros Hz. destruct (Z.eq_dec z 0) as [->|N]; [split; [exact I|reflexivity]|]. destruct (Z.le_gt_cases 0 z).
  - apply Hp. lia.
  - destruct (Hp (- z) ltac:(lia)) as [H1 H2]. unfold f_ofZ in *. replace z with (- - z) by ring. rewrite normalize_opp by lia. split; [apply finite_opp, H1|]. rewrite tiny_opp, H2. ring.
Qed.

(** a sum of two whole numbers *)
Lemma add_exact x y z : finite x -> finite y -> tiny x + tiny y = z * unit1 -> Z.abs z <= 2 ^ 52 -> finite (fadd x y) /\ tiny (fadd x y) = z * unit1.
Proof.
  intros Hx Hy E Hz. rewrite add_sub. destruct (sub_rank x (SFopp y) (-1074) Hx (finite_opp y Hy) (finite_above x Hx) (finite_above _ (finite_opp y Hy))) as [R Hn].
  fold (tiny x) (tiny (SFopp y)) in R. rewrite tiny_opp in R. replace (tiny x - - tiny y) with (z * unit1) in R by (rewrite <- E; ring).
  pose proof (normalize_scale z 0 (-1074) ltac:(lia)) as R2. change (2 ^ (0 - -1074)) with unit1 in R2. rewrite <- R2 in R. fold (f_ofZ z) in R.
  destruct (ofZ_exact z Hz) as [Fz Tz]. pose proof (sub_double x (SFopp y) Hx (finite_opp y Hy)) as D.
  assert (Fs : finite (fsub x (SFopp y))) by (apply (finite_rank (f_ofZ z)); auto). split; [exact Fs|]. rewrite (tiny_rank _ _ Fs Fz R). exact Tz.
Qed.

Definition zsum (l : list Z) : Z := fold_right Z.add 0 l.
Lemma zsum_app l k : zsum (l ++ k) = zsum l + zsum k.
Proof. unfold zsum. induction l; cbn [fold_right map app]; lia. Qed.
Lemma zsum_perm l k : Permutation l k -> zsum l = zsum k.
Proof. unfold zsum. induction 1; cbn [fold_right]; lia. Qed.
Lemma zsum_abs l : Z.abs (zsum l) <= zsum (map Z.abs l).
Proof. unfold zsum. induction l; cbn [fold_right map app]; lia. Qed.
Lemma zsum_abs_nonneg l : 0 <= zsum (map Z.abs l).
Proof. unfold zsum. induction l; cbn [fold_right map app]; lia. Qed.

Lemma perm_map_inv {A B} (f : A -> B) l1 l2 : Permutation (map f l1) l2 -> exists l3, l2 = map f l3 /\ Permutation l1 l3.
Proof. intros H. apply Permutation_sym in H. destruct (Permutation_map_inv f _ H) as (l3 & E & P). exists l3. split; [exact E|exact P]. Qed.

(** the sum of whole numbers, added in any order *)
Lemma sum_exact l s : added l s -> forall zs, l = map f_ofZ zs -> zsum (map Z.abs zs) <= 2 ^ 52 -> finite s /\ tiny s = zsum zs * unit1.
Proof.
  induction 1 as [|y|l l1 l2 a b Hp _ IH1 _ IH2]; intros zs E Hb.
  - destruct zs; [|discriminate]. split; [exact I|reflexivity].
  - destruct zs as [|z [|]]; try discriminate. injection E as ->. cbn in Hb |- *. rewrite Z.add_0_r in *. apply ofZ_exact, Hb.
  - subst l. destruct (perm_map_inv f_ofZ _ _ Hp) as (zs' & E & P). destruct (map_eq_app f_ofZ zs' l1 l2) as (z1 & z2 & -> & <- & <-); [symmetry; exact E|].
    rewrite (zsum_perm _ _ P), (zsum_perm _ _ (Permutation_map Z.abs P)), map_app, !zsum_app in *.
    pose proof (zsum_abs_nonneg z1). pose proof (zsum_abs_nonneg z2).
    destruct (IH1 z1 eq_refl ltac:(lia)) as [F1 T1]. destruct (IH2 z2 eq_refl ltac:(lia)) as [F2 T2].
    apply add_exact; auto; [rewrite T1, T2; ring|]. pose proof (zsum_abs z1). pose proof (zsum_abs z2). lia.
Qed.

(** ** Correct rounding *)
(** no double is closer to [K / n] units than [v] *)
Definition nearest (v : F) (K n : Z) : Prop := forall y, finite y -> Z.abs (tiny v * n - K) <= Z.abs (tiny y * n - K).

Lemma rne_nearest A D k : 0 <= A -> 0 < D -> Z.abs (rne A D * D - A) <= Z.abs (k * D - A).
Proof.
  intros HA HD. pose proof (rne_err A D HA HD) as H. destruct (Z.eq_dec k (rne A D)) as [->|N]; [lia|].
  assert (D <= Z.abs (k * D - rne A D * D)) by (rewrite <- Z.mul_sub_distr_r, Z.abs_mul, (Z.abs_eq D) by lia; nia). lia.
Qed.

Lemma round_nearest A D e : 0 <= A -> 0 < D -> -1074 <= e -> e <= fx (Zdigits2 (A / D) + e) ->
  let r := rnd_aux false (A / D) e (pos_of A D) in finite r -> 0 <= tiny r /\ nearest r (A * 2 ^ (e + 1074)) D.
Proof.
  intros HA HD Hlow He r Hf. destruct (round_value A D e HA HD He) as [HB HV]. unfold r in *. rewrite (HV false) in *. clear HV r.
  assert (Hq0 : 0 <= A / D) by (apply Z.div_pos; lia).
  set (q := A / D) in *. set (E := fx (Zdigits2 q + e)) in *.
  assert (HE : E = Z.max (Zdigits2 q + e - 53) (-1074)) by (unfold E; apply fx_def).
  assert (HP : 0 < 2 ^ (E - e)) by (apply Z.pow_pos_nonneg; lia). assert (HT : 0 < 2 ^ (e + 1074)) by (apply Z.pow_pos_nonneg; lia).
  assert (HDm : 0 < D * 2 ^ (E - e)) by (apply Z.mul_pos_pos; assumption).
  pose proof (rne_range A _ HA HDm (proj2 HB)) as HR.
  assert (EP : 2 ^ (E + 1074) = 2 ^ (E - e) * 2 ^ (e + 1074)) by (rewrite <- Z.pow_add_r by lia; f_equal; lia).
  assert (Hk : forall k, Z.abs (k * 2 ^ (E + 1074) * D - A * 2 ^ (e + 1074)) = Z.abs (k * (D * 2 ^ (E - e)) - A) * 2 ^ (e + 1074)).
  { intros k. rewrite EP. replace (k * (2 ^ (E - e) * 2 ^ (e + 1074)) * D - A * 2 ^ (e + 1074)) with ((k * (D * 2 ^ (E - e)) - A) * 2 ^ (e + 1074)) by ring. rewrite Z.abs_mul, (Z.abs_eq (2 ^ (e + 1074))) by lia. reflexivity. }
  unfold nearest. rewrite pack_tiny by (assumption || lia). cbn [cond_Zopp]. split; [apply Z.mul_nonneg_nonneg; [lia|apply Z.pow_nonneg; lia]|].
  assert (Hmul : forall k, Z.abs (rne A (D * 2 ^ (E - e)) * 2 ^ (E + 1074) * D - A * 2 ^ (e + 1074)) <= Z.abs (k * 2 ^ (E + 1074) * D - A * 2 ^ (e + 1074))).
  { intros k. rewrite !Hk. apply Z.mul_le_mono_nonneg_r; [lia|]. apply rne_nearest; lia. }
  intros y Hy. destruct y as [s|s| |s m ey]; try contradiction; [exact (Hmul 0)|].
  destruct (bnd_spec m ey Hy) as (_ & _ & Hlowy & Hm53 & _). unfold tiny. cbn [units].
  destruct (Z.le_gt_cases E ey) as [Hge|Hlt].
  - replace (cond_Zopp s (Z.pos m * 2 ^ (ey - -1074))) with (cond_Zopp s (Z.pos m * 2 ^ (ey - E)) * 2 ^ (E + 1074)); [apply Hmul|].
    replace (2 ^ (ey - -1074)) with (2 ^ (ey - E) * 2 ^ (E + 1074)) by (rewrite <- Z.pow_add_r by lia; f_equal; lia). destruct s; cbn [cond_Zopp]; ring.
  - assert (E1 : E - e = Zdigits2 q - 53) by lia.
    assert (Hq1 : 2 ^ (Zdigits2 q - 1) <= q) by (destruct q as [|p|p]; [cbn in E1; lia|apply digits_bounds|lia]).
    assert (Hqd : q * D <= A) by (unfold q; rewrite Z.mul_comm; apply Z.mul_div_le, HD).
    assert (K : 2 ^ 52 * (D * 2 ^ (E - e)) <= A).
    { rewrite E1. replace (2 ^ 52 * (D * 2 ^ (Zdigits2 q - 53))) with (2 ^ (Zdigits2 q - 1) * D); [nia|]. replace (Zdigits2 q - 1) with (52 + (Zdigits2 q - 53)) by lia. rewrite Z.pow_add_r by lia. ring. }
    assert (K1 : 2 ^ 52 * 2 ^ (E + 1074) * D <= A * 2 ^ (e + 1074)).
    { rewrite EP. replace (2 ^ 52 * (2 ^ (E - e) * 2 ^ (e + 1074)) * D) with (2 ^ 52 * (D * 2 ^ (E - e)) * 2 ^ (e + 1074)) by ring. apply Z.mul_le_mono_nonneg_r; lia. }
    assert (K2 : Z.pos m * 2 ^ (ey - -1074) <= 2 ^ 52 * 2 ^ (E + 1074)).
    { apply Z.le_trans with (2 ^ 53 * 2 ^ (ey - -1074)); [apply Z.mul_le_mono_nonneg_r; [apply Z.pow_nonneg; lia|lia]|]. rewrite <- !Z.pow_add_r by lia. apply Z.pow_le_mono_r; lia. }
    assert (0 <= Z.pos m * 2 ^ (ey - -1074)) by (apply Z.mul_nonneg_nonneg; [lia|apply Z.pow_nonneg; lia]).
    assert (K3 : cond_Zopp s (Z.pos m * 2 ^ (ey - -1074)) <= 2 ^ 52 * 2 ^ (E + 1074)) by (destruct s; cbn [cond_Zopp]; lia).
    apply Z.le_trans with (1 := Hmul (2 ^ 52)). set (t := cond_Zopp s (Z.pos m * 2 ^ (ey - -1074))) in *. set (W := A * 2 ^ (e + 1074)) in *. set (U := 2 ^ 52 * 2 ^ (E + 1074)) in *.
    assert (t * D <= U * D) by (apply Z.mul_le_mono_nonneg_r; lia). lia.
Qed.

Lemma nearest_opp v K n : nearest v K n -> nearest (SFopp v) (- K) n.
Proof.
  intros H y Hy. rewrite tiny_opp. specialize (H (SFopp y) (finite_opp y Hy)). rewrite tiny_opp in H.
  replace (- tiny v * n - - K) with (- (tiny v * n - K)) by ring. replace (tiny y * n - - K) with (- (- tiny y * n - K)) by ring. rewrite !Z.abs_opp. exact H.
Qed.

Lemma div_opp x k : 0 < k <= 2 ^ 52 -> finite x -> fdiv (SFopp x) (f_ofZ k) = SFopp (fdiv x (f_ofZ k)).
Proof.
  intros Hk Hx. destruct (count_double k Hk) as (m' & e' & -> & _). destruct x as [s|s| |s m e]; try contradiction; [destruct s; reflexivity|].
  unfold fdiv. cbn [SFopp SFdiv]. destruct (div_core m e m' e') as (A & q & e1 & -> & -> & _ & HA & _).
  assert (0 <= A / Z.pos m') by (apply Z.div_pos; [rewrite HA; apply Z.mul_nonneg_nonneg; [lia|apply Z.pow_nonneg; lia]|lia]).
  destruct s; cbn [negb xorb]; rewrite round_aux_opp by assumption; [|reflexivity].
  destruct (rnd_aux false (A / Z.pos m') e1 (pos_of A (Z.pos m'))); cbn [SFopp]; rewrite ?negb_involutive; reflexivity.
Qed.

(** a division by a count *)
Lemma div_nearest x k : finite x -> 0 < k <= 2 ^ 52 -> nearest (fdiv x (f_ofZ k)) (tiny x) k.
Proof.
  intros Hx Hk.
  assert (Hpos : forall m e, finite (S754_finite false m e) -> nearest (fdiv (S754_finite false m e) (f_ofZ k)) (tiny (S754_finite false m e)) k).
  { clear x Hx. intros m e Hx y Hy. pose proof (div_finite _ k Hx Hk) as Hfin. destruct (count_double k Hk) as (m' & e' & E & He' & Hm' & _). rewrite E in *. clear E.
    unfold fdiv in *. cbn [SFdiv] in *. destruct (div_core m e m' e') as (A & q & e1 & E & -> & [H1 H1'] & HA & Hf). rewrite E in *. clear E. cbn [xorb] in *.
    destruct (bnd_spec m e Hx) as (_ & _ & Hlow & _ & _).
    assert (HA0 : 0 <= A) by (rewrite HA; apply Z.mul_nonneg_nonneg; [lia|apply Z.pow_nonneg; lia]).
    destruct (round_nearest A (Z.pos m') e1 HA0 ltac:(lia) ltac:(lia) Hf Hfin) as (_ & K). specialize (K y Hy).
    set (r := rnd_aux false (A / Z.pos m') e1 (pos_of A (Z.pos m'))) in *.
    assert (P0 : 0 < 2 ^ (- e')) by (apply Z.pow_pos_nonneg; lia).
    assert (ET : A * 2 ^ (e1 + 1074) = tiny (S754_finite false m e) * 2 ^ (- e')).
    { unfold tiny. cbn [units cond_Zopp]. rewrite HA, <- !Z.mul_assoc, <- !Z.pow_add_r by lia. do 2 f_equal. lia. }
    rewrite ET, Hm' in K. set (X := tiny (S754_finite false m e)) in *.
    assert (Q : forall t, Z.abs (t * (k * 2 ^ (- e')) - X * 2 ^ (- e')) = Z.abs (t * k - X) * 2 ^ (- e')).
    { intros t. replace (t * (k * 2 ^ (- e')) - X * 2 ^ (- e')) with ((t * k - X) * 2 ^ (- e')) by ring. rewrite Z.abs_mul, (Z.abs_eq (2 ^ (- e'))) by lia. reflexivity. }
    rewrite !Q in K. apply (Z.mul_le_mono_pos_r _ _ (2 ^ (- e'))); assumption. }
  destruct x as [s|s| |s m e]; try contradiction.
  - intros y Hy. destruct (count_double k Hk) as (m' & e' & -> & _). unfold tiny, fdiv. cbn [SFdiv units]. rewrite Z.mul_0_l, Z.sub_diag. change (Z.abs 0) with 0. lia.
  - destruct s; [|apply Hpos, Hx]. change (S754_finite true m e) with (SFopp (S754_finite false m e)). rewrite div_opp, tiny_opp by (assumption || exact Hx). apply nearest_opp, Hpos, Hx.
Qed.

(** divisions by two counts *)
Lemma div_mono2 x y k k' : finite x -> finite y -> fge0 x -> fge0 y -> 0 < k <= 2 ^ 52 -> 0 < k' <= 2 ^ 52 -> tiny x * k' <= tiny y * k ->
  fle (fdiv x (f_ofZ k)) (fdiv y (f_ofZ k')).
Proof.
  intros Hx Hy Gx Gy Hk Hk' L.
  pose proof (div_finite x k Hx Hk) as Fx. pose proof (div_finite y k' Hy Hk') as Fy.
  assert (Gdx : fge0 (fdiv x (f_ofZ k))) by (apply fdiv_nonneg; [exact Gx|apply f_ofZ_nonneg; lia]).
  assert (Gdy : fge0 (fdiv y (f_ofZ k'))) by (apply fdiv_nonneg; [exact Gy|apply f_ofZ_nonneg; lia]).
  destruct (count_double k Hk) as (m & e & E & He & Hm & _). destruct (count_double k' Hk') as (m' & e' & E' & He' & Hm' & _). rewrite E, E' in *. clear E E'.
  destruct x as [s|s| |s mx ex]; try contradiction.
  { apply (fle_same f_zero (fdiv y (S754_finite false m' e'))); auto; [apply finite_num, Fy|]. apply fge0_fle; [apply finite_num, Fy|exact Gdy]. }
  cbn in Gx. subst s. destruct (bnd_spec mx ex Hx) as (_ & _ & Hlx & _ & _).
  destruct y as [s'|s'| |s' my ey]; try contradiction.
  { exfalso. unfold tiny in L. cbn [units cond_Zopp] in L. rewrite Z.mul_0_l in L. assert (0 < 2 ^ (ex - -1074)) by (apply Z.pow_pos_nonneg; lia). nia. }
  cbn in Gy. subst s'. destruct (bnd_spec my ey Hy) as (_ & _ & Hly & _ & _).
  split; [apply finite_num, Fx|]. split; [apply finite_num, Fy|]. clear Fx Fy Gdx Gdy.
  unfold fdiv, SFdiv. destruct (div_core mx ex m e) as (A & q & e1 & -> & -> & Ha & HA & Hf). destruct (div_core my ey m' e') as (A' & q' & e1' & -> & -> & Ha' & HA' & Hf').
  cbn [xorb]. apply round_mono; try lia; try assumption; try (rewrite ?HA, ?HA'; apply Z.mul_nonneg_nonneg; [lia|apply Z.pow_nonneg; lia]).
  unfold qle. set (c := Z.min e1 e1'). rewrite HA, HA', Hm, Hm'. unfold tiny in L. cbn [units cond_Zopp] in L.
  assert (Hc : -1074 <= c) by (assert (-1074 <= e1) by lia; assert (-1074 <= e1') by lia; lia).
  apply (Z.mul_le_mono_pos_r _ _ (2 ^ (c + 1074))); [apply Z.pow_pos_nonneg; lia|].
  replace (Z.pos mx * 2 ^ (ex - e - e1) * (k' * 2 ^ (- e')) * 2 ^ (e1 - c) * 2 ^ (c + 1074)) with (Z.pos mx * 2 ^ (ex - -1074) * k' * (2 ^ (- e) * 2 ^ (- e'))).
  2: { replace (Z.pos mx * 2 ^ (ex - e - e1) * (k' * 2 ^ (- e')) * 2 ^ (e1 - c) * 2 ^ (c + 1074)) with (Z.pos mx * (2 ^ (ex - e - e1) * 2 ^ (e1 - c) * 2 ^ (c + 1074)) * k' * 2 ^ (- e')) by ring.
       replace (2 ^ (ex - e - e1) * 2 ^ (e1 - c) * 2 ^ (c + 1074)) with (2 ^ (ex - -1074) * 2 ^ (- e)) by (rewrite <- !Z.pow_add_r by lia; f_equal; lia). ring. }
  replace (Z.pos my * 2 ^ (ey - e' - e1') * (k * 2 ^ (- e)) * 2 ^ (e1' - c) * 2 ^ (c + 1074)) with (Z.pos my * 2 ^ (ey - -1074) * k * (2 ^ (- e) * 2 ^ (- e'))).
  2: { replace (Z.pos my * 2 ^ (ey - e' - e1') * (k * 2 ^ (- e)) * 2 ^ (e1' - c) * 2 ^ (c + 1074)) with (Z.pos my * (2 ^ (ey - e' - e1') * 2 ^ (e1' - c) * 2 ^ (c + 1074)) * k * 2 ^ (- e)) by ring.
       replace (2 ^ (ey - e' - e1') * 2 ^ (e1' - c) * 2 ^ (c + 1074)) with (2 ^ (ey - -1074) * 2 ^ (- e')) by (rewrite <- !Z.pow_add_r by lia; f_equal; lia). ring. }
  apply Z.mul_le_mono_nonneg_r; [apply Z.mul_nonneg_nonneg; apply Z.pow_nonneg; lia|exact L].
Qed.

(** ** Means of whole numbers *)
Lemma zsum_nonneg_abs zs : Forall (fun z => 0 <= z) zs -> map Z.abs zs = zs.
Proof. induction 1; cbn; [reflexivity|]. rewrite Z.abs_eq by assumption. congruence. Qed.

Definition counts (zs : list Z) : Prop := Forall (fun z => 0 <= z) zs.

Lemma zsum_counts zs : counts zs -> 0 <= zsum zs.
Proof. unfold zsum, counts. induction 1; cbn [fold_right]; lia. Qed.
Lemma zsum_bound zs b : Forall (fun z => z <= b) zs -> zsum zs <= Z.of_nat (length zs) * b.
Proof. unfold zsum. induction 1; cbn [fold_right length]; [lia|]. rewrite Nat2Z.inj_succ. lia. Qed.

Section Mean.
  Context (sum : list F -> F) (Hsum : forall l, added l (sum l)).
  Definition zmean (zs : list Z) : F := np_mean (fl64 sum) (map f_ofZ zs).

  Lemma zmean_eq zs : zmean zs = fdiv (sum (map f_ofZ zs)) (f_ofZ (Z.of_nat (length zs))).
  Proof. unfold zmean, np_mean. cbn [n_div n_ofZ fl64]. rewrite map_length. reflexivity. Qed.

  Lemma zmean_spec zs : zs <> [] -> zsum (map Z.abs zs) <= 2 ^ 52 -> Z.of_nat (length zs) <= 2 ^ 52 ->
    finite (zmean zs) /\ nearest (zmean zs) (zsum zs * unit1) (Z.of_nat (length zs)).
  Proof.
    intros Hne Hb Hl. destruct (sum_exact _ _ (Hsum (map f_ofZ zs)) zs eq_refl Hb) as [Hf Ht]. rewrite zmean_eq, <- Ht.
    assert (0 < Z.of_nat (length zs)) by (destruct zs; [congruence|cbn; lia]). split; [apply div_finite; auto; lia|]. apply div_nearest; auto; lia.
  Qed.
  Lemma zmean_mono zs zs' : zs <> [] -> zs' <> [] -> counts zs -> counts zs' -> zsum zs <= 2 ^ 52 -> zsum zs' <= 2 ^ 52 -> Z.of_nat (length zs) <= 2 ^ 52 -> Z.of_nat (length zs') <= 2 ^ 52 ->
    zsum zs * Z.of_nat (length zs') <= zsum zs' * Z.of_nat (length zs) -> fle (zmean zs) (zmean zs').
  Proof.
    intros Hne Hne' Hc Hc' Hb Hb' Hl Hl' H. rewrite !zmean_eq.
    destruct (sum_exact _ _ (Hsum (map f_ofZ zs)) zs eq_refl) as [Hf Ht]; [rewrite zsum_nonneg_abs by exact Hc; exact Hb|].
    destruct (sum_exact _ _ (Hsum (map f_ofZ zs')) zs' eq_refl) as [Hf' Ht']; [rewrite zsum_nonneg_abs by exact Hc'; exact Hb'|].
    assert (0 < Z.of_nat (length zs)) by (destruct zs; [congruence|cbn; lia]). assert (0 < Z.of_nat (length zs')) by (destruct zs'; [congruence|cbn; lia]).
    assert (Hg : forall k, counts k -> fge0 (sum (map f_ofZ k))).
    { intros k Hk. apply (added_nonneg _ _ (Hsum _)). apply Forall_map. eapply Forall_impl; [|exact Hk]. intros z Hz. apply f_ofZ_nonneg, Hz. }
    apply div_mono2; auto; try lia. rewrite Ht, Ht'. pose proof unit1_pos. nia.
  Qed.
  (** different means stay different *)
  Lemma zmean_lt zs zs' : zs <> [] -> zs' <> [] -> counts zs -> counts zs' -> zsum zs <= 2 ^ 52 -> zsum zs' <= 2 ^ 52 -> Z.of_nat (length zs) <= 2 ^ 52 -> Z.of_nat (length zs') <= 2 ^ 52 ->
    zsum zs * Z.of_nat (length zs') + zsum zs' * Z.of_nat (length zs) < 2 ^ 52 ->
    zsum zs * Z.of_nat (length zs') < zsum zs' * Z.of_nat (length zs) -> ~ fle (zmean zs') (zmean zs).
  Proof.
    intros Hne Hne' Hc Hc' Hb Hb' Hl Hl' Hsm H L. rewrite !zmean_eq in L.
    destruct (sum_exact _ _ (Hsum (map f_ofZ zs)) zs eq_refl) as [Hf Ht]; [rewrite zsum_nonneg_abs by exact Hc; exact Hb|].
    destruct (sum_exact _ _ (Hsum (map f_ofZ zs')) zs' eq_refl) as [Hf' Ht']; [rewrite zsum_nonneg_abs by exact Hc'; exact Hb'|].
    assert (N1 : 0 < Z.of_nat (length zs)) by (destruct zs; [congruence|cbn; lia]). assert (N2 : 0 < Z.of_nat (length zs')) by (destruct zs'; [congruence|cbn; lia]).
    set (n := Z.of_nat (length zs)) in *. set (n' := Z.of_nat (length zs')) in *.
    assert (Fv : finite (fdiv (sum (map f_ofZ zs)) (f_ofZ n))) by (apply div_finite; auto; lia). assert (Fv' : finite (fdiv (sum (map f_ofZ zs')) (f_ofZ n'))) by (apply div_finite; auto; lia).
    pose proof (div_err _ n Hf ltac:(lia) Fv) as E1. pose proof (div_err _ n' Hf' ltac:(lia) Fv') as E2.
    apply (fle_units _ _ (-1074)) in L; auto; try (apply finite_above; assumption). fold (tiny (fdiv (sum (map f_ofZ zs)) (f_ofZ n))) in L. fold (tiny (fdiv (sum (map f_ofZ zs')) (f_ofZ n'))) in L.
    rewrite Ht in E1. rewrite Ht' in E2.
    set (v := tiny (fdiv (sum (map f_ofZ zs)) (f_ofZ n))) in *. set (v' := tiny (fdiv (sum (map f_ofZ zs')) (f_ofZ n'))) in *.
    pose proof (zsum_counts _ Hc) as Z1. pose proof (zsum_counts _ Hc') as Z2.
    set (K := zsum zs) in *. set (K' := zsum zs') in *. pose proof unit1_big as U. set (u := unit1) in *.
    clearbody v v' K K' n n' u. clear - E1 E2 L Hsm H N1 N2 Z1 Z2 U Hl Hl'.
    rewrite (Z.abs_eq (K * u)) in E1 by nia. rewrite (Z.abs_eq (K' * u)) in E2 by nia.
    (* v n <= K u + err, v' n' >= K' u - err' *)
    assert (B1 : 2 ^ 53 * (v * n) <= 2 ^ 53 * (K * u) + K * u + 2 ^ 52 * n) by lia.
    assert (B2 : 2 ^ 53 * (K' * u) - K' * u - 2 ^ 52 * n' <= 2 ^ 53 * (v' * n')) by lia.
    assert (C1 : 2 ^ 53 * (v * n) * n' <= (2 ^ 53 * (K * u) + K * u + 2 ^ 52 * n) * n') by (apply Z.mul_le_mono_nonneg_r; lia).
    assert (C2 : (2 ^ 53 * (K' * u) - K' * u - 2 ^ 52 * n') * n <= 2 ^ 53 * (v' * n') * n) by (apply Z.mul_le_mono_nonneg_r; lia).
    assert (C3 : v' * (n' * n) <= v * (n' * n)) by (apply Z.mul_le_mono_nonneg_r; [nia|exact L]).
    assert (C4 : 2 ^ 53 * u * (K' * n - K * n') <= u * (K * n' + K' * n) + 2 ^ 53 * (n * n')) by lia.
    assert (C5 : 2 ^ 53 * u * 1 <= 2 ^ 53 * u * (K' * n - K * n')) by (apply Z.mul_le_mono_nonneg_l; lia).
    assert (C6 : u * (K * n' + K' * n) <= u * (2 ^ 52 - 1)) by (apply Z.mul_le_mono_nonneg_l; lia).
    assert (C7 : n * n' <= 2 ^ 52 * 2 ^ 52) by (apply Z.mul_le_mono_nonneg; lia).
    lia.
  Qed.
End Mean.

(** ** The mean of two doubles lies between them *)
Lemma normalize_nearest z : finite (binary_normalize 53 1024 z (-1074) false) -> nearest (binary_normalize 53 1024 z (-1074) false) z 1.
Proof.
  assert (Hpos : forall p, finite (binary_round 53 1024 false p (-1074)) -> nearest (binary_round 53 1024 false p (-1074)) (Z.pos p) 1).
  { intros p. unfold binary_round. destruct (align_spec p (-1074) (fx (Z.pos (digits2_pos p) + -1074))) as (a & b & -> & Hb & Ha). rewrite fx_def in Hb.
    assert (Eb : b = -1074) by lia. clear Hb. subst b. rewrite Z.sub_diag, Z.pow_0_r, Z.mul_1_r in Ha. injection Ha as ->.
    intros Hf. rewrite <- (Z.div_1_r (Z.pos p)), <- (pos_of_1 (Z.pos p)) in Hf |- *.
    destruct (round_nearest (Z.pos p) 1 (-1074)) with (5 := Hf) as (_ & K); try lia; [rewrite fx_def; lia|].
    intros y Hy. specialize (K y Hy). change (2 ^ (-1074 + 1074)) with 1 in K. rewrite (Z.div_1_r (Z.pos p)) in *. rewrite !Z.mul_1_r in *. exact K. }
  intros Hf. destruct z as [|p|p]; [intros y Hy; unfold tiny at 1; cbn; lia|apply Hpos, Hf|]. change (Z.neg p) with (- Z.pos p) in *. rewrite normalize_opp in * by lia. cbn [binary_normalize] in *.
  apply nearest_opp, Hpos. apply finite_opp in Hf. destruct (binary_round 53 1024 false p (-1074)); exact Hf.
Qed.
Lemma add_nearest x y : finite x -> finite y -> finite (fadd x y) -> nearest (fadd x y) (tiny x + tiny y) 1.
Proof.
  intros Hx Hy. rewrite add_sub. intros Hf. destruct (sub_rank x (SFopp y) (-1074) Hx (finite_opp y Hy) (finite_above x Hx) (finite_above _ (finite_opp y Hy))) as [E Hn].
  fold (tiny x) (tiny (SFopp y)) in E. rewrite tiny_opp in E. replace (tiny x - - tiny y) with (tiny x + tiny y) in E by ring.
  pose proof (normalize_num (tiny x + tiny y) (-1074)) as N1. pose proof (normalize_double (tiny x + tiny y) (-1074)) as D1.
  pose proof (finite_rank _ _ Hf D1 N1 E) as Hf'. intros z Hz. rewrite (tiny_rank _ _ Hf Hf' E). apply normalize_nearest; assumption.
Qed.

Lemma bnd_intro m e : Z.pos m < 2 ^ 53 -> -1074 <= e <= 971 -> (-1074 < e -> 2 ^ 52 <= Z.pos m) -> bnd m e = true.
Proof.
  intros Hm He Hn. unfold bounded, canonical_mantissa. apply andb_true_iff. split; [|apply Z.leb_le; lia].
  apply Zeq_is_eq_bool. change (Z.pos (digits2_pos m)) with (Zdigits2 (Z.pos m)). assert (D1 : Zdigits2 (Z.pos m) <= 53) by (apply digits_le; lia). rewrite fx_def.
  destruct (Z.eq_dec e (-1074)); [lia|]. assert (52 < Zdigits2 (Z.pos m)) by (apply digits_ge; lia). lia.
Qed.
(** twice a double is a double *)
Lemma double_twice x : finite x -> Z.abs (tiny x) <= 2 ^ 2096 -> exists y, finite y /\ tiny y = 2 * tiny x.
Proof.
  intros Hx Hb. destruct x as [s|s| |s m e]; try contradiction; [exists f_zero; split; [exact I|reflexivity]|].
  destruct (bnd_spec m e Hx) as (_ & H1 & H2 & H3 & H4). destruct (Z.eq_dec e (-1074)) as [->|N].
  - destruct (Z.lt_ge_cases (Z.pos m) (2 ^ 52)).
    + exists (S754_finite s (2 * m) (-1074)). split; [apply bnd_intro; lia|]. unfold tiny. cbn [units]. change (2 ^ (-1074 - -1074)) with 1. destruct s; cbn [cond_Zopp]; lia.
    + exists (S754_finite s m (-1073)). split; [apply bnd_intro; lia|]. unfold tiny. cbn [units]. change (2 ^ (-1074 - -1074)) with 1. change (2 ^ (-1073 - -1074)) with 2. destruct s; cbn [cond_Zopp]; lia.
  - specialize (H4 ltac:(lia)). exists (S754_finite s m (e + 1)).
    assert (He : e < 971). { destruct (Z.eq_dec e 971) as [->|]; [exfalso|lia]. unfold tiny in Hb. cbn [units] in Hb.
      assert (E : Z.abs (cond_Zopp s (Z.pos m * 2 ^ (971 - -1074))) = Z.pos m * 2 ^ 2045) by (assert (0 < 2 ^ 2045) by reflexivity; change (971 - -1074) with 2045; destruct s; cbn [cond_Zopp]; nia).
      rewrite E in Hb. replace (2 ^ 2096) with (2 ^ 51 * 2 ^ 2045) in Hb by (rewrite <- Z.pow_add_r by lia; reflexivity). apply Z.mul_le_mono_pos_r in Hb; [|reflexivity]. change (2 ^ 52) with (2 * 2 ^ 51) in H4. lia. }
    split; [apply bnd_intro; lia|]. unfold tiny. cbn [units]. replace (2 ^ (e + 1 - -1074)) with (2 * 2 ^ (e - -1074)) by (replace (e + 1 - -1074) with (1 + (e - -1074)) by lia; rewrite (Z.pow_add_r 2 1) by lia; reflexivity).
    destruct s; cbn [cond_Zopp]; ring.
Qed.

Lemma nearest_ge v K n y : 0 < n -> nearest v K n -> finite y -> tiny y * n <= K -> tiny y <= tiny v.
Proof. intros Hn H Hy L. specialize (H y Hy). destruct (Z.le_gt_cases (tiny y) (tiny v)) as [|Hlt]; [assumption|]. exfalso. assert (tiny v * n < tiny y * n) by nia. lia. Qed.
Lemma nearest_le v K n y : 0 < n -> nearest v K n -> finite y -> K <= tiny y * n -> tiny v <= tiny y.
Proof. intros Hn H Hy L. specialize (H y Hy). destruct (Z.le_gt_cases (tiny v) (tiny y)) as [|Hlt]; [assumption|]. exfalso. assert (tiny y * n < tiny v * n) by nia. lia. Qed.

Lemma fle_tiny x y : finite x -> finite y -> (fle x y <-> tiny x <= tiny y).
Proof. intros Hx Hy. apply (fle_units x y (-1074)); auto using finite_above. Qed.

Lemma add_fin2 x y : finite x -> finite y -> Z.abs (tiny x) <= 2 ^ 2096 -> Z.abs (tiny y) <= 2 ^ 2096 -> finite (fadd x y).
Proof.
  intros Hx Hy Bx By. apply add_finite; auto. replace (2 ^ 2097) with (2 * 2 ^ 2096) by (change 2097 with (1 + 2096); rewrite Z.pow_add_r by lia; reflexivity).
  revert Bx By. generalize (2 ^ 2096). intros. lia.
Qed.
Lemma half_between x y s : finite x -> finite y -> Z.abs (tiny x) <= 2 ^ 2096 -> Z.abs (tiny y) <= 2 ^ 2096 -> tiny x <= tiny y ->
  finite s -> tiny s = tiny (fadd x y) -> finite (fdiv s (f_ofZ 2)) /\ fle x (fdiv s (f_ofZ 2)) /\ fle (fdiv s (f_ofZ 2)) y.
Proof.
  intros Hx Hy Bx By L Hs Es. assert (Ha : finite (fadd x y)) by (apply add_fin2; assumption). pose proof (add_nearest x y Hx Hy Ha) as Na.
  destruct (double_twice x Hx Bx) as (x2 & Fx2 & Tx2). destruct (double_twice y Hy By) as (y2 & Fy2 & Ty2). clear Bx By.
  assert (S1 : tiny x2 <= tiny (fadd x y)) by (apply (nearest_ge _ _ 1 x2 ltac:(lia) Na Fx2); lia).
  assert (S2 : tiny (fadd x y) <= tiny y2) by (apply (nearest_le _ _ 1 y2 ltac:(lia) Na Fy2); lia).
  assert (H2 : 0 < 2 <= 2 ^ 52) by lia. assert (Fd : finite (fdiv s (f_ofZ 2))) by (apply div_finite; assumption). pose proof (div_nearest _ 2 Hs H2) as Nd.
  split; [exact Fd|]. split; apply fle_tiny; auto.
  - apply (nearest_ge _ _ 2 x ltac:(lia) Nd Hx). lia.
  - apply (nearest_le _ _ 2 y ltac:(lia) Nd Hy). lia.
Qed.

(** a sum of two numbers, in any order and with any zeros added *)
Lemma add_tiny x y x' y' : finite x -> finite y -> finite x' -> finite y' -> tiny x + tiny y = tiny x' + tiny y' -> finite (fadd x y) -> finite (fadd x' y') /\ tiny (fadd x' y') = tiny (fadd x y).
Proof.
  assert (G : forall x y, finite x -> finite y -> rank (fadd x y) = rank (binary_normalize 53 1024 (tiny x + tiny y) (-1074) false) /\ f_isnan (fadd x y) = false).
  { clear. intros x y Hx Hy. rewrite add_sub. destruct (sub_rank x (SFopp y) (-1074) Hx (finite_opp y Hy) (finite_above x Hx) (finite_above _ (finite_opp y Hy))) as [E Hn].
    fold (tiny x) (tiny (SFopp y)) in E. rewrite tiny_opp in E. replace (tiny x - - tiny y) with (tiny x + tiny y) in E by ring. split; assumption. }
  intros Hx Hy Hx' Hy' E Hf. destruct (G x y Hx Hy) as [R1 _]. destruct (G x' y' Hx' Hy') as [R2 N2]. rewrite E, <- R2 in R1.
  assert (Hf' : finite (fadd x' y')) by (apply (finite_rank (fadd x y)); auto using add_double). split; [exact Hf'|]. symmetry. apply tiny_rank; assumption.
Qed.
Lemma add_zero_tiny a x : finite a -> tiny a = 0 -> finite x -> (finite (fadd a x) /\ tiny (fadd a x) = tiny x) /\ (finite (fadd x a) /\ tiny (fadd x a) = tiny x).
Proof.
  intros Ha Ea Hx. assert (Hz : exists s, a = S754_zero s).
  { destruct a as [s|s| |s m e]; try contradiction; [eauto|exfalso]. destruct (bnd_spec m e Ha) as (_ & _ & Hl & _). unfold tiny in Ea. cbn [units] in Ea. assert (0 < 2 ^ (e - -1074)) by (apply Z.pow_pos_nonneg; lia). destruct s; cbn [cond_Zopp] in Ea; nia. }
  destruct Hz as (s & ->). destruct x as [s'|s'| |s' m e]; try contradiction; [destruct s, s'; cbn; auto|cbn; auto].
Qed.

Lemma added_two l s : added l s -> Forall finite l ->
  (l = [] -> finite s /\ tiny s = 0) /\ (forall x, l = [x] -> finite s /\ tiny s = tiny x)
  /\ (forall x y, l = [x; y] -> finite (fadd x y) -> finite s /\ tiny s = tiny (fadd x y)).
Proof.
  induction 1 as [|z|l l1 l2 a b Hp _ IH1 _ IH2]; intros Hl.
  - split; [split; [exact I|reflexivity]|]. split; [discriminate|discriminate].
  - inversion Hl; subst. split; [discriminate|]. split; [intros x [= ->]; auto|discriminate].
  - assert (Hl' : Forall finite (l1 ++ l2)) by (rewrite <- Hp; exact Hl). apply Forall_app in Hl' as [F1 F2]. destruct (IH1 F1) as (A0 & A1 & A2). destruct (IH2 F2) as (B0 & B1 & B2). clear IH1 IH2.
    assert (Hz : forall k, k = l2 -> l1 = [] -> finite b -> finite (fadd a b) /\ tiny (fadd a b) = tiny b).
    { intros k _ E Hb. destruct (A0 E) as [Fa Ta]. apply (add_zero_tiny a b Fa Ta Hb). }
    assert (Hz' : l2 = [] -> finite a -> finite (fadd a b) /\ tiny (fadd a b) = tiny a).
    { intros E Ha. destruct (B0 E) as [Fb Tb]. apply (add_zero_tiny b a Fb Tb Ha). }
    split; [|split].
    + intros ->. apply Permutation_nil, app_eq_nil in Hp as [E1 E2]. destruct (B0 E2) as [Fb Tb]. destruct (Hz _ eq_refl E1 Fb) as [Fs Ts]. split; [exact Fs|congruence].
    + intros x ->. apply Permutation_length_1_inv in Hp. destruct l1 as [|x1 l1].
      * cbn in Hp. destruct (B1 x Hp) as [Fb Tb]. destruct (Hz _ eq_refl eq_refl Fb) as [Fs Ts]. split; [exact Fs|congruence].
      * injection Hp as -> Hp. apply app_eq_nil in Hp as [-> ->]. destruct (A1 x eq_refl) as [Fa Ta]. destruct (Hz' eq_refl Fa) as [Fs Ts]. split; [exact Fs|congruence].
    + intros x y -> Hxy. inversion Hl as [|? ? Fx Hl1]; subst. inversion Hl1 as [|? ? Fy _]; subst. apply Permutation_length_2_inv in Hp.
      assert (Hor : exists x' y', l1 ++ l2 = [x'; y'] /\ (x' = x /\ y' = y \/ x' = y /\ y' = x)) by (destruct Hp as [->| ->]; eauto 6). destruct Hor as (x' & y' & E & Hor).
      assert (Hxy' : finite (fadd x' y') /\ tiny (fadd x' y') = tiny (fadd x y) /\ finite x' /\ finite y').
      { destruct Hor as [[-> ->]|[-> ->]]; [auto|]. destruct (add_tiny x y y x Fx Fy Fy Fx ltac:(lia) Hxy). auto. }
      destruct Hxy' as (Fxy & Txy & Fx' & Fy'). rewrite <- Txy. clear Hp Hor Hl Hl1 Hxy Txy Fx Fy x y.
      destruct l1 as [|x1 [|x2 l1]]; cbn in E.
      * destruct (B2 x' y' E Fxy) as [Fb Tb]. destruct (Hz _ eq_refl eq_refl Fb) as [Fs Ts]. split; [exact Fs|congruence].
      * injection E as -> E. destruct (A1 x' eq_refl) as [Fa Ta]. destruct (B1 y' E) as [Fb Tb]. apply (add_tiny x' y' a b); auto. lia.
      * injection E as -> -> E. apply app_eq_nil in E as [-> ->]. destruct (A2 x' y' eq_refl Fxy) as [Fa Ta]. destruct (Hz' eq_refl Fa) as [Fs Ts]. split; [exact Fs|congruence].
Qed.

Lemma mean_two_between sum (Hsum : forall l, added l (sum l)) x y : finite x -> finite y -> Z.abs (tiny x) <= 2 ^ 2096 -> Z.abs (tiny y) <= 2 ^ 2096 -> fle x y ->
  finite (np_mean (fl64 sum) [x; y]) /\ fle x (np_mean (fl64 sum) [x; y]) /\ fle (np_mean (fl64 sum) [x; y]) y.
Proof.
  intros Hx Hy Bx By L. apply fle_tiny in L; auto. unfold np_mean. cbn [n_div n_ofZ n_sum fl64 length]. change (Z.of_nat 2) with 2.
  assert (Ha : finite (fadd x y)) by (apply add_fin2; assumption).
  destruct (added_two _ _ (Hsum [x; y]) ltac:(auto)) as (_ & _ & H2). destruct (H2 x y eq_refl Ha) as [Fs Ts]. apply half_between; assumption.
Qed.
Lemma mean_two_comm sum (Hsum : forall l, added l (sum l)) x y : finite x -> finite y -> Z.abs (tiny x) <= 2 ^ 2096 -> Z.abs (tiny y) <= 2 ^ 2096 -> fle y x ->
  finite (np_mean (fl64 sum) [x; y]) /\ fle y (np_mean (fl64 sum) [x; y]) /\ fle (np_mean (fl64 sum) [x; y]) x.
Proof.
  intros Hx Hy Bx By L. apply fle_tiny in L; auto. unfold np_mean. cbn [n_div n_ofZ n_sum fl64 length]. change (Z.of_nat 2) with 2.
  assert (Ha : finite (fadd x y)) by (apply add_fin2; assumption).
  destruct (added_two _ _ (Hsum [x; y]) ltac:(auto)) as (_ & _ & H2). destruct (H2 x y eq_refl Ha) as [Fs Ts]. destruct (add_tiny x y y x Hx Hy Hy Hx ltac:(lia) Ha) as [_ T].
  apply half_between; auto. congruence.
Qed.
