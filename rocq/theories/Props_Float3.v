(** Partial dependence importance in double arithmetic (C105). *)
From Verif Require Import Py Num NumR Float FloatRound FloatMono FloatOps Sorting Frame Rng PdCalc PdSpec MethodSpec PdFacts PdProofs PdTheorems PdErrors PdApi PdMethods PdMethodFacts Props_Pd Props_Methods Props_Methods2 Additivity Props_Float.
From Coq Require Import ZArith SpecFloat Lia.
Open Scope string_scope.
Open Scope nat_scope.
Open Scope list_scope.

(** not below zero, or NaN; negative zero is allowed *)
Definition notneg (x : F) : Prop := f_isnan x = false -> SFleb f_zero x = true.

Lemma ge0_notneg x : fge0 x -> notneg x.
Proof. intros H Hn. apply nonneg_ge0; assumption. Qed.
Lemma div_double_any x m e : double (fdiv x (S754_finite false m e)).
Proof.
  destruct x as [s|s| |s mx ex]; try exact I. unfold fdiv, SFdiv. destruct (div_core mx ex m e) as (A & q & e1 & -> & -> & _ & EA & He).
  assert (HA : (0 <= A)%Z) by (rewrite EA; apply Z.mul_nonneg_nonneg; [lia|apply Z.pow_nonneg; lia]).
  destruct (round_value A (Z.pos m) e1 HA ltac:(lia) He) as [_ E]. rewrite E. apply pack_finite; [exact HA|lia|exact He].
Qed.
Lemma ofZ_cases z : (0 <= z)%Z -> f_ofZ z = f_zero \/ f_ofZ z = S754_infinity false \/ exists m e, f_ofZ z = S754_finite false m e.
Proof.
  intros H. pose proof (f_ofZ_nonneg z H) as G. pose proof (normalize_num z 0) as Hn. unfold f_ofZ in *.
  destruct (binary_normalize 53 1024 z 0 false) as [s|s| |s m e]; cbn in G, Hn; subst; try discriminate; eauto.
Qed.
Lemma mean_double sum l : double (np_mean (fl64 sum) l).
Proof.
  unfold np_mean. cbn [n_div n_sum n_ofZ fl64]. destruct (ofZ_cases (Z.of_nat (length l)) ltac:(lia)) as [->|[->|(m & e & ->)]]; [| |apply div_double_any].
  - destruct (sum l); exact I.
  - destruct (sum l); exact I.
Qed.
(** a larger double minus a smaller one *)
Lemma sub_notneg x y : double x -> double y -> SFltb x y = false -> notneg (fsub x y).
Proof.
  intros Dx Dy L Hn. destruct x as [s|s| |s m e], y as [s'|s'| |s' m' e']; try discriminate;
    try (destruct s; try destruct s'; reflexivity || discriminate); try (destruct s'; reflexivity || discriminate).
  assert (Hle : fle (S754_finite s' m' e') (S754_finite s m e)) by (repeat split; exact L).
  apply (fle_units _ _ (Z.min e e')) in Hle; try assumption; try (cbn [above]; lia).
  destruct (sub_rank (S754_finite s m e) (S754_finite s' m' e') (Z.min e e')) as [E _]; try assumption; try (cbn [above]; lia).
  set (d := (units _ _ - units _ _)%Z) in E. assert (Hd : (0 <= d)%Z) by (unfold d; lia). clearbody d.
  pose proof (normalize_nonneg d (Z.min e e') Hd) as (_ & _ & G).
  assert (H : fle f_zero (fsub (S754_finite s m e) (S754_finite s' m' e'))).
  { apply (fle_same f_zero (binary_normalize 53 1024 d (Z.min e e') false)); auto. apply (normalize_nonneg d (Z.min e e') Hd). }
  destruct H as (_ & _ & H). destruct (fsub _ _) as [t|t| |t p q]; try destruct t; try reflexivity; discriminate.
Qed.
Lemma div4_notneg x : notneg x -> notneg (fdiv x (f_ofZ 4)).
Proof.
  intros H Hn. destruct x as [s|s| |s m e]; [destruct s; reflexivity| | |].
  - specialize (H eq_refl). destruct s; [discriminate|reflexivity].
  - discriminate.
  - specialize (H eq_refl). destruct s; [discriminate|]. apply nonneg_ge0; [|exact Hn]. apply fdiv_nonneg; reflexivity.
Qed.

(** dividing by one is exact *)
Lemma div_one_pos m e : bnd m e = true -> fdiv (S754_finite false m e) f_one = S754_finite false m e.
Proof.
  intros Dx. unfold fdiv, SFdiv, f_one. destruct (div_core m e 4503599627370496 (-52)) as (A & q & e1 & E & Hq & (He1 & _) & HA & He). rewrite E. cbn [xorb].
  pose proof (bnd_spec m e Dx) as (B1 & B2 & B3 & B4 & B5).
  assert (Hle : (e1 <= e)%Z).
  { destruct (Z.le_gt_cases e1 e) as [|Hlt]; [assumption|exfalso].
    assert (HA0 : (0 <= A)%Z) by (rewrite HA; apply Z.mul_nonneg_nonneg; [lia|apply Z.pow_nonneg; lia]).
    assert (Hq0 : (0 <= q)%Z) by (rewrite Hq; apply Z.div_pos; lia).
    assert (Hq1 : (q < 2 ^ 52)%Z).
    { rewrite Hq. apply Z.div_lt_upper_bound; [lia|]. rewrite HA. apply Z.lt_le_trans with (2 ^ 53 * 2 ^ (e - -52 - e1))%Z.
      - apply Z.mul_lt_mono_pos_r; [apply Z.pow_pos_nonneg; lia|exact B4].
      - rewrite <- Z.pow_add_r by lia. change 4503599627370496%Z with (2 ^ 52)%Z. rewrite <- Z.pow_add_r by lia. apply Z.pow_le_mono_r; lia. }
    pose proof (digits_le q 52 Hq0 ltac:(lia) Hq1) as Hd. rewrite fx_def in He. lia. }
  assert (HA' : A = (Z.pos m * 2 ^ (e - e1) * 4503599627370496)%Z).
  { rewrite HA. replace (e - -52 - e1)%Z with ((e - e1) + 52)%Z by lia. rewrite Z.pow_add_r by lia. change (2 ^ 52)%Z with 4503599627370496%Z. lia. }
  assert (Hp : pos_of A 4503599627370496 = loc_Exact) by (unfold pos_of; rewrite HA', Z.mod_mul by lia; reflexivity). rewrite Hp.
  assert (Hq' : q = (Z.pos m * 2 ^ (e - e1))%Z) by (rewrite Hq, HA'; apply Z.div_mul; lia). clear HA' HA Hq E Hp.
  assert (Hq0 : (0 <= q)%Z) by (rewrite Hq'; apply Z.mul_nonneg_nonneg; [lia|apply Z.pow_nonneg; lia]).
  rewrite <- (round_pos_id m e Dx). destruct (round_pos m e) as (a & b & Er & Hb & Hf & Ha).
  assert (Hsame : (q * 2 ^ (e1 - Z.min e1 b) = Z.pos a * 2 ^ (b - Z.min e1 b))%Z).
  { rewrite Hq', Ha, <- !Z.mul_assoc, <- !Z.pow_add_r by lia. f_equal. f_equal. lia. }
  assert (Hr : rank (rnd_aux false q e1 loc_Exact) = rank (S754_finite false m e)).
  { rewrite <- (round_pos_id m e Dx), Er. apply fle_antisym; (split; [apply round_aux_num; (assumption || lia)|split; [apply round_aux_num; (assumption || lia)|]]).
    - apply exact_mono; try assumption; try lia.
    - apply exact_mono; try assumption; try lia. rewrite (Z.min_comm b e1). lia. }
  rewrite (round_pos_id m e Dx). destruct (rnd_aux false q e1 loc_Exact) as [t|t| |t p r] eqn:Ez; try destruct t; cbn in Hr; try discriminate; congruence.
Qed.
Lemma div_one x : double x -> fdiv x f_one = x.
Proof.
  intros Dx. destruct x as [s|s| |s m e]; try (destruct s; reflexivity); try reflexivity. destruct s; [|apply div_one_pos, Dx].
  pose proof (div_one_pos m e Dx) as P. unfold fdiv, SFdiv, f_one in *. destruct (div_core m e 4503599627370496 (-52)) as (A & q & e1 & E & Hq & _ & HA & _).
  rewrite E in *. cbn [xorb] in *. rewrite round_aux_opp; [rewrite P; reflexivity|]. rewrite Hq, HA. apply Z.div_pos; [|lia]. apply Z.mul_nonneg_nonneg; [lia|apply Z.pow_nonneg; lia].
Qed.

Section Float.
  Context {C G : Type} (O : cell_ops C) (HO : cell_ok O) (R : rng_ops G) (HR : rng_ok R) (srt : sorter) (Hs : sorter_ok srt)
          (sum : list F -> F) (Hsum : forall l, added l (sum l)).
  Notation N := (fl64 sum).
  Notation fit := (fit O N R srt).
  (** the distinct values of column [p] *)
  Notation values X p := (np_unique O (col_at p (f_rows X))).

  (** ** Largest and smallest *)
  Lemma ltb_false_trans a b c : f_isnan b = false -> SFltb a b = false -> SFltb b c = false -> SFltb a c = false.
  Proof. intros Hb H1 H2. exact (no_negtrans _ (fl64_ord sum) a b c Hb H1 H2). Qed.
  Lemma fold_max_min t : forall mx mn, SFltb mx mn = false -> double mx -> double mn -> Forall double t ->
    let a := fold_left (vmax2 N) t mx in let b := fold_left (vmin2 N) t mn in SFltb a b = false /\ double a /\ double b.
  Proof.
    induction t as [|x t IH]; intros mx mn H Da Db Ht; [cbn; auto|]. inversion Ht as [|? ? Dx Ht']; subst. cbn [fold_left]. apply IH; [|unfold vmax2|unfold vmin2|exact Ht'].
    2,3: destruct (n_isnan N _); [assumption|]; destruct (n_isnan N _); [assumption|]; destruct (n_ltb N _ _); assumption.
    unfold vmax2, vmin2. cbn [n_isnan n_ltb fl64].
    destruct (f_isnan mx) eqn:Na; [exact (no_nan_l _ (fl64_ord sum) _ _ Na)|]. destruct (f_isnan mn) eqn:Nb; [exact (no_nan_r _ (fl64_ord sum) _ _ Nb)|].
    destruct (f_isnan x) eqn:Nx; [exact (no_nan_l _ (fl64_ord sum) _ _ Nx)|].
    destruct (SFltb mx x) eqn:E1, (SFltb x mn) eqn:E2.
    - apply (no_irrefl _ (fl64_ord sum)).
    - exact E2.
    - exact E1.
    - exact H.
  Qed.
  Lemma calc_importance_notneg l num v : Forall double l -> calc_importance N l num = Ok v -> notneg v.
  Proof.
    intros Hl H. unfold calc_importance in H. destruct num.
    - injection H as <-. apply ge0_notneg. unfold np_std. cbn [n_sqrt fl64]. apply fsqrt_nonneg. unfold np_mean. cbn [n_div n_sum fl64].
      apply fdiv_nonneg; [|apply f_ofZ_nonneg; lia]. apply (added_nonneg _ _ (Hsum _)). apply Forall_forall. intros x Hx. apply in_map_iff in Hx as (r & <- & _). apply sq_nonneg.
    - destruct l as [|x t]; [discriminate|]. cbn [np_max np_min bind] in H. injection H as <-. inversion Hl as [|? ? Dx Ht]; subst.
      destruct (fold_max_min t x x (no_irrefl _ (fl64_ord sum) x) Dx Dx Ht) as (E & Da & Db). apply div4_notneg, sub_notneg; assumption.
  Qed.
  Lemma fillna_notneg v : notneg v -> SFleb f_zero (fillna0 N v) = true.
  Proof. intros H. unfold fillna0. cbn [n_isnan fl64]. destruct (f_isnan v) eqn:E; [reflexivity|apply H, E]. Qed.

  (** ** Equal values *)
  Lemma fold_max_const d t : Forall (eq d) t -> fold_left (vmax2 N) t d = d /\ fold_left (vmin2 N) t d = d.
  Proof.
    induction 1 as [|x t <- Ht IH]; [auto|]. cbn [fold_left].
    assert (E1 : vmax2 N d d = d) by (unfold vmax2; destruct (n_isnan N d), (n_ltb N d d); reflexivity).
    assert (E2 : vmin2 N d d = d) by (unfold vmin2; destruct (n_isnan N d), (n_ltb N d d); reflexivity).
    rewrite E1, E2. exact IH.
  Qed.
  Lemma sub_self_zero d : fsub d d = f_zero \/ fsub d d = S754_nan.
  Proof. destruct (f_isnan (fsub d d)) eqn:E; [right; apply isnan_nan, E|left; apply fsub_self, E]. Qed.
  Lemma std_exact l d : Forall (eq d) l -> (exists s, fsub d (np_mean N l) = S754_zero s) \/ fsub d (np_mean N l) = S754_nan -> fillna0 N (np_std N l) = f_zero.
  Proof.
    intros Hl Hm. assert (E : fillna0 N (np_std N l) = f_zero \/ np_std N l = f_zero).
    { unfold np_std, center. set (m := np_mean N l) in *. rewrite map_map. cbn [n_sub n_sqrt fl64].
      rewrite (map_ext_in _ (fun _ => fmul (fsub d m) (fsub d m)) l) by (intros x Hx; rewrite Forall_forall in Hl; rewrite <- (Hl x Hx); reflexivity).
      clearbody m. destruct l as [|x0 l]; [left|].
      - cbn [map]. unfold np_mean. cbn [n_div n_sum n_ofZ fl64 length]. change (f_ofZ (Z.of_nat 0)) with f_zero.
        rewrite (added_zeros [] (sum []) (Hsum [])) by constructor. reflexivity.
      - unfold np_mean; cbn [n_div n_sum n_ofZ fl64]. rewrite map_length. destruct Hm as [[s ->]| ->].
        + rewrite (added_zeros (map (fun _ : F => fmul (S754_zero s) (S754_zero s)) (x0 :: l)) _ (Hsum _)) by (apply Forall_forall; intros y Hy; apply in_map_iff in Hy as (? & <- & _); destruct s; reflexivity).
          destruct (ofZ_cases (Z.of_nat (length (x0 :: l))) ltac:(lia)) as [->|[->|(m' & e & ->)]]; [left|right|right]; reflexivity.
        + left. rewrite (added_nan (map (fun _ : F => fmul S754_nan S754_nan) (x0 :: l)) _ (Hsum _)) by (left; reflexivity). reflexivity. }
    destruct E as [E|E]; [exact E|rewrite E; reflexivity].
  Qed.
  Lemma range_const l d v : Forall (eq d) l -> calc_importance N l false = Ok v -> fillna0 N v = f_zero.
  Proof.
    intros Hl H. unfold calc_importance in H. destruct l as [|x t]; [discriminate|]. inversion Hl as [|? ? Ex Ht]; subst. cbn [np_max np_min bind] in H.
    destruct (fold_max_const x t Ht) as [E1 E2]. rewrite E1, E2 in H. cbn [n_div n_sub n_ofZ fl64] in H. injection H as <-.
    destruct (sub_self_zero x) as [->| ->]; reflexivity.
  Qed.
  Lemma added_single l x : added l x -> (l = [] -> x = f_zero) /\ forall d, l = [d] -> x = d \/ exists s, d = S754_zero s /\ x = f_zero.
  Proof.
    induction 1 as [|x|l l1 l2 x y Hp H1 [IH1 IH1'] H2 [IH2 IH2']].
    - split; [reflexivity|discriminate].
    - split; [discriminate|]. intros d [= ->]. auto.
    - split.
      + intros ->. apply Permutation_nil, app_eq_nil in Hp as [-> ->]. rewrite IH1, IH2 by reflexivity. reflexivity.
      + intros d ->. apply Permutation_length_1_inv in Hp. apply app_eq_unit in Hp as [[-> ->]|[-> ->]].
        * rewrite IH1 by reflexivity. destruct (IH2' d eq_refl) as [->|(s & -> & ->)]; [|right; exists s; auto]. destruct d as [[]| | |]; try (left; reflexivity). right. eexists; split; reflexivity.
        * rewrite IH2 by reflexivity. destruct (IH1' d eq_refl) as [->|(s & -> & ->)]; [|right; exists s; auto]. destruct d as [[]| | |]; try (left; reflexivity). right. eexists; split; reflexivity.
  Qed.
  Lemma single_dev d : double d -> (exists s, fsub d (np_mean N [d]) = S754_zero s) \/ fsub d (np_mean N [d]) = S754_nan.
  Proof.
    intros Dd. unfold np_mean. cbn [n_div n_sum n_ofZ fl64 length]. change (f_ofZ (Z.of_nat 1)) with f_one.
    destruct (proj2 (added_single _ _ (Hsum [d])) d eq_refl) as [E|(s & -> & E)].
    - rewrite E, (div_one d Dd). destruct (sub_self_zero d) as [->| ->]; [left; eexists; reflexivity|auto].
    - rewrite E. left. destruct s; eexists; reflexivity.
  Qed.

  (** ** C105 *)
  Lemma fi_fit k s a s' g Xs : wf_frame (a_X a) -> fit k s a = (s', Ok tt) -> m_X s' = Some Xs -> explains O N a g Xs ->
    wf_frame Xs /\ exists t, m_fi s' = Some t /\ forall f v, In (f, v) t -> exists p w, nth_error (f_cols Xs) p = Some f /\ v = fillna0 N w
      /\ calc_importance N (map (PD1 (np_mean N) g (f_rows Xs) p) (values Xs p)) (str_in f (f_num Xs)) = Ok w.
  Proof.
    intros HX H HXs He.
    assert (A : wf_frame Xs /\ exists c1 c2 fi m P b, reachable O N m Xs P b c1 /\ rowwise P g
         /\ pdp_importance O N srt Xs (PdMethodFacts.all_features a) c1 = (c2, Ok fi) /\ m_fi s' = Some fi).
    { destruct k as [norm|].
      - destruct (friedman_fit O N HO eq_refl R HR srt norm s a s' _ Xs HX H HXs He) as (HwX & _ & _ & _ & _ & A); auto.
      - destruct (greenwell_fit O N HO (fl64_ord sum) R HR srt s a s' _ Xs HX H HXs He) as (HwX & _ & _ & A); auto. }
    destruct A as (HwX & c1 & c2 & fi & m & P & b & Hr & Hg & Ei & Efi). split; [exact HwX|]. exists fi. split; [exact Efi|].
    destruct (pdp_importance_spec O N HO eq_refl srt Xs _ c1 c2 fi m P b _ HwX Hg Hr Ei) as (l & -> & _ & _ & _ & Hin & Hl).
    intros f v Hv. apply (table_In N srt Hs (fl64_ord sum)) in Hv as (w & Hw & ->). apply (Forall2_In_r _ _ _ Hl) in Hw as (f' & Hf' & Ef & Hc).
    cbn [fst snd] in Ef, Hc. subst f'. specialize (Hin f Hf'). apply In_nth_error in Hin as (p & Hp). exists p, w. split; [exact Hp|]. split; [reflexivity|].
    rewrite (posn_nth Xs p f HwX Hp) in Hc. unfold is_numerical in Hc. replace (str_in f _) with true in Hc at 1 by (symmetry; apply str_in_In, Hf'). exact Hc.
  Qed.

  (** every importance is a number that is not negative *)
  Theorem C105_nonnegative k s a s' g Xs :
    wf_frame (a_X a) -> fit k s a = (s', Ok tt) -> m_X s' = Some Xs -> explains O N a g Xs ->
    exists t, m_fi s' = Some t /\ forall f v, In (f, v) t -> SFleb f_zero v = true.
  Proof.
    intros HX H HXs He. destruct (fi_fit k s a s' g Xs HX H HXs He) as (_ & t & Et & Ht). exists t. split; [exact Et|].
    intros f v Hv. destruct (Ht f v Hv) as (p & w & _ & -> & Hc). apply fillna_notneg. eapply calc_importance_notneg, Hc.
    apply Forall_forall. intros x Hx. apply in_map_iff in Hx as (u & <- & _). apply mean_double.
  Qed.
  (** the importance of a categorical feature that the model does not use is exactly 0 *)
  Theorem C105_categorical_partial k s a s' g Xs t f v p :
    wf_frame (a_X a) -> fit k s a = (s', Ok tt) -> m_X s' = Some Xs -> explains O N a g Xs ->
    m_fi s' = Some t -> In (f, v) t -> nth_error (f_cols Xs) p = Some f -> ~ In f (f_num Xs) -> unused (length (f_cols Xs)) g p -> v = f_zero.
  Proof.
    intros HX H HXs He Et Hv Hp Hn Hu. destruct (fi_fit k s a s' g Xs HX H HXs He) as (HwX & t' & Et' & Ht). rewrite Et in Et'. injection Et' as <-.
    destruct (Ht f v Hv) as (p' & w & Hp' & -> & Hc). pose proof (posn_nth Xs p f HwX Hp) as E. rewrite (posn_nth Xs p' f HwX Hp') in E. subst p'.
    replace (str_in f (f_num Xs)) with false in Hc by (symmetry; apply not_true_iff_false; rewrite str_in_In; exact Hn).
    eapply (range_const _ (np_mean N (map g (f_rows Xs)))), Hc. apply Forall_forall. intros x Hx. apply in_map_iff in Hx as (u & <- & _). unfold PD1. f_equal. apply map_ext_in. intros r Hr. symmetry. apply Hu.
    destruct HwX as (_ & Hw & _). rewrite Forall_forall in Hw. apply Hw, Hr.
  Qed.
  (** a feature with one value has importance exactly 0, whatever the model *)
  Theorem C105_one_value_partial k s a s' g Xs t f v p x :
    wf_frame (a_X a) -> fit k s a = (s', Ok tt) -> m_X s' = Some Xs -> explains O N a g Xs ->
    m_fi s' = Some t -> In (f, v) t -> nth_error (f_cols Xs) p = Some f -> (forall r, In r (f_rows Xs) -> nth_error r p = Some x) -> v = f_zero.
  Proof.
    intros HX H HXs He Et Hv Hp Hone. destruct (fi_fit k s a s' g Xs HX H HXs He) as (HwX & t' & Et' & Ht). rewrite Et in Et'. injection Et' as <-.
    destruct (Ht f v Hv) as (p' & w & Hp' & -> & Hc). pose proof (posn_nth Xs p f HwX Hp) as E. rewrite (posn_nth Xs p' f HwX Hp') in E. subst p'.
    assert (Hx : forall y, In y (values Xs p) -> y = x).
    { intros y Hy. apply (np_unique_sub O HO) in Hy. unfold col_at in Hy. apply in_flat_map in Hy as (r & Hr & Hy). rewrite (Hone r Hr) in Hy. destruct Hy as [->|[]]. reflexivity. }
    pose proof (np_unique_NoDup O HO (col_at p (f_rows Xs))) as Hnd. set (pd := PD1 (np_mean N) g (f_rows Xs) p) in *.
    assert (Hall : Forall (eq (pd x)) (map pd (values Xs p))) by (apply Forall_forall; intros y Hy; apply in_map_iff in Hy as (u & <- & Hu); rewrite (Hx u Hu); reflexivity).
    destruct (str_in f (f_num Xs)); [|exact (range_const _ _ _ Hall Hc)]. injection Hc as <-. apply (std_exact _ (pd x)); [exact Hall|].
    assert (Hcase : values Xs p = [] \/ values Xs p = [x]).
    { destruct (values Xs p) as [|y [|z l]]; [auto|right; rewrite (Hx y (or_introl eq_refl)); reflexivity|exfalso].
      rewrite (Hx y (or_introl eq_refl)), (Hx z (or_intror (or_introl eq_refl))) in Hnd. inversion Hnd as [|? ? Hni _]. apply Hni. left. reflexivity. }
    destruct Hcase as [->| ->]; cbn [map]; [right|apply single_dev, mean_double].
    unfold np_mean at 1. cbn [n_div n_sum n_ofZ fl64 length]. change (f_ofZ (Z.of_nat 0)) with f_zero. rewrite (added_zeros [] (sum []) (Hsum [])) by constructor.
    change (fdiv f_zero f_zero) with S754_nan. destruct (pd x); reflexivity.
  Qed.
End Float.

(** a numerical feature that the model does not use: the importance is a rounding error *)
Definition fiX : frame Z := {| f_cols := ["a"; "b"; "c"]; f_index := [0;1;2;3;4]%Z; f_num := ["a"; "c"];
  f_rows := [[0;0;1];[1;1;1];[2;0;1];[2;1;1];[1;2;1]]%Z |}.
Definition fiP : nat -> list (list Z) -> result (list F) := fun _ rows => Ok (map (fun _ => fdiv (f_ofZ 1) (f_ofZ 10)) rows).
Definition fiA := mkargs fiP fiX None true None.
Definition fig (_ : list Z) : F := fdiv (f_ofZ 1) (f_ofZ 10).
Theorem C105_numerical_refuted :
  exists s' v t, wf_frame (a_X fiA) /\ fitF (Friedman true) (m_init 0) fiA = (s', Ok tt) /\ m_X s' = Some fiX /\ explains Zcell (fl64 seq_sum) fiA fig fiX
    /\ unused 3 fig 0 /\ m_fi s' = Some (("a", v) :: t) /\ SFltb f_zero v = true.
Proof.
  exists (fst (fitF (Friedman true) (m_init 0) fiA)). eexists. eexists. split; [repeat constructor; cbn; intuition congruence|].
  split; [rewrite (surjective_pairing (fitF (Friedman true) (m_init 0) fiA)) at 1; f_equal; vm_compute; reflexivity|]. split; [vm_compute; reflexivity|].
  split; [split; [intros n rows ys E; injection E as <-; reflexivity|exact I]|]. split; [intros r v E; reflexivity|].
  split; [vm_compute; reflexivity|reflexivity].
Qed.
(** the other two features of that run meet the hypotheses of the theorems above *)
Example C105_example :
  exists s' t, fitF (Friedman true) (m_init 0) fiA = (s', Ok tt) /\ m_X s' = Some fiX /\ explains Zcell (fl64 seq_sum) fiA fig fiX
    /\ m_fi s' = Some t /\ In ("b", f_zero) t /\ In ("c", f_zero) t /\ ~ In "b" (f_num fiX) /\ unused 3 fig 1
    /\ (forall r, In r (f_rows fiX) -> nth_error r 2 = Some 1%Z).
Proof.
  exists (fst (fitF (Friedman true) (m_init 0) fiA)). eexists.
  split; [rewrite (surjective_pairing (fitF (Friedman true) (m_init 0) fiA)) at 1; f_equal; vm_compute; reflexivity|]. split; [vm_compute; reflexivity|].
  split; [split; [intros n rows ys E; injection E as <-; reflexivity|exact I]|]. split; [vm_compute; reflexivity|].
  split; [cbn; auto|]. split; [cbn; auto|]. split; [cbn; intuition congruence|]. split; [intros r v E; reflexivity|].
  intros r Hr. cbn in Hr. repeat (destruct Hr as [<-|Hr]; [reflexivity|]). destruct Hr.
Qed.

Print Assumptions C105_nonnegative.
Print Assumptions C105_categorical_partial.
Print Assumptions C105_one_value_partial.
Print Assumptions C105_numerical_refuted.
