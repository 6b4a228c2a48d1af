(** C138: accuracy of the metrics, of the performance based interaction values and of the
    permutation importance in doubles. *)
From Verif Require Import Py Num NumR Float FloatRound FloatMono FloatOps FloatErr FloatInt FloatReal Sorting Frame Rng PdCalc PdSpec PdFacts PdProofs PdTheorems PdErrors PdApi PdMethods MethodSpec
  PdMethodFacts PdMethodRun PdMethodReal PdMethodReal2 GreenwellFacts Props_Pd Props_Methods Props_Methods2 Props_Float Props_Float2 Props_Float3 Perm ForestFacts PermFacts PermRun Props_Perm Props_EndToEnd Props_EndToEnd2 Props_Terms Props_Stable Props_Accuracy Props_Accuracy2.
From Coq Require Import ZArith SpecFloat Reals Lra Lia.
Open Scope string_scope.
Open Scope nat_scope.
Open Scope list_scope.
Notation rearranged := PermFacts.rearranged.
Notation included := Props_Perm.included.

(** ** Specification *)
(** the metric in doubles *)
Definition double_metric (sum : list F -> F) (c : scoring) : metric F := match c with ByMSE => MSE (fl64 sum) | ByRMSE => RMSE (fl64 sum) | ByAccuracy => Accuracy (fl64 sum) end.
(** the largest score for numbers up to [B], and the error of a score over [n] rows *)
Definition largest_score (c : scoring) (B : R) : R := match c with ByMSE => 4 * (B * B) | ByRMSE => 2 * B | ByAccuracy => 1 end%R.
Definition score_error (c : scoring) (n : nat) (B : R) : R :=
  match c with ByMSE => 30 * (INR n * P2 (-53)) * (B * B) + P2 (-1072) | ByRMSE => 24 * (INR n * P2 (-53)) * B + P2 (-530) | ByAccuracy => 2 * (INR n * P2 (-53)) + P2 (-1075) end%R.
Definition number_within (B : R) (x : F) : Prop := finite x /\ (Rabs (fv x) <= B)%R.

Lemma near_square x r e b : near x r e b -> ((b + e) * (b + e) <= P2 1022)%R -> near (fmul x x) (Rsqr r) (e * (2 * b + e) + ulp * ((b + e) * (b + e)) + eta) (b * b).
Proof.
  intros H Hb. pose proof (near_pos _ _ _ _ H) as [E0 B0]. pose proof (near_abs _ _ _ _ H) as A. destruct H as (F1 & E1 & B1). pose proof ulp_pos as U.
  assert (S : (Rabs (fv x * fv x) <= (b + e) * (b + e))%R) by (rewrite Rabs_mult; apply Rmult_le_compat; try apply Rabs_pos; exact A).
  destruct (mul_real x x F1 F1 ltac:(lra)) as [G1 G2]. split; [exact G1|]. split.
  - assert (D : (Rabs (fv x * fv x - Rsqr r) <= e * (2 * b + e))%R).
    { replace (fv x * fv x - Rsqr r)%R with ((fv x - r) * (fv x + r))%R by (unfold Rsqr; ring). rewrite Rabs_mult. apply Rmult_le_compat; try apply Rabs_pos; [exact E1|]. eapply Rle_trans; [apply Rabs_triang|]. lra. }
    assert (M : (ulp * Rabs (fv x * fv x) <= ulp * ((b + e) * (b + e)))%R) by (apply Rmult_le_compat_l; lra).
    set (X := fv (fmul x x)) in *. set (Y := (fv x * fv x)%R) in *. set (Z := Rsqr r) in *. set (T1 := (ulp * ((b + e) * (b + e)))%R) in *. set (T2 := (e * (2 * b + e))%R) in *. set (T3 := (ulp * Rabs Y)%R) in *. clearbody X T1 T2 T3 Z. clear - D M G2. abs; lra.
  - rewrite Rabs_pos_eq by apply Rle_0_sqr. unfold Rsqr. assert (r * r <= b * b)%R; [|assumption]. replace (r * r)%R with (Rabs r * Rabs r)%R by (rewrite <- Rabs_mult; apply Rabs_pos_eq, Rle_0_sqr). apply Rmult_le_compat; try apply Rabs_pos; exact B1.
Qed.

Lemma B_large (B : R) : (0 <= B <= P2 240 -> B <= P2 480 /\ B * B <= P2 480)%R.
Proof.
  intros HB. assert (P2 240 <= P2 480)%R by (apply P2_le; lia). split; [lra|]. change 480%Z with (240 + 240)%Z. rewrite P2_add. apply Rmult_le_compat; lra.
Qed.
Lemma k_range (n : nat) : (0 < n)%nat -> (INR n <= P2 40 -> ulp <= INR n * ulp <= / 8192)%R.
Proof.
  intros H0 Hn. assert (1 <= INR n)%R by (change 1%R with (INR 1); apply le_INR; lia). pose proof ulp_pos. split; [nra|]. rewrite <- P2_m13. change (-13)%Z with (40 + -53)%Z. rewrite P2_add. fold ulp. apply Rmult_le_compat_r; [lra|exact Hn].
Qed.

(** ** The three metrics *)
Section Scores.
  Context (sum : list F -> F) (Hsum : forall l, added l (sum l)) (ys zs : list F) (Hl : length ys = length zs) (Hne : ys <> []) (B : R).
  Notation N := (fl64 sum).
  Notation n := (length ys).
  Notation k := (INR n * ulp)%R.
  Context (Hn : (INR n <= P2 40)%R) (HB : (0 <= B <= P2 240)%R) (Hy : Forall (number_within B) ys) (Hz : Forall (number_within B) zs).
  Open Scope R_scope.
  Notation pairs := (combine ys zs).
  Definition pdiff (p : F * F) : F := fsub (snd p) (fst p).
  Definition rpdiff (p : F * F) : R := fv (snd p) - fv (fst p).

  Lemma pairs_length : length pairs = n. Proof. rewrite combine_length, Hl. apply Nat.min_id. Qed.
  Lemma pairs_ne : pairs <> []. Proof. intros E. pose proof pairs_length as L. rewrite E in L. destruct ys; [congruence|discriminate]. Qed.
  Lemma n_pos : (0 < n)%nat. Proof. destruct ys; [congruence|cbn; lia]. Qed.
  Lemma near_pdiff p : In p pairs -> near (pdiff p) (rpdiff p) (2 * ulp * B) (2 * B).
  Proof.
    destruct p as [y z]. intros Hp. pose proof (in_combine_l _ _ _ _ Hp) as Iy. pose proof (in_combine_r _ _ _ _ Hp) as Iz. rewrite Forall_forall in Hy, Hz. destruct (Hy y Iy) as [F1 B1]. destruct (Hz z Iz) as [F2 B2].
    assert (N1 : forall x, finite x -> Rabs (fv x) <= B -> near x (fv x) 0 B) by (intros x Fx Bx; split; [exact Fx|]; split; [rewrite Rminus_diag_eq, Rabs_R0 by reflexivity; lra|exact Bx]).
    destruct (B_large B HB) as [B4 _]. destruct big_1 as [G1 G2]. eapply near_le; [apply (near_sub z y _ _ _ _ _ _ (N1 z F2 B2) (N1 y F1 B1))| |]; [|lra|lra].
    apply Rle_trans with (P2 490); [lra|apply P2_le; lia].
  Qed.
  Lemma near_sq p : In p pairs -> near (fmul (pdiff p) (pdiff p)) (Rsqr (rpdiff p)) (14 * (ulp * (B * B)) + eta) (4 * (B * B)).
  Proof.
    intros Hp. destruct (B_large B HB) as [_ B4]. destruct (k_range n n_pos Hn) as [UK K]. pose proof ulp_pos as U. destruct big_1 as [G1 G2]. assert (BB : 0 <= B * B) by (apply Rmult_le_pos; lra).
    assert (UB : ulp * (B * B) <= / 8192 * (B * B)) by (apply Rmult_le_compat_r; lra). assert (UU : ulp * (ulp * (B * B)) <= / 8192 * (ulp * (B * B))) by (apply Rmult_le_compat_r; [apply Rmult_le_pos; lra|lra]).
    assert (U0 : 0 <= ulp * (ulp * (B * B))) by (repeat apply Rmult_le_pos; lra). assert (UU3 : ulp * (ulp * (ulp * (B * B))) <= / 8192 * (ulp * (ulp * (B * B)))) by (apply Rmult_le_compat_r; lra).
    assert (SQ : (2 * B + 2 * ulp * B) * (2 * B + 2 * ulp * B) = 4 * (B * B) + 8 * (ulp * (B * B)) + 4 * (ulp * (ulp * (B * B)))) by ring.
    eapply near_le; [apply near_square; [apply near_pdiff, Hp|]| |].
    - rewrite SQ. apply Rle_trans with (P2 490); [lra|apply P2_le; lia].
    - rewrite SQ. replace (2 * ulp * B * (2 * (2 * B) + 2 * ulp * B)) with (8 * (ulp * (B * B)) + 4 * (ulp * (ulp * (B * B)))) by ring.
      replace (ulp * (4 * (B * B) + 8 * (ulp * (B * B)) + 4 * (ulp * (ulp * (B * B))))) with (4 * (ulp * (B * B)) + 8 * (ulp * (ulp * (B * B))) + 4 * (ulp * (ulp * (ulp * (B * B))))) by ring. lra.
    - lra.
  Qed.
  Lemma squares_float b : mean_like N b (map (sqr N) (vsub N zs ys)) = np_mean N (map (fun p => fmul (pdiff p) (pdiff p)) pairs).
  Proof.
    assert (E : map (sqr N) (vsub N zs ys) = map (fun p => fmul (pdiff p) (pdiff p)) pairs).
    { clear. revert zs. induction ys as [|y l IH]; intros [|z t]; try reflexivity. specialize (IH t). unfold vsub in *. cbn [map combine fst snd] in *. rewrite <- IH. reflexivity. }
    rewrite E. destruct b; [|reflexivity]. unfold mean_like. f_equal. apply (filter_id_all _ _). intros x Hx. apply in_map_iff in Hx as (p & <- & Hp). cbn [n_isnan fl64]. rewrite (finite_num _ (proj1 (near_sq p Hp))). reflexivity.
  Qed.
  Lemma rmse_pairs : Rmse (map fv ys) (map fv zs) = Rmean (map (fun p => Rsqr (rpdiff p)) pairs).
  Proof.
    unfold Rmse. f_equal. clear. revert zs. induction ys as [|y l IH]; intros [|z t]; try reflexivity. cbn [map combine fst snd]. rewrite IH. reflexivity.
  Qed.
  Lemma rmean_pairs (f : F * F -> R) b : (forall p, In p pairs -> Rabs (f p) <= b) -> Rabs (Rmean (map f pairs)) <= b.
  Proof. intros H. apply Rmean_abs; [exact pairs_ne|exact H]. Qed.

  Lemma mse_float : near (np_mean N (map (fun p => fmul (pdiff p) (pdiff p)) pairs)) (Rmse (map fv ys) (map fv zs)) (30 * k * (B * B) + P2 (-1072)) (4 * (B * B)).
  Proof.
    destruct (B_large B HB) as [_ B4]. destruct (k_range n n_pos Hn) as [UK K]. pose proof ulp_pos as U. pose proof eta_pos as ET. destruct big_1 as [G1 G2]. pose proof eta_1 as E1. assert (BB : 0 <= B * B) by (apply Rmult_le_pos; lra).
    assert (UB0 : 0 <= ulp * (B * B)) by (apply Rmult_le_pos; lra). assert (UB : ulp * (B * B) <= k * (B * B)) by (apply Rmult_le_compat_r; lra). assert (KB : k * (B * B) <= / 8192 * (B * B)) by (apply Rmult_le_compat_r; lra). assert (KB0 : 0 <= k * (B * B)) by (apply Rmult_le_pos; lra).
    assert (KU : k * (ulp * (B * B)) <= / 8192 * (k * (B * B))) by (apply Rle_trans with (/ 8192 * (ulp * (B * B))); [apply Rmult_le_compat_r; [apply Rmult_le_pos; lra|lra]|lra]). assert (KE : k * eta <= / 8192 * eta) by (apply Rmult_le_compat_r; lra).
    assert (EE : 8 * eta = P2 (-1072)) by (replace 8 with (P2 3) by (change (P2 3) with (2 ^ 3); simpl; lra); unfold eta; rewrite <- P2_add; reflexivity).
    rewrite rmse_pairs. eapply near_le; [apply (near_mean sum Hsum (fun p => fmul (pdiff p) (pdiff p)) (fun p => Rsqr (rpdiff p)) (14 * (ulp * (B * B)) + eta) (4 * (B * B)) pairs pairs_ne near_sq)| |]; rewrite ?pairs_length.
    - lra.
    - apply Rle_trans with (P2 40 * P2 490); [apply Rmult_le_compat; [apply pos_INR| |exact Hn|]; lra|]. rewrite <- P2_add. apply P2_le. lia.
    - replace (2 * k * (4 * (B * B) + (14 * (ulp * (B * B)) + eta))) with (8 * (k * (B * B)) + 28 * (k * (ulp * (B * B))) + 2 * (k * eta)) by ring. lra.
    - lra.
  Qed.
  Lemma rmse_float : near (fsqrt (np_mean N (map (fun p => fmul (pdiff p) (pdiff p)) pairs))) (sqrt (Rmse (map fv ys) (map fv zs))) (24 * k * B + P2 (-530)) (2 * B).
  Proof.
    destruct (B_large B HB) as [B4 _]. destruct (k_range n n_pos Hn) as [UK K]. pose proof ulp_pos as U. pose proof eta_pos as ET. destruct big_1 as [G1 G2]. pose proof eta_1 as E1.
    assert (UB : ulp * B <= k * B) by (apply Rmult_le_compat_r; lra). assert (KB : k * B <= / 8192 * B) by (apply Rmult_le_compat_r; lra). assert (U0 : 0 <= ulp * B) by (apply Rmult_le_pos; lra).
    set (rows := map (fun p : F * F => [p]) pairs). set (d := at1 f_zero pdiff). set (h := at1 0 rpdiff).
    assert (Rl : length rows = n) by (unfold rows; rewrite map_length; exact pairs_length). assert (Rne : rows <> []) by (intros E; apply map_eq_nil in E; exact (pairs_ne E)).
    assert (D : forall r, In r rows -> near (d r) (h r) (2 * ulp * B) (2 * B)) by (intros r Hr; apply in_map_iff in Hr as (p & <- & Hp); apply (near_pdiff p Hp)).
    pose proof (rms_float sum Hsum rows Rne ltac:(rewrite Rl; exact Hn) d (3 * B) ltac:(lra)) as [Gf Ef].
    { intros r Hr. pose proof (D r Hr) as Dr. split; [apply Dr|]. eapply Rle_trans; [apply (near_abs _ _ _ _ Dr)|]. lra. }
    pose proof (root_near rows Rne (fun r => fv (d r)) h (2 * ulp * B) ltac:(lra) (fun r Hr => proj1 (proj2 (D r Hr)))) as Er. cbn beta in Er.
    rewrite Rl in Ef. unfold rows in Gf, Ef, Er. rewrite !map_map in Gf. rewrite (map_map (fun p => [p]) (fun r => fmul (d r) (d r))), (map_map (fun p => [p]) (fun r => Rsqr (fv (d r)))) in Ef.
    rewrite (map_map (fun p => [p]) (fun r => Rsqr (fv (d r)))), (map_map (fun p => [p]) (fun r => Rsqr (h r))) in Er. cbn [at1] in *. unfold d, h in *. cbn [at1] in *.
    split; [exact Gf|]. rewrite rmse_pairs. split.
    - pose proof eta_root as ER. set (x := fv _) in *. set (y := sqrt (Rmean (map (fun p => Rsqr (fv (pdiff p))) pairs))) in *. set (z := sqrt (Rmean (map (fun p => Rsqr (rpdiff p)) pairs))) in *.
      assert (Rabs (x - z) <= Rabs (x - y) + Rabs (y - z)) by (replace (x - z) with ((x - y) + (y - z)) by ring; apply Rabs_triang).
      replace (7 * k * (3 * B)) with (21 * (k * B)) in Ef by ring. replace (24 * k * B) with (24 * (k * B)) by ring. lra.
    - rewrite Rabs_pos_eq by apply sqrt_pos. rewrite <- (sqrt_Rsqr (2 * B)) by lra. apply sqrt_le_1_alt. eapply Rle_trans; [apply Rle_abs|]. apply rmean_pairs. intros p Hp. rewrite Rabs_pos_eq by apply Rle_0_sqr.
      apply Rsqr_le_abs_1. rewrite (Rabs_pos_eq (2 * B)) by lra. apply (near_pdiff p Hp).
  Qed.

  Definition hit (p : F * F) : F := f_ofZ (if SFeqb (fst p) (snd p) then 1 else 0)%Z.
  Definition rhit (p : F * F) : R := if Req_EM_T (fv (fst p)) (fv (snd p)) then 1 else 0.
  Lemma SFeqb_fv x y : finite x -> finite y -> (SFeqb x y = true <-> fv x = fv y).
  Proof.
    intros Fx Fy. pose proof (finite_num _ Fx) as Nx. pose proof (finite_num _ Fy) as Ny.
    assert (E : SFeqb x y = true <-> fle x y /\ fle y x).
    { rewrite (no_eqb N (fl64_ord sum) x y Nx Ny : SFeqb x y = _). unfold fle. cbn [n_ltb fl64]. rewrite andb_true_iff, !negb_true_iff. tauto. }
    rewrite E, (fle_fv x y Fx Fy), (fle_fv y x Fy Fx). lra.
  Qed.
  Lemma near_hit p : In p pairs -> near (hit p) (rhit p) 0 1.
  Proof.
    destruct p as [y z]. intros Hp. pose proof (in_combine_l _ _ _ _ Hp) as Iy. pose proof (in_combine_r _ _ _ _ Hp) as Iz. rewrite Forall_forall in Hy, Hz. destruct (Hy y Iy) as [F1 _]. destruct (Hz z Iz) as [F2 _].
    pose proof (SFeqb_fv y z F1 F2) as E. unfold hit, rhit. cbn [fst snd]. destruct (SFeqb y z), (Req_EM_T (fv y) (fv z)); try (exfalso; intuition congruence).
    - change (f_ofZ 1) with f_one. split; [reflexivity|]. rewrite fv_one, Rminus_diag_eq, Rabs_R0, Rabs_R1 by reflexivity. lra.
    - change (f_ofZ 0) with f_zero. split; [exact I|]. cbn [fv f_zero]. rewrite Rminus_diag_eq, Rabs_R0 by reflexivity. lra.
  Qed.
  Lemma accuracy_pairs : Raccuracy (map fv ys) (map fv zs) = Rmean (map rhit pairs).
  Proof.
    unfold Raccuracy, Rmean, hits. rewrite !map_length, pairs_length. f_equal. clear. revert zs. induction ys as [|y l IH]; intros [|z t]; try (cbn; rewrite ?Rsum_nil; reflexivity).
    cbn [map combine filter fst snd]. rewrite Rsum_cons. unfold rhit at 1. cbn [fst snd]. rewrite <- IH. destruct (Req_EM_T (fv y) (fv z)); [cbn [length]; rewrite S_INR; lra|lra].
  Qed.
  Lemma accuracy_float : near (np_mean N (map hit pairs)) (Raccuracy (map fv ys) (map fv zs)) (2 * k + P2 (-1075)) 1.
  Proof.
    destruct (k_range n n_pos Hn) as [UK K]. pose proof ulp_pos as U. pose proof eta_pos as ET. destruct big_1 as [G1 G2]. rewrite accuracy_pairs.
    eapply near_le; [apply (near_mean sum Hsum hit rhit 0 1 pairs pairs_ne near_hit)| |lra]; rewrite ?pairs_length.
    - lra.
    - apply Rle_trans with (P2 40 * P2 490); [apply Rmult_le_compat; [apply pos_INR| |exact Hn|]; lra|]. rewrite <- P2_add. apply P2_le. lia.
    - fold eta. lra.
  Qed.

  Theorem score_float c y : t_vals y = ys -> exists v, mt_calc (double_metric sum c) y zs = Ok v
    /\ near v (score_value c (map fv ys) (map fv zs)) (score_error c n B) (largest_score c B).
  Proof.
    intros E. destruct c; cbn [double_metric MSE RMSE Accuracy mt_calc score_value score_error largest_score].
    - unfold mse_calc. rewrite E, Hl, Nat.eqb_refl, squares_float. eexists. split; [reflexivity|]. rewrite <- Hl. exact mse_float.
    - unfold mse_calc. rewrite E, Hl, Nat.eqb_refl, squares_float. cbn [bind n_sqrt fl64]. eexists. split; [reflexivity|]. rewrite <- Hl. exact rmse_float.
    - unfold accuracy_calc. rewrite E, Hl, Nat.eqb_refl. eexists. split; [reflexivity|]. rewrite <- Hl. exact accuracy_float.
  Qed.
End Scores.

Lemma near_opp x r e b : near x r e b -> near (SFopp x) (- r) e b.
Proof.
  intros (F1 & E1 & B1). split; [apply finite_opp, F1|]. rewrite fv_opp, Rabs_Ropp. split; [|exact B1]. replace (- fv x - - r)%R with (- (fv x - r))%R by ring. rewrite Rabs_Ropp. exact E1.
Qed.
Lemma near_absolute x r e b : near x r e b -> near (SFabs x) (Rabs r) e b.
Proof.
  intros (F1 & E1 & B1).
  assert (V : finite (SFabs x) /\ fv (SFabs x) = Rabs (fv x)).
  { destruct x as [s|s| |s m ex]; try contradiction; cbn [SFabs fv]; [split; [exact I|rewrite Rabs_R0; reflexivity]|]. split; [exact F1|]. rewrite Rabs_mult, (Rabs_pos_eq (P2 ex)) by (left; apply P2_pos). f_equal.
    destruct s; cbn [cond_Zopp]; [change (- Z.pos m)%Z with (Z.neg m); rewrite <- abs_IZR; reflexivity|]. rewrite <- abs_IZR. reflexivity. }
  destruct V as [V1 V2]. split; [exact V1|]. rewrite V2. split; [eapply Rle_trans; [apply Rabs_triang_inv2|exact E1]|rewrite Rabs_Rabsolu; exact B1].
Qed.
Lemma near_within x r e b : near x r e b -> within e x r. Proof. intros (H1 & H2 & _). split; assumption. Qed.

Lemma made_graft {C} (rows : list (list C)) w (Hw : forall r, In r rows -> length r = w) sel r r' : made_of rows w r -> In r' rows -> made_of rows w (graft sel r r').
Proof.
  intros Hr Hr'. unfold graft. revert r Hr. induction sel as [|k t IH]; intros r Hr; [exact Hr|]. cbn [fold_left]. apply IH. destruct (nth_error r' k) as [v|] eqn:E; [|exact Hr].
  apply (made_with rows w); [exact Hr|rewrite <- (Hw r' Hr'); apply nth_error_Some; congruence|eauto].
Qed.
Lemma made_rearranged {C} (rows : list (list C)) w (Hw : forall r, In r rows -> length r = w) sel p : forall r, In r (rearranged rows sel p) -> made_of rows w r.
Proof.
  intros r Hr. apply in_map_iff in Hr as ([a b] & <- & Hin). cbn [fst snd]. apply made_graft; [exact Hw|apply made_row; [exact Hw|apply (in_combine_l _ _ _ _ Hin)]|]. apply (picks_In rows p), (in_combine_r _ _ _ _ Hin).
Qed.

(** ** The statistics *)
Section Values.
  Context {C G : Type} (Rg : rng_ops G) (HR : rng_ok Rg) (srt : sorter) (Hs : sorter_ok srt) (sum : list F -> F) (Hsum : forall l, added l (sum l)) (c : scoring).
  Notation N := (fl64 sum).
  Notation m := (double_metric sum c).

  Section OneData.
    Context (X : frame C) (HX : wf_frame X) (Hne : f_rows X <> []) (ys : target F) (Hl : length (t_vals ys) = length (f_rows X)) (g : list C -> F) (B : R).
    Context (Hn : (INR (length (f_rows X)) <= P2 40)%R) (HB : (0 <= B <= P2 240)%R) (Hy : Forall (number_within B) (t_vals ys)) (Hg : numbers_within (f_rows X) (length (f_cols X)) B g).
    Notation rows := (f_rows X).
    Notation len := (length (f_rows X)).
    Notation w := (length (f_cols X)).
    Notation E := (score_error c len B).
    Notation M := (largest_score c B).
    Notation h := (exactly g).
    Notation reals := (map fv (t_vals ys)).
    Open Scope R_scope.

    Lemma E_M : 0 <= E /\ 0 <= M /\ E <= M + 1 /\ M <= P2 483.
    Proof.
      assert (Hy' : t_vals ys <> []) by (intros Q; rewrite Q in Hl; destruct rows; [congruence|discriminate]). pose proof (B_large B HB) as [B1 B2]. pose proof (k_range len ltac:(destruct rows; [congruence|cbn; lia]) Hn) as [UK K].
      pose proof ulp_pos as U. destruct big_1 as [G1 G2]. assert (BB : 0 <= B * B) by (apply Rmult_le_pos; lra). assert (E8 : P2 483 = 8 * P2 480) by (change 483%Z with (3 + 480)%Z; rewrite P2_add; change (P2 3) with (2 * (2 * (2 * 1))); ring).
      pose proof (P2_pos (-1072)) as Q1. pose proof (P2_pos (-530)) as Q2. pose proof (P2_pos (-1075)) as Q3.
      assert (R1 : P2 (-1072) <= / 8192) by (rewrite <- P2_m13; apply P2_le; lia). assert (R2 : P2 (-530) <= / 8192) by (rewrite <- P2_m13; apply P2_le; lia). assert (R3 : P2 (-1075) <= / 8192) by (rewrite <- P2_m13; apply P2_le; lia).
      assert (KB : 0 <= INR len * ulp * (B * B) <= / 8192 * (B * B)) by (split; [apply Rmult_le_pos; lra|apply Rmult_le_compat_r; lra]). assert (KB2 : 0 <= INR len * ulp * B <= / 8192 * B) by (split; [apply Rmult_le_pos; lra|apply Rmult_le_compat_r; lra]).
      destruct c; cbn [score_error largest_score]; fold ulp; repeat split; lra.
    Qed.
    Lemma score_near rs : length rs = len -> (forall r, In r rs -> made_of rows w r) ->
      exists v, mt_calc m ys (map g rs) = Ok v /\ near v (score_on c h reals rs) E M.
    Proof.
      intros Hr Hm. assert (Hy' : t_vals ys <> []) by (intros Q; rewrite Q in Hl; destruct rows; [congruence|discriminate]).
      destruct (score_float sum Hsum (t_vals ys) (map g rs) ltac:(rewrite map_length; congruence) Hy' B ltac:(rewrite Hl; exact Hn) HB Hy) with (c := c) (y := ys) as (v & Ev & Nv).
      - apply Forall_forall. intros x Hx. apply in_map_iff in Hx as (r & <- & Ir). exact (Hg r (Hm r Ir)).
      - reflexivity.
      - exists v. split; [exact Ev|]. unfold score_on. rewrite Hl, map_map in Nv. exact Nv.
    Qed.
    Lemma scored_near rs u : length rs = len -> (forall r, In r rs -> made_of rows w r) -> scored g m ys rs u -> near u (score_on c h reals rs) E M.
    Proof. intros Hr Hm Hu. destruct (score_near rs Hr Hm) as (v & Ev & Nv). unfold scored in Hu. rewrite Ev in Hu. injection Hu as <-. exact Nv. Qed.
    Lemma data_near u : scored g m ys rows u -> near u (score_on c h reals rows) E M.
    Proof. apply scored_near; [reflexivity|]. intros r Hr. apply made_row; [apply (wf_rows X HX)|exact Hr]. Qed.
    Lemma shuffled_near g0 sel i u : scored g m ys (rearranged rows sel (nth_perm Rg len g0 i)) u -> near u (shuffled_score Rg c h X reals g0 sel i) E M.
    Proof. apply scored_near; [apply rearranged_length, nth_perm_ok, HR|]. apply made_rearranged, (wf_rows X HX). Qed.

    Lemma neg_near x r e b : near x r e b -> near (neg_if_class N m x) (if applicable_to m Classification then - r else r) e b.
    Proof. intros H. unfold neg_if_class. destruct (applicable_to m Classification); [apply near_opp, H|exact H]. Qed.

    Section Repeated.
      Context (n : nat) (Hn0 : (0 < n)%nat) (Hn40 : INR n <= P2 40).
      Notation q := (INR n * ulp).
      Lemma repetition_near g0 k1 k2 ref i v : near ref (score_on c h reals rows) E M -> repetition N Rg g X m ys g0 k1 k2 ref i v ->
        near (SFabs v) (Rabs (shuffled_score Rg c h X reals g0 [k1; k2] (i + 2) - shuffled_score Rg c h X reals g0 [k1] i - shuffled_score Rg c h X reals g0 [k2] (i + 1) + score_on c h reals rows)) (7 * E + 17 * (ulp * M)) (6 * M).
      Proof.
        intros Nr (u1 & u2 & u12 & H1 & H2 & H12 & ->). apply shuffled_near in H1, H2, H12. replace (i + 2)%nat with (S (S i)) by lia. replace (i + 1)%nat with (S i) by lia.
        destruct E_M as (E0 & M0 & EM & M4). pose proof ulp_pos as U. destruct (k_range n Hn0 Hn40) as [UQ Q]. destruct big_1 as [G1 G2]. assert (P8 : P2 490 = 128 * P2 483) by (change 490%Z with (7 + 483)%Z; rewrite P2_add; change (P2 7) with (2 * (2 * (2 * (2 * (2 * (2 * (2 * 1)))))));  ring).
        assert (G3 : 8 * 1024 <= P2 483) by (apply Rle_trans with (8 * P2 480); [lra|]; change 483%Z with (3 + 480)%Z; rewrite P2_add; change (P2 3) with (2 * (2 * (2 * 1))); lra).
        set (s12 := shuffled_score Rg c h X reals g0 [k1; k2] (S (S i))) in *. set (s1 := shuffled_score Rg c h X reals g0 [k1] i) in *. set (s2 := shuffled_score Rg c h X reals g0 [k2] (S i)) in *. set (s0 := score_on c h reals rows) in *.
        set (e := E) in *. set (b := M) in *. clearbody e b s12 s1 s2 s0.
        assert (UE : ulp * e <= / 8192 * e) by (apply Rmult_le_compat_r; lra). assert (UE0 : 0 <= ulp * e) by (apply Rmult_le_pos; lra). assert (UM : ulp * b <= / 8192 * b) by (apply Rmult_le_compat_r; lra). assert (UM0 : 0 <= ulp * b) by (apply Rmult_le_pos; lra).
        assert (UUE : ulp * (ulp * e) <= / 8192 * (ulp * e)) by (apply Rmult_le_compat_r; lra). assert (UUM : ulp * (ulp * b) <= / 8192 * (ulp * b)) by (apply Rmult_le_compat_r; lra).
        assert (D : forall u s, near u s e b -> near (neg_if_class N m (n_sub N u ref)) (if applicable_to m Classification then - (s - s0) else s - s0) (21 / 10 * e + 2 * (ulp * b)) (2 * b)).
        { intros u s Nu. apply neg_near. cbn [n_sub fl64]. eapply near_le; [apply (near_sub u ref _ _ _ _ _ _ Nu Nr)| |lra].
          - apply Rle_trans with (P2 490); [lra|apply P2_le; lia].
          - replace (ulp * (e + e + b + b)) with (2 * (ulp * e) + 2 * (ulp * b)) by ring. lra. }
        pose proof (D _ _ H12) as D12. pose proof (D _ _ H1) as D1. pose proof (D _ _ H2) as D2. clear D. set (sg := applicable_to m Classification) in *.
        assert (S1 : near (fsub (neg_if_class N m (n_sub N u12 ref)) (neg_if_class N m (n_sub N u1 ref))) ((if sg then - (s12 - s0) else s12 - s0) - (if sg then - (s1 - s0) else s1 - s0)) (44 / 10 * e + 81 / 10 * (ulp * b)) (4 * b)).
        { eapply near_le; [apply (near_sub _ _ _ _ _ _ _ _ D12 D1)| |lra].
          - apply Rle_trans with (P2 490); [lra|apply P2_le; lia].
          - replace (ulp * (21 / 10 * e + 2 * (ulp * b) + (21 / 10 * e + 2 * (ulp * b)) + 2 * b + 2 * b)) with (42 / 10 * (ulp * e) + 4 * (ulp * (ulp * b)) + 4 * (ulp * b)) by field. lra. }
        assert (S2 : near (fsub (fsub (neg_if_class N m (n_sub N u12 ref)) (neg_if_class N m (n_sub N u1 ref))) (neg_if_class N m (n_sub N u2 ref)))
                       (((if sg then - (s12 - s0) else s12 - s0) - (if sg then - (s1 - s0) else s1 - s0)) - (if sg then - (s2 - s0) else s2 - s0)) (7 * e + 17 * (ulp * b)) (6 * b)).
        { eapply near_le; [apply (near_sub _ _ _ _ _ _ _ _ S1 D2)| |lra].
          - apply Rle_trans with (P2 490); [lra|apply P2_le; lia].
          - replace (ulp * (44 / 10 * e + 81 / 10 * (ulp * b) + (21 / 10 * e + 2 * (ulp * b)) + 4 * b + 2 * b)) with (65 / 10 * (ulp * e) + 101 / 10 * (ulp * (ulp * b)) + 6 * (ulp * b)) by field. lra. }
        apply neg_near in S2. apply near_absolute in S2. cbn [n_sub fl64]. eapply near_le; [|apply Rle_refl|apply Rle_refl].
        replace (Rabs (s12 - s1 - s2 + s0)) with (Rabs (if applicable_to m Classification then - (((if sg then - (s12 - s0) else s12 - s0) - (if sg then - (s1 - s0) else s1 - s0)) - (if sg then - (s2 - s0) else s2 - s0)) else ((if sg then - (s12 - s0) else s12 - s0) - (if sg then - (s1 - s0) else s1 - s0)) - (if sg then - (s2 - s0) else s2 - s0))); [|f_equal; fold sg; destruct sg; ring].
        exact S2.
      Qed.
      Lemma pair_row_near g0 ref i pr row : near ref (score_on c h reals rows) E M -> pair_row N Rg g X m ys g0 n ref (3 * n * i) pr row ->
        exists k1 k2, nth_error (f_cols X) k1 = Some (fst pr) /\ nth_error (f_cols X) k2 = Some (snd pr) /\ fst row = pr
          /\ near (snd row) (oh_statistic Rg c h X reals n g0 k1 k2 i) (8 * E + 30 * q * M + eta) (6 * M).
      Proof.
        intros Nr (k1 & k2 & vs & H1 & H2 & Hlv & Hv & ->). exists k1, k2. split; [exact H1|]. split; [exact H2|]. split; [destruct pr; reflexivity|]. cbn [snd].
        assert (Ev : vs = map (fun j => nth j vs f_zero) (seq 0 n)).
        { apply nth_error_eq; [rewrite map_length, seq_length; exact Hlv|]. intros j Hj. rewrite nth_error_map, (nth_error_nth' _ 0%nat) by (rewrite seq_length; lia). rewrite seq_nth by lia. cbn [option_map plus]. apply nth_error_nth', Hj. }
        destruct E_M as (E0 & M0 & EM & M4). pose proof ulp_pos as U. pose proof eta_pos as ET. destruct (k_range n Hn0 Hn40) as [UQ Q]. destruct big_1 as [G1 G2].
        assert (P8 : P2 490 = 128 * P2 483) by (change 490%Z with (7 + 483)%Z; rewrite P2_add; change (P2 7) with (2 * (2 * (2 * (2 * (2 * (2 * (2 * 1)))))));  ring). assert (G3 : 1 <= P2 483) by (change 1 with (P2 0); apply P2_le; lia).
        assert (UM : ulp * M <= q * M) by (apply Rmult_le_compat_r; lra). assert (UM0 : 0 <= ulp * M) by (apply Rmult_le_pos; lra). assert (QE : q * E <= / 8192 * E) by (apply Rmult_le_compat_r; lra). assert (QE0 : 0 <= q * E) by (apply Rmult_le_pos; lra).
        assert (QM : q * M <= / 8192 * M) by (apply Rmult_le_compat_r; lra). assert (QUM : q * (ulp * M) <= / 8192 * (q * M)) by (apply Rle_trans with (/ 8192 * (ulp * M)); [apply Rmult_le_compat_r; lra|lra]).
        rewrite Ev. unfold oh_statistic. cbv zeta. eapply near_le; [apply (near_mean sum Hsum _ _ (7 * E + 17 * (ulp * M)) (6 * M) (seq 0 n))| |apply Rle_refl]; rewrite ?seq_length.
        - destruct n; [lia|discriminate].
        - intros j Hj. apply in_seq in Hj. destruct (Hv j ltac:(lia)) as (v & Hr & Ej). rewrite (nth_error_nth _ _ f_zero Ej). cbn [n_abs fl64]. replace (3 * j + 3 * n * i)%nat with (3 * n * i + 3 * j)%nat in Hr by lia.
          apply (repetition_near g0 k1 k2 ref); assumption.
        - lra.
        - apply Rle_trans with (P2 40 * P2 490); [apply Rmult_le_compat; [apply pos_INR| |exact Hn40|]; lra|]. rewrite <- P2_add. apply P2_le. lia.
        - replace (2 * q * (6 * M + (7 * E + 17 * (ulp * M)))) with (12 * (q * M) + 14 * (q * E) + 34 * (q * (ulp * M))) by ring. replace (30 * q * M) with (30 * (q * M)) by ring. lra.
      Qed.

      Lemma importance_near g0 (vf : nat -> F) (idx : nat -> nat) k base :
        near base (score_on c h reals rows) E M -> (forall j, (j < n)%nat -> near (vf (idx j)) (shuffled_score Rg c h X reals g0 [k] (idx j)) E M) ->
        near (neg_if_class N m (fsub (np_mean N (map vf (map idx (seq 0 n)))) base)) (loss c h X reals (Rmean (map (fun j => shuffled_score Rg c h X reals g0 [k] (idx j)) (seq 0 n)))) (3 * E + 5 * q * M + P2 (-1073)) (2 * M).
      Proof.
        intros Nb Nv. pose proof eta_1 as E1. destruct E_M as (E0 & M0 & EM & M4). pose proof ulp_pos as U. pose proof eta_pos as ET. destruct (k_range n Hn0 Hn40) as [UQ Q]. destruct big_1 as [G1 G2].
        assert (P8 : P2 490 = 128 * P2 483) by (change 490%Z with (7 + 483)%Z; rewrite P2_add; change (P2 7) with (2 * (2 * (2 * (2 * (2 * (2 * (2 * 1)))))));  ring). assert (G3 : 1 <= P2 483) by (change 1 with (P2 0); apply P2_le; lia).
        assert (EE : P2 (-1073) = 4 * eta) by (unfold eta; replace 4 with (P2 2) by (change (P2 2) with (2 * (2 * 1)); lra); rewrite <- P2_add; reflexivity).
        assert (UM : ulp * M <= q * M) by (apply Rmult_le_compat_r; lra). assert (UM0 : 0 <= ulp * M) by (apply Rmult_le_pos; lra). assert (QE : q * E <= / 8192 * E) by (apply Rmult_le_compat_r; lra). assert (QE0 : 0 <= q * E) by (apply Rmult_le_pos; lra).
        assert (QM : q * M <= / 8192 * M) by (apply Rmult_le_compat_r; lra). assert (UE : ulp * E <= / 8192 * E) by (apply Rmult_le_compat_r; lra).
        assert (UX : ulp * (E + 2 * q * (M + E) + eta) <= / 8192 * (E + 2 * q * (M + E) + eta)) by (apply Rmult_le_compat_r; [replace (2 * q * (M + E)) with (2 * (q * M) + 2 * (q * E)) by ring; lra|lra]).
        assert (Me : near (np_mean N (map vf (map idx (seq 0 n)))) (Rmean (map (fun j => shuffled_score Rg c h X reals g0 [k] (idx j)) (seq 0 n))) (E + 2 * q * (M + E) + eta) M).
        { rewrite map_map. pose proof (near_mean sum Hsum (fun j => vf (idx j)) (fun j => shuffled_score Rg c h X reals g0 [k] (idx j)) E M (seq 0 n)) as H. rewrite !seq_length in H. apply H.
          - destruct n; [lia|discriminate].
          - intros j Hj. apply in_seq in Hj. apply Nv. lia.
          - lra.
          - apply Rle_trans with (P2 40 * P2 490); [apply Rmult_le_compat; [apply pos_INR| |exact Hn40|]; lra|]. rewrite <- P2_add. apply P2_le. lia. }
        assert (Sb : near (fsub (np_mean N (map vf (map idx (seq 0 n)))) base) (Rmean (map (fun j => shuffled_score Rg c h X reals g0 [k] (idx j)) (seq 0 n)) - score_on c h reals rows) (3 * E + 5 * q * M + P2 (-1073)) (2 * M)).
        { eapply near_le; [apply (near_sub _ _ _ _ _ _ _ _ Me Nb)| |lra].
          - replace (2 * q * (M + E)) with (2 * (q * M) + 2 * (q * E)) by ring. apply Rle_trans with (P2 490); [lra|apply P2_le; lia].
          - replace (ulp * (E + 2 * q * (M + E) + eta + E + M + M)) with (ulp * (E + 2 * q * (M + E) + eta) + ulp * E + 2 * (ulp * M)) by ring. replace (2 * q * (M + E)) with (2 * (q * M) + 2 * (q * E)) in * by ring. replace (5 * q * M) with (5 * (q * M)) by ring. lra. }
        apply neg_near in Sb. eapply near_le; [|apply Rle_refl|apply Rle_refl].
        replace (loss c h X reals (Rmean (map (fun j => shuffled_score Rg c h X reals g0 [k] (idx j)) (seq 0 n)))) with (if applicable_to m Classification then - (Rmean (map (fun j => shuffled_score Rg c h X reals g0 [k] (idx j)) (seq 0 n)) - score_on c h reals rows) else Rmean (map (fun j => shuffled_score Rg c h X reals g0 [k] (idx j)) (seq 0 n)) - score_on c h reals rows); [exact Sb|].
        destruct c; cbn [double_metric loss]; cbn; ring.
      Qed.
    End Repeated.
  End OneData.

  (** ** C138 *)
  (** what is asked of the data: numbers up to [B] as targets and predictions *)
  Record scored_data (X : frame C) (ys : target F) (g : list C -> F) (B : R) : Prop := {
    sd_rows : f_rows X <> [];
    sd_length : length (t_vals ys) = length (f_rows X);
    sd_count : (INR (length (f_rows X)) <= P2 40)%R;
    sd_bound : (0 <= B <= P2 240)%R;
    sd_target : Forall (number_within B) (t_vals ys);
    sd_model : numbers_within (f_rows X) (length (f_cols X)) B g }.

  Theorem C138_metric y zs B : t_vals y <> [] -> length (t_vals y) = length zs -> (INR (length zs) <= P2 40)%R -> (0 <= B <= P2 240)%R ->
    Forall (number_within B) (t_vals y) -> Forall (number_within B) zs ->
    exists v, mt_calc m y zs = Ok v /\ within (score_error c (length zs) B) v (score_value c (map fv (t_vals y)) (map fv zs)).
  Proof.
    intros Hne Hl Hn HB Hy Hz. destruct (score_float sum Hsum (t_vals y) zs Hl Hne B ltac:(rewrite Hl; exact Hn) HB Hy Hz c y eq_refl) as (v & Ev & Nv). exists v. split; [exact Ev|]. rewrite <- Hl. exact (near_within _ _ _ _ Nv).
  Qed.

  Theorem C138_importance (X : frame C) ys n fs g0 s s' t P g B f v :
    wf_frame X -> scored_data X ys g B -> rowwise P g -> NoDup fs -> 0 < n -> (INR n <= P2 40)%R -> p_rng s = g0 ->
    permutation_importance N Rg srt (Some P) m X ys n (Some fs) s = (s', Ok t) -> In (f, v) t ->
    exists k p, nth_error fs k = Some f /\ nth_error (f_cols X) p = Some f
      /\ within (3 * score_error c (length (f_rows X)) B + 5 * (INR n * P2 (-53)) * largest_score c B + P2 (-1073)) v
           (loss c (exactly g) X (map fv (t_vals ys)) (Rmean (map (fun j => shuffled_score Rg c (exactly g) X (map fv (t_vals ys)) g0 [p] (j * length fs + k)) (seq 0 n)))).
  Proof.
    intros HX [Hne Hl Hr HB Hy Hg] HP Hnd Hn0 Hn Hgs H Hin. destruct (importance_inv N Rg HR srt P g HP X HX m ys fs n g0 s s' t Hgs H) as (base & vf & Hb & -> & Hk).
    destruct (sort_values_ok N srt false (fun r : string * F => snd r) (map (fun f => (f, neg_if_class N m (n_sub N (np_mean N (map vf (shuffles fs n f))) base))) (dedup fs)) Hs (fl64_ord sum)) as [Hp _].
    apply (Permutation_in _ Hp), in_map_iff in Hin as (f' & Ef & Hf). assert (f' = f) by (exact (f_equal fst Ef)). subst f'. apply (f_equal snd) in Ef. cbn [snd] in Ef. subst v.
    apply (proj1 (dedup_In f fs)) in Hf. apply In_nth_error in Hf as (k & Hf). rewrite (shuffles_seq fs n f k Hnd Hf).
    assert (K : forall j, j < n -> exists q, nth_error (f_cols X) q = Some f /\ scored g m ys (rearranged (f_rows X) [q] (nth_perm Rg (length (f_rows X)) g0 (j * length fs + k))) (vf (j * length fs + k))).
    { intros j Hj. apply Hk. rewrite (shuffles_seq fs n f k Hnd Hf). apply in_map_iff. exists j. split; [reflexivity|]. apply in_seq. lia. }
    destruct (K 0 Hn0) as (p & Hpp & _). exists k, p. split; [exact Hf|]. split; [exact Hpp|].
    apply near_within with (b := (2 * largest_score c B)%R). fold ulp. cbn [n_sub fl64].
    eapply (importance_near) with (idx := fun j => j * length fs + k); try eassumption.
    - apply data_near; assumption.
    - intros j Hj. destruct (K j Hj) as (q & Hq & Hsc). assert (q = p) by (eapply (proj1 (NoDup_nth_error (f_cols X)) (proj1 HX)); [apply nth_error_Some; congruence|congruence]). subst q.
      apply shuffled_near; assumption.
  Qed.

  Lemma float_features e s (a : sargs C F) s' log Xs ys g1 P g : wf_frame (sa_X a) -> 0 < sa_repeat a ->
    sample_both Rg (sj_rng s) (sa_X a) (sa_y a) (sa_n a) = Ok (Xs, ys, g1) -> md_predict (sa_model a) = Some P -> rowwise P g ->
    sj_fit N Rg srt m e s a = (s', Ok tt, log) -> forall f, In f (included a) -> In f (f_cols Xs).
  Proof.
    intros HX Hn Hsm HPf HP H f Hf. destruct (sample_both_frame Rg HR _ _ _ _ _ _ _ HX Hsm) as (_ & HXs & _).
    destruct (sj_fit_inv N Rg srt m e s a s' log Xs ys g1 Hsm H) as (s1 & s2 & t & fi & _ & E2 & _). rewrite HPf in E2.
    destruct (importance_inv N Rg HR srt P g HP Xs HXs m ys (included a) (sa_repeat a) e {| p_log := p_log s1; p_rng := e |} s2 fi eq_refl E2) as (b & vf & _ & _ & Hk).
    destruct (shuffles_nonempty (included a) (sa_repeat a) f Hn Hf) as (i & Hi). destruct (Hk f i Hi) as (k & Hk' & _). eapply nth_error_In, Hk'.
  Qed.
  Theorem C138_pairs e s (a : sargs C F) s' log Xs ys g1 P g B t f1 f2 v :
    wf_frame (sa_X a) -> NoDup (included a) -> 0 < sa_repeat a -> (INR (sa_repeat a) <= P2 40)%R ->
    sample_both Rg (sj_rng s) (sa_X a) (sa_y a) (sa_n a) = Ok (Xs, ys, g1) -> scored_data Xs ys g B -> md_predict (sa_model a) = Some P -> rowwise P g ->
    sj_fit N Rg srt m e s a = (s', Ok tt, log) -> sj_ovo s' = Some t -> In (f1, f2, v) t ->
    exists i p1 p2, nth_error (combinations2 (included a)) i = Some (f1, f2) /\ nth_error (f_cols Xs) p1 = Some f1 /\ nth_error (f_cols Xs) p2 = Some f2
      /\ within (8 * score_error c (length (f_rows Xs)) B + 30 * (INR (sa_repeat a) * P2 (-53)) * largest_score c B + P2 (-1075)) v
           (oh_statistic Rg c (exactly g) Xs (map fv (t_vals ys)) (sa_repeat a) g1 p1 p2 i).
  Proof.
    intros HX Hnd Hn0 Hn Hsm [Hne Hl Hr HB Hy Hg] HPf HP H Ht Hin. pose proof (float_features e s a s' log Xs ys g1 P g HX Hn0 Hsm HPf HP H) as Hknown.
    destruct (sample_both_frame Rg HR _ _ _ _ _ _ _ HX Hsm) as (_ & HXs & _).
    destruct (sj_fit_inv N Rg srt m e s a s' log Xs ys g1 Hsm H) as (s1 & s2 & t' & fi & E1 & _ & Ht' & _). rewrite HPf in E1. rewrite Ht in Ht'. injection Ht' as <-.
    destruct (ovo_inv N Rg HR srt P g HP Xs HXs m ys (combinations2 (included a)) (sa_repeat a) g1 {| p_log := []; p_rng := g1 |} s1 t) with (2 := @eq_refl G g1) (3 := E1) as (ref & raw & Href & -> & Hlen & Hraw).
    { intros [x y] Hpr. pose proof (combinations2_In _ _ Hpr) as []. pose proof (combinations2_irrefl _ _ _ Hnd Hpr). cbn [fst snd] in *. auto. }
    destruct (sort_values_ok N srt false (fun r : string * string * F => n_abs N (snd r)) raw Hs (fl64_ord sum)) as [Hp _].
    apply (Permutation_in _ Hp) in Hin. apply In_nth_error in Hin as (i & Hi). assert (Hli : i < length (combinations2 (included a))) by (rewrite <- Hlen; apply nth_error_Some; congruence).
    destruct (nth_error (combinations2 (included a)) i) as [pr|] eqn:Ei; [|apply nth_error_None in Ei; lia]. destruct (Hraw i pr Ei) as (row & Hrow & Hpr). rewrite Hi in Hrow. injection Hrow as <-.
    edestruct (pair_row_near Xs) as (p1 & p2 & H1 & H2 & Epr & Nv); try eassumption; [apply data_near; eassumption|]. cbn [fst snd] in *. subst pr.
    exists i, p1, p2. split; [exact Ei|]. split; [exact H1|]. split; [exact H2|]. exact (near_within _ _ _ _ Nv).
  Qed.
  (** the importances of a fit *)
  Theorem C138_fit_importance e s (a : sargs C F) s' log Xs ys g1 P g B t f v :
    wf_frame (sa_X a) -> NoDup (included a) -> 0 < sa_repeat a -> (INR (sa_repeat a) <= P2 40)%R ->
    sample_both Rg (sj_rng s) (sa_X a) (sa_y a) (sa_n a) = Ok (Xs, ys, g1) -> scored_data Xs ys g B -> md_predict (sa_model a) = Some P -> rowwise P g ->
    sj_fit N Rg srt m e s a = (s', Ok tt, log) -> sj_fi s' = Some t -> In (f, v) t ->
    exists k p, nth_error (included a) k = Some f /\ nth_error (f_cols Xs) p = Some f
      /\ within (3 * score_error c (length (f_rows Xs)) B + 5 * (INR (sa_repeat a) * P2 (-53)) * largest_score c B + P2 (-1073)) v
           (loss c (exactly g) Xs (map fv (t_vals ys)) (Rmean (map (fun j => shuffled_score Rg c (exactly g) Xs (map fv (t_vals ys)) e [p] (j * length (included a) + k)) (seq 0 (sa_repeat a))))).
  Proof.
    intros HX Hnd Hn0 Hn Hsm Hd HPf HP H Ht Hin. destruct (sample_both_frame Rg HR _ _ _ _ _ _ _ HX Hsm) as (_ & HXs & _).
    destruct (sj_fit_inv N Rg srt m e s a s' log Xs ys g1 Hsm H) as (s1 & s2 & t' & fi & _ & E2 & _ & Hfi & _). rewrite HPf in E2. rewrite Ht in Hfi. injection Hfi as <-.
    exact (C138_importance Xs ys (sa_repeat a) (included a) e {| p_log := p_log s1; p_rng := e |} s2 t P g B f v HXs Hd HP Hnd Hn0 Hn eq_refl E2 Hin).
  Qed.
End Values.

(** ** A concrete run *)
Definition t_target : target F := {| t_series := false; t_index := []; t_vals := [fdiv (f_ofZ 1) (f_ofZ 10); f_ofZ 0; f_ofZ 1] |}.
Definition t_sargs : sargs Z F := {| sa_model := {| md_id := 0; md_proba1 := None; md_predict := Some tP |}; sa_X := rX; sa_y := t_target; sa_n := None; sa_repeat := 3; sa_features := None |}.
Definition t_sj0 : Perm.sstate Z F nat := sj_init 0.
Lemma t_data : scored_data rX t_target tg 1.
Proof.
  constructor.
  - discriminate.
  - reflexivity.
  - change (INR (length (f_rows rX))) with (1 + 1 + 1)%R. apply Rle_trans with (P2 2); [change (P2 2) with (2 * (2 * 1))%R; lra|apply P2_le; lia].
  - split; [lra|]. change 1%R with (P2 0). apply P2_le. lia.
  - assert (H : forall r, In r [[0; 0; 1]; [0; 0; 0]]%Z -> number_within 1 (tg r)).
    { intros r Hr. apply tg_within. cbn [In] in Hr. destruct Hr as [<-|[<-|[]]]; (split; [reflexivity|]); intros [|[|[|[|]]]] v Ev; cbn in Ev; try discriminate Ev; injection Ev as <-.
      all: cbn [f_rows rX In]. 1,4: exists [0; 1; 1]%Z; auto. 1,3: exists [1; 0; 2]%Z; auto. exists [0; 1; 1]%Z; auto. exists [1; 1; 0]%Z; auto. }
    assert (E0 : fdiv (f_ofZ 1) (f_ofZ 10) = tg [0; 0; 1]%Z) by (vm_compute; reflexivity).
    unfold t_target. cbn [t_vals]. rewrite E0. constructor; [apply (H [0; 0; 1]%Z); left; reflexivity|]. constructor; [|constructor; [|constructor]].
    + split; [reflexivity|]. change (fv (f_ofZ 0)) with 0%R. rewrite Rabs_R0. lra.
    + change (f_ofZ 1) with f_one. split; [reflexivity|]. rewrite fv_one, Rabs_R1. lra.
  - exact tg_within.
Qed.
(** three repetitions on three rows: RMSE, interaction values and importances to some forty binary digits *)
Example C138_example : exists s' log t fi v u i p1 p2 k p,
  sj_fit (fl64 seq_sum) stepR isort (RMSE (fl64 seq_sum)) 0 t_sj0 t_sargs = (s', Ok tt, log) /\ sj_ovo s' = Some t /\ In ("a", "b", v) t /\ sj_fi s' = Some fi /\ In ("c", u) fi
  /\ within (P2 (-42)) v (oh_statistic stepR ByRMSE (exactly tg) rX (map fv (t_vals t_target)) 3 0 p1 p2 i)
  /\ within (P2 (-42)) u (loss ByRMSE (exactly tg) rX (map fv (t_vals t_target)) (Rmean (map (fun j => shuffled_score stepR ByRMSE (exactly tg) rX (map fv (t_vals t_target)) 0 [p] (j * 3 + k)) (seq 0 3)))).
Proof.
  assert (Hr : rowwise tP tg) by (intros n rows ys E; injection E as <-; reflexivity).
  assert (H3 : (INR 3 <= P2 40)%R) by (change (INR 3) with (1 + 1 + 1)%R; apply Rle_trans with (P2 2); [change (P2 2) with (2 * (2 * 1))%R; lra|apply P2_le; lia]).
  assert (Hnd : NoDup (included t_sargs)) by (repeat constructor; cbn; intuition congruence).
  pose (r := sj_fit (fl64 seq_sum) stepR isort (RMSE (fl64 seq_sum)) 0 t_sj0 t_sargs).
  assert (E1 : snd (fst r) = Ok tt) by (vm_compute; reflexivity).
  assert (E2 : match sj_ovo (fst (fst r)), sj_fi (fst (fst r)) with Some t, Some fi => existsb (fun x => String.eqb (fst (fst x)) "a" && String.eqb (snd (fst x)) "b") t && existsb (fun x => String.eqb (fst x) "c") fi | _, _ => false end = true) by (vm_compute; reflexivity).
  assert (Er : sj_fit (fl64 seq_sum) stepR isort (RMSE (fl64 seq_sum)) 0 t_sj0 t_sargs = r) by reflexivity. clearbody r. destruct r as [[s' o] log]. cbn [fst snd] in *. subst o.
  destruct (sj_ovo s') as [t|] eqn:Et; [|discriminate E2]. destruct (sj_fi s') as [fi|] eqn:Ef; [|discriminate E2]. apply andb_prop in E2 as [E2 E3].
  apply existsb_exists in E2 as ([[x y] v] & Iv & Ev). cbn [fst snd] in Ev. apply andb_prop in Ev as [Ex Ey]. apply String.eqb_eq in Ex, Ey. subst x y.
  apply existsb_exists in E3 as ([x u] & Iu & Ex). cbn [fst snd] in Ex. apply String.eqb_eq in Ex. subst x.
  destruct (C138_pairs stepR stepR_ok isort isort_ok seq_sum seq_sum_added ByRMSE 0 t_sj0 t_sargs s' log rX t_target 0 tP tg 1 t "a" "b" v rX_wf Hnd ltac:(cbn; lia) H3 eq_refl t_data eq_refl Hr Er Et Iv) as (i & p1 & p2 & _ & _ & _ & W1).
  destruct (C138_fit_importance stepR stepR_ok isort isort_ok seq_sum seq_sum_added ByRMSE 0 t_sj0 t_sargs s' log rX t_target 0 tP tg 1 fi "c" u rX_wf Hnd ltac:(cbn; lia) H3 eq_refl t_data eq_refl Hr Er Ef Iu) as (k & p & _ & _ & W2).
  exists s', log, t, fi, v, u, i, p1, p2, k, p. split; [exact Er|]. split; [exact Et|]. split; [exact Iv|]. split; [exact Ef|]. split; [exact Iu|].
  change (INR (length (f_rows rX))) with (1 + 1 + 1)%R in *. change (INR (sa_repeat t_sargs)) with (1 + 1 + 1)%R in *. unfold score_error, largest_score in W1, W2. change (INR (length (f_rows rX))) with (1 + 1 + 1)%R in W1, W2.
  assert (U1 : P2 (-42) = (2048 * P2 (-53))%R) by (replace 2048%R with (P2 11) by (change (P2 11) with (2 ^ 11)%R; simpl; lra); rewrite <- P2_add; reflexivity).
  assert (U2 : (P2 (-530) <= P2 (-53))%R) by (apply P2_le; lia). assert (U3 : (P2 (-1075) <= P2 (-53))%R) by (apply P2_le; lia). assert (U4 : (P2 (-1073) <= P2 (-53))%R) by (apply P2_le; lia). pose proof (P2_pos (-53)) as U0.
  split; (split; [first [apply W1|apply W2]|]); (eapply Rle_trans; [first [apply W1|apply W2]|]); rewrite U1; lra.
Qed.

Print Assumptions C138_metric.
Print Assumptions C138_importance.
Print Assumptions C138_pairs.
Print Assumptions C138_fit_importance.
