(** Performance metrics: missing targets (C109) and double arithmetic (C110). *)
From Verif Require Import Py Num NumR Float FloatRound FloatMono FloatOps FloatErr Sorting Frame Rng Perm Props_Perm Props_Float3.
From Coq Require Import ZArith SpecFloat Reals Lra Lia Permutation.
Open Scope string_scope.
Open Scope nat_scope.
Open Scope list_scope.

Notation double := FloatOps.double.
Lemma filter_all {A} (p : A -> bool) l : (forall x, In x l -> p x = true) -> filter p l = l.
Proof. induction l as [|x t IH]; intros H; cbn; [reflexivity|]. rewrite (H x (or_introl eq_refl)), IH; [reflexivity|]. intros y Hy. apply H. right. exact Hy. Qed.

(** ** C109: a target given as a Series or as an array *)
Section Container.
  Context {V : Type} (N : num_ops V).
  Definition series (idx : list Z) (vals : list V) : target V := {| t_series := true; t_index := idx; t_vals := vals |}.
  Definition array (vals : list V) : target V := {| t_series := false; t_index := []; t_vals := vals |}.

  Theorem C109_container_partial (m : metric V) idx vals yhat : In m [MSE N; RMSE N; Accuracy N] -> length vals = length yhat ->
    (forall v z, In (v, z) (combine vals yhat) -> n_isnan N (n_mul N (n_sub N z v) (n_sub N z v)) = false) ->
    mt_calc m (series idx vals) yhat = mt_calc m (array vals) yhat.
  Proof.
    intros Hm Hl H.
    assert (E : mse_calc N (series idx vals) yhat = mse_calc N (array vals) yhat).
    { unfold mse_calc, mean_like. cbn [t_vals t_series series array]. rewrite Hl, Nat.eqb_refl. do 2 f_equal.
      apply filter_all. intros x Hx. apply in_map_iff in Hx as (d & <- & Hd). unfold vsub in Hd.
      apply in_map_iff in Hd as ([z v] & <- & Hp). unfold sqr. cbn [fst snd]. rewrite (H v z); [reflexivity|]. clear - Hp.
      revert yhat Hp; induction vals as [|a vals IH]; intros [|b yhat] Hp; cbn in *; try contradiction. destruct Hp as [E|Hp]; [left; congruence|right; auto]. }
    destruct Hm as [<-|[<-|[<-|[]]]]; [exact E|cbn [mt_calc RMSE]; rewrite E; reflexivity|]. cbn [mt_calc Accuracy]. unfold accuracy_calc. cbn [t_vals t_series series array]. rewrite Hl, Nat.eqb_refl. reflexivity.
  Qed.
  (** a single prediction for several targets: it is spread over an array and refused for a Series by
      the accuracy; a single target is spread over several predictions unless it is in a Series *)
  Theorem C109_lengths_refuted idx vals z zs : 2 <= length vals -> 2 <= length zs ->
    mt_calc (Accuracy N) (series idx vals) [z] = Err ValueError /\ (exists x, mt_calc (Accuracy N) (array vals) [z] = Ok x)
    /\ (forall m v, In m [MSE N; RMSE N; Accuracy N] -> mt_calc m (series idx [v]) zs = Err ValueError /\ exists x, mt_calc m (array [v]) zs = Ok x).
  Proof.
    intros Hv Hz. destruct vals as [|a [|b vals]]; cbn in Hv; try lia. destruct zs as [|c [|d zs]]; cbn in Hz; try lia.
    split; [reflexivity|]. split; [eexists; reflexivity|]. intros m v [<-|[<-|[<-|[]]]]; (split; [reflexivity|eexists; reflexivity]).
  Qed.
End Container.

(** targets that may be missing *)
Definition cell (o : option R) : ext R := match o with Some x => Fin x | None => NaN end.
(** the targets that are there, with their predictions *)
Definition known (ys : list (option R)) (zs : list R) : list (R * R) :=
  flat_map (fun p => match fst p with Some y => [(y, snd p)] | None => [] end) (combine ys zs).
Lemma known_sq ys : forall zs, length ys = length zs ->
  filter (fun x => negb (n_isnan xR x)) (map (sqr xR) (vsub xR (map Fin zs) (map cell ys))) = map Fin (map (fun p => Rsqr (snd p - fst p)) (known ys zs)).
Proof.
  induction ys as [|[y|] ys IH]; intros [|z zs] Hl; cbn in Hl; try lia; [reflexivity| |]; specialize (IH zs ltac:(lia)); unfold vsub, known in *; cbn [map combine flat_map fst snd cell app].
  - cbn [filter]. change (n_isnan xR (sqr xR (n_sub xR (Fin z) (Fin y)))) with false. cbn [negb]. rewrite IH. reflexivity.
  - cbn [filter]. change (n_isnan xR (sqr xR (n_sub xR (Fin z) NaN))) with true. cbn [negb]. exact IH.
Qed.
Lemma nan_sum (l : list (ext R)) : In NaN l -> n_sum xR l = NaN.
Proof.
  induction l as [|x t IH]; [intros []|]. intros [->|H]; [reflexivity|]. change (n_sum xR (x :: t)) with (n_add xR x (n_sum xR t)). rewrite (IH H). destruct x; reflexivity.
Qed.
Lemma known_in ys : forall zs, In None ys -> length ys = length zs -> In NaN (map (sqr xR) (vsub xR (map Fin zs) (map cell ys))).
Proof.
  induction ys as [|y ys IH]; intros [|z zs] H Hl; cbn in Hl; try lia; [destruct H|]. unfold vsub in *. cbn [map combine].
  destruct H as [->|H]; [left; reflexivity|right; apply IH; [exact H|lia]].
Qed.

(** in a Series, missing targets are left out *)
Theorem C109_series_partial idx ys zs : length ys = length zs -> known ys zs <> [] ->
  mt_calc (MSE xR) (series idx (map cell ys)) (map Fin zs) = Ok (Fin (Rmse (map fst (known ys zs)) (map snd (known ys zs)))).
Proof.
  intros Hl Hk. cbn [MSE mt_calc]. unfold mse_calc, mean_like. cbn [series t_vals t_series]. rewrite !map_length, Hl, Nat.eqb_refl, (known_sq ys zs Hl). f_equal.
  rewrite xR_mean_fin by (intros E; apply map_eq_nil in E; contradiction). f_equal. unfold Rmse. f_equal.
  clear. induction (known ys zs) as [|[a b] t IH]; cbn; [reflexivity|]. f_equal. exact IH.
Qed.
(** in an array, one missing target makes the score NaN: the two never agree *)
Theorem C109_array_refuted idx ys zs : length ys = length zs -> In None ys -> known ys zs <> [] ->
  mt_calc (MSE xR) (array (map cell ys)) (map Fin zs) = Ok NaN /\ mt_calc (RMSE xR) (array (map cell ys)) (map Fin zs) = Ok NaN
  /\ exists v, mt_calc (MSE xR) (series idx (map cell ys)) (map Fin zs) = Ok (Fin v).
Proof.
  intros Hl Hn Hk.
  assert (E : mse_calc xR (array (map cell ys)) (map Fin zs) = Ok NaN).
  { unfold mse_calc, mean_like, np_mean. cbn [array t_vals t_series]. rewrite !map_length, Hl, Nat.eqb_refl, (nan_sum _ (known_in ys zs Hn Hl)). f_equal. }
  split; [exact E|]. split; [cbn [RMSE mt_calc]; rewrite E; reflexivity|]. eexists. apply C109_series_partial; assumption.
Qed.
(** accuracy counts a missing target as a wrong prediction, in both containers *)
Theorem C109_accuracy_partial idx ys zs : length ys = length zs -> ys <> [] ->
  let v := Ok (Fin (INR (hits (map fst (known ys zs)) (map snd (known ys zs))) / INR (length ys))%R) in
  mt_calc (Accuracy xR) (series idx (map cell ys)) (map Fin zs) = v /\ mt_calc (Accuracy xR) (array (map cell ys)) (map Fin zs) = v.
Proof.
  intros Hl Hne v. assert (G : accuracy_calc xR (series idx (map cell ys)) (map Fin zs) = v).
  2: { split; [exact G|]. rewrite <- G. cbn [mt_calc Accuracy]. unfold accuracy_calc. cbn [t_vals t_series series array]. rewrite !map_length, Hl, Nat.eqb_refl. reflexivity. }
  unfold v; clear v.
  unfold accuracy_calc. cbn [series t_vals]. rewrite !map_length, Hl, Nat.eqb_refl. f_equal.
  set (ok := fun p : option R * R => match fst p with Some y => if Req_EM_T y (snd p) then 1%R else 0%R | None => 0%R end).
  assert (E : map (fun p => n_ofZ xR (if n_eqb xR (fst p) (snd p) then 1 else 0)) (combine (map cell ys) (map Fin zs)) = map Fin (map ok (combine ys zs))).
  { clear. revert zs; induction ys as [|a ys IH]; intros [|z zs]; cbn [map combine]; try reflexivity. f_equal; [|apply IH].
    cbn [fst snd]. destruct a as [a|]; [|reflexivity]. unfold ok. cbn [fst snd cell]. destruct (Req_EM_T a z) as [->|Hne].
    - replace (n_eqb xR (Fin z) (Fin z)) with true; [reflexivity|]. cbn. unfold x_eqb, f_eqb. cbn. replace (Rltb z z) with false; [reflexivity|]. symmetry. apply Rltb_false. lra.
    - replace (n_eqb xR (Fin a) (Fin z)) with false; [reflexivity|]. cbn. unfold x_eqb, f_eqb. cbn. symmetry. apply andb_false_iff.
      destruct (Rlt_dec a z); [left; apply negb_false_iff, Rltb_spec; assumption|right; apply negb_false_iff, Rltb_spec; lra]. }
  rewrite E, xR_mean_fin by (intros E'; apply map_eq_nil in E'; revert E'; destruct ys, zs; cbn in *; congruence).
  f_equal. unfold Rmean. rewrite map_length, combine_length, Hl, Nat.min_id. f_equal. unfold hits, known. clear.
  induction (combine ys zs) as [|[[y|] z] l IH]; cbn [map flat_map app fst snd ok combine]; [rewrite Rsum_nil; reflexivity| |]; rewrite Rsum_cons, IH; unfold ok; cbn [fst snd]; [|lra].
  cbn [filter fst snd]. destruct (Req_EM_T y z); cbn [length]; [rewrite S_INR|]; lra.
Qed.

(** ** Counting in doubles *)
Open Scope Z_scope.
Lemma rank_inj x y : fge0 x -> fge0 y -> f_isnan x = false -> f_isnan y = false -> rank x = rank y -> x = y.
Proof.
  destruct x as [s|s| |s m e], y as [s'|s'| |s' m' e']; cbn; intros; subst; try discriminate; try reflexivity. injection H3 as -> E. congruence.
Qed.
Lemma count_tiny k : 0 <= k <= 2 ^ 52 -> finite (f_ofZ k) /\ tiny (f_ofZ k) = k * 2 ^ 1074 /\ fge0 (f_ofZ k).
Proof.
  intros H. split; [|split]; [| |apply f_ofZ_nonneg; lia]; destruct (Z.eq_dec k 0) as [->|Hk]; try exact I; try reflexivity; destruct (count_double k) as (m & e & E & He & Hm & Hf); try lia; [exact Hf|].
  rewrite E in *. unfold tiny. cbn [units cond_Zopp]. destruct (bnd_spec m e Hf) as (_ & _ & Hlow & _ & _).
  rewrite Hm, <- Z.mul_assoc, <- Z.pow_add_r by lia. do 2 f_equal. lia.
Qed.
Lemma add_counts a b : 0 <= a -> 0 <= b -> a + b <= 2 ^ 52 -> fadd (f_ofZ a) (f_ofZ b) = f_ofZ (a + b).
Proof.
  intros Ha Hb Hs. destruct (count_tiny a) as (Fa & Ta & Ga); [lia|]. destruct (count_tiny b) as (Fb & Tb & Gb); [lia|]. destruct (count_tiny (a + b)) as (Fs & Ts & Gs); [lia|].
  pose proof (finite_opp _ Fb) as Fo.
  destruct (sub_rank (f_ofZ a) (SFopp (f_ofZ b)) (-1074) Fa Fo (finite_above _ Fa) (finite_above _ Fo)) as [E Hn]. rewrite <- add_sub in E, Hn.
  change (units (f_ofZ a) (-1074)) with (tiny (f_ofZ a)) in E. change (units (SFopp (f_ofZ b)) (-1074)) with (tiny (SFopp (f_ofZ b))) in E. rewrite tiny_opp, Ta, Tb in E.
  apply rank_inj; try assumption; [apply fadd_nonneg; assumption|apply finite_num, Fs|]. rewrite E, <- (normalize_id (f_ofZ (a + b)) (-1074) Fs (finite_above _ Fs)).
  change (units (f_ofZ (a + b)) (-1074)) with (tiny (f_ofZ (a + b))). rewrite Ts. do 2 f_equal. ring.
Qed.
Definition flag (b : bool) : F := f_ofZ (if b then 1 else 0).
Definition yes (bs : list bool) : Z := Z.of_nat (length (filter (fun b => b) bs)).
Lemma yes_app a b : yes (a ++ b) = yes a + yes b.
Proof. unfold yes. rewrite filter_app, app_length. lia. Qed.
Lemma yes_perm a b : Permutation a b -> yes a = yes b.
Proof. induction 1 as [|x l l' _ IH|x y l|l l' l'' _ IH1 _ IH2]; [reflexivity| | |congruence]; unfold yes in *; cbn [filter]; repeat match goal with |- context [if ?b then _ else _] => destruct b end; cbn [length] in *; lia. Qed.
Lemma yes_le a : 0 <= yes a <= Z.of_nat (length a).
Proof. unfold yes. pose proof (filter_length_all (fun b : bool => b) a) as [H _]. lia. Qed.
Lemma sum_flags l s : added l s -> forall bs, Permutation l (map flag bs) -> Z.of_nat (length bs) <= 2 ^ 52 -> s = f_ofZ (yes bs).
Proof.
  induction 1 as [|x|l l1 l2 x y Hp _ IH1 _ IH2]; intros bs P L.
  - apply Permutation_nil in P. apply map_eq_nil in P. subst. reflexivity.
  - apply Permutation_length_1_inv in P. destruct bs as [|b [|]]; try discriminate. injection P as <-. destruct b; reflexivity.
  - assert (P' : Permutation (map flag bs) (l1 ++ l2)) by (rewrite <- P; exact Hp). apply Permutation_sym, Permutation_map_inv in P' as (bs' & E & Q).
    symmetry in E. apply map_eq_app in E as (b1 & b2 & -> & <- & <-). pose proof (Permutation_length Q) as Hlen. rewrite app_length in Hlen.
    rewrite (IH1 b1 (Permutation_refl _)), (IH2 b2 (Permutation_refl _)) by lia. pose proof (yes_le b1). pose proof (yes_le b2).
    rewrite add_counts by lia. rewrite <- yes_app. f_equal. symmetry. apply yes_perm. exact Q.
Qed.
(** a share of a count *)
Lemma share_bounds k n : 0 <= k <= n -> 0 < n <= 2 ^ 52 -> let v := fdiv (f_ofZ k) (f_ofZ n) in
  SFleb f_zero v = true /\ SFleb v f_one = true /\ (v = f_one <-> k = n) /\ (v = f_zero <-> k = 0).
Proof.
  intros Hk Hn v. destruct (count_tiny k) as (Fk & Tk & Gk); [lia|]. destruct (count_tiny n) as (Fn & Tn & Gn); [lia|].
  pose proof (div_finite (f_ofZ k) n Fk ltac:(lia)) as Fv. fold v in Fv. pose proof (div_err (f_ofZ k) n Fk ltac:(lia) Fv) as Er. fold v in Er. rewrite Tk in Er.
  assert (Gv : fge0 v) by (apply fdiv_nonneg; assumption).
  assert (L : fle (f_ofZ k) (f_ofZ n)).
  { apply (fle_units _ _ (-1074) Fk Fn (finite_above _ Fk) (finite_above _ Fn)). change (tiny (f_ofZ k) <= tiny (f_ofZ n)). rewrite Tk, Tn. apply Z.mul_le_mono_nonneg_r; [apply Z.pow_nonneg|]; lia. }
  destruct (count_double n ltac:(lia)) as (m & e & En & _).
  assert (L1 : fle v f_one) by (apply div_le_one; try assumption; rewrite En; eauto).
  set (T := 2 ^ 1074) in *. assert (HT : 2 ^ 104 <= T) by (apply Z.pow_le_mono_r; lia). 
  split; [apply nonneg_ge0; [exact Gv|apply finite_num, Fv]|]. split; [|split].
  - destruct L1 as (N1 & N2 & L1). clear - N1 L1. unfold SFltb, SFleb in *. rewrite SFcompare_rank in *. rewrite N1 in *. cbn [orb f_isnan f_one] in *.
    destruct (lexcmp (rank v) (rank f_one)) eqn:E; [reflexivity|reflexivity|]. exfalso. replace (lexcmp (rank f_one) (rank v)) with Lt in L1; [discriminate|]. symmetry. apply lexcmp_lt.
    destruct (lexlt_total (rank v) (rank f_one)) as [H|[H|H]]; [apply lexcmp_lt in H; congruence|apply lexcmp_eq in H; congruence|exact H].
  - split.
    + intros E. rewrite E in Er. change (tiny f_one) with (2 ^ 52 * 2 ^ 1022) in Er. rewrite <- Z.pow_add_r in Er by lia. change (52 + 1022) with 1074 in Er. fold T in Er.
      destruct (Z.eq_dec k n) as [|Hne]; [assumption|exfalso]. clearbody T. clear - Er Hk Hn HT Hne.
      replace (T * n - k * T) with ((n - k) * T) in Er by ring. rewrite Z.abs_eq in Er by (apply Z.mul_nonneg_nonneg; lia). rewrite Z.abs_eq in Er by (apply Z.mul_nonneg_nonneg; lia).
      assert (1 * T <= (n - k) * T) by (apply Z.mul_le_mono_nonneg_r; lia). assert (k * T <= 2 ^ 52 * T) by (apply Z.mul_le_mono_nonneg_r; lia).
      change (2 ^ 104) with (2 ^ 52 * 2 ^ 52) in HT. assert (2 ^ 52 * n <= 2 ^ 52 * 2 ^ 52) by (apply Z.mul_le_mono_nonneg_l; lia).
      change (2 ^ 53) with (2 * 2 ^ 52) in Er. change (2 ^ 52) with 4503599627370496 in *. lia.
    + intros ->. unfold v. rewrite En. destruct (fdiv_self (S754_finite false m e)) as [E|E]; [exact E|]. unfold v in Fv. rewrite En, E in Fv. destruct Fv.
  - split.
    + intros E. rewrite E in Er. change (tiny f_zero) with 0 in Er. destruct (Z.eq_dec k 0) as [|Hne]; [assumption|exfalso]. clearbody T. clear - Er Hk Hn HT Hne.
      rewrite Z.mul_0_l, Z.sub_0_l, Z.abs_opp, Z.abs_eq in Er by (apply Z.mul_nonneg_nonneg; lia).
      assert (1 * T <= k * T) by (apply Z.mul_le_mono_nonneg_r; lia).
      change (2 ^ 104) with (2 ^ 52 * 2 ^ 52) in HT. assert (2 ^ 52 * n <= 2 ^ 52 * 2 ^ 52) by (apply Z.mul_le_mono_nonneg_l; lia).
      change (2 ^ 53) with (2 * 2 ^ 52) in Er. change (2 ^ 52) with 4503599627370496 in *. lia.
    + intros ->. unfold v. rewrite En. reflexivity.
Qed.

(** ** Products and sums that are not negative *)
Lemma mul_comm x y : fmul x y = fmul y x.
Proof.
  unfold fmul. destruct x as [s|s| |s m e], y as [s'|s'| |s' m' e']; cbn [SFmul]; try reflexivity; try (destruct s, s'; reflexivity). rewrite xorb_comm, Pos.mul_comm, Z.add_comm. reflexivity.
Qed.
Lemma sq_double d : double d -> double (fmul d d).
Proof. intros H. destruct d as [s|s| |s m e]; try exact I. unfold fmul, SFmul. apply exact_double; [lia|]. apply mul_digits; exact H. Qed.
Lemma sq_num d : double d -> f_isnan d = false -> f_isnan (fmul d d) = false.
Proof. intros H Hn. destruct d as [s|s| |s m e]; try reflexivity; try discriminate. unfold fmul, SFmul. apply round_aux_num; [lia|]. apply mul_digits; exact H. Qed.
Lemma sq_abs d : fmul (SFabs d) (SFabs d) = fmul d d.
Proof. unfold fmul. destruct d as [[]|[]| |[] m e]; reflexivity. Qed.
Lemma add_above x y : fge0 x -> fge0 y -> double x -> double y -> finite (fadd x y) -> finite x /\ finite y /\ fle x (fadd x y) /\ fle y (fadd x y).
Proof.
  intros Gx Gy Dx Dy F. assert (Fx : finite x /\ finite y).
  { destruct x as [s|s| |s m e], y as [s'|s'| |s' m' e']; cbn in Gx, Gy; subst; cbn in F; try contradiction; auto. }
  destruct Fx as [Fx Fy]. split; [exact Fx|]. split; [exact Fy|].
  assert (H : forall a b, finite a -> finite b -> fge0 b -> fle a (fadd a b)).
  { intros a b Fa Fb Gb. rewrite add_sub. pose proof (finite_opp b Fb) as Fo.
    assert (L : fle (SFopp b) f_zero).
    { replace f_zero with (SFopp (S754_zero true)) by reflexivity. apply fle_opp. apply (fle_same f_zero b); try reflexivity; [apply finite_num, Fb|]. apply fge0_fle; [apply finite_num, Fb|exact Gb]. }
    pose proof (sub_mono_r (SFopp b) f_zero a Fo I Fa L) as M. apply (fle_same (fsub a f_zero) (fsub a (SFopp b))); try assumption; try reflexivity; [|apply finite_num, Fa|apply M].
    destruct a as [[]|[]| |s m e]; try contradiction; reflexivity. }
  split; [apply H; assumption|]. replace (fadd x y) with (fadd y x); [apply H; assumption|]. clear - Gx Gy Fx Fy.
  destruct x as [s|s| |s m e], y as [s'|s'| |s' m' e']; cbn in Gx, Gy; subst; try contradiction; try reflexivity.
  unfold fadd, SFadd. rewrite (Z.min_comm e' e). f_equal. apply Z.add_comm.
Qed.
Lemma sum_above l s : added l s -> Forall fge0 l -> Forall double l -> finite s -> forall x, In x l -> finite x /\ fle x s.
Proof.
  assert (D : forall l s, added l s -> Forall fge0 l -> Forall double l -> double s).
  { induction 1 as [|a|l0 l1 l2 a b P _ IH1 _ IH2]; intros G D; [exact I|inversion D; assumption|].
    rewrite P in G, D. apply Forall_app in G as [G1 G2]. apply Forall_app in D as [D1 D2]. specialize (IH1 G1 D1). specialize (IH2 G2 D2).
    destruct a as [s0|s0| |s0 m e], b as [s'|s'| |s' m' e']; try exact I; try (apply add_double; assumption); try assumption; cbn; try (destruct (Bool.eqb s0 s'); exact I). }
  induction 1 as [|a|l0 l1 l2 a b P A1 IH1 A2 IH2]; intros G Dl F x Hx.
  - destruct Hx.
  - destruct Hx as [<-|[]]. split; [exact F|]. apply fle_refl, finite_num, F.
  - rewrite P in G, Dl. apply Forall_app in G as [G1 G2]. apply Forall_app in Dl as [D1 D2].
    destruct (add_above a b (added_nonneg _ _ A1 G1) (added_nonneg _ _ A2 G2) (D _ _ A1 G1 D1) (D _ _ A2 G2 D2) F) as (Fa & Fb & La & Lb).
    apply (Permutation_in x) in P; [|exact Hx]. apply in_app_or in P as [P|P]; [destruct (IH1 G1 D1 Fa x P) as [Q1 Q2]|destruct (IH2 G2 D2 Fb x P) as [Q1 Q2]]; (split; [exact Q1|]); eapply fle_trans; eassumption.
Qed.

(** the square root of a positive double is not zero *)
Lemma sqrt_zero w : double w -> fge0 w -> fsqrt w = f_zero -> w = f_zero.
Proof.
  intros Dw Gw E. destruct w as [s|s| |s m e]; [cbn in *; congruence|destruct s; discriminate|discriminate|]. exfalso. cbn in Gw. subst s.
  destruct (bnd_spec m e Dw) as (_ & B1 & B2 & B3 & _). unfold fsqrt, SFsqrt in E. unfold SFsqrt_core_binary in E.
  set (d := Zdigits2 (Z.pos m)) in *. set (e' := Z.min (fx (Z.div2 (d + e + 1))) (Z.div2 e)) in *.
  destruct (digits_bounds m) as [D1 D2]. fold d in D1, D2. assert (Hd : 1 <= d) by (unfold d; cbn; lia).
  assert (Dv1 : 2 * Z.div2 (d + e + 1) <= d + e + 1 <= 2 * Z.div2 (d + e + 1) + 1) by (rewrite (Z.div2_div (d + e + 1)); pose proof (Z.mod_pos_bound (d + e + 1) 2 ltac:(lia)); pose proof (Z.div_mod (d + e + 1) 2 ltac:(lia)); lia).
  assert (Dv2 : 2 * Z.div2 e <= e <= 2 * Z.div2 e + 1) by (rewrite (Z.div2_div e); pose proof (Z.mod_pos_bound e 2 ltac:(lia)); pose proof (Z.div_mod e 2 ltac:(lia)); lia).
  assert (He' : -600 <= e' /\ 2 * e' <= e /\ 2 * e' <= d + e + 1 - 106) by (unfold e'; rewrite fx_def; lia). destruct He' as (H1 & H2 & H3).
  set (s := e - 2 * e') in *.
  assert (Em : match s with Z.pos p => Z.shiftl (Z.pos m) s | 0 => Z.pos m | Z.neg _ => 0 end = Z.pos m * 2 ^ s).
  { destruct s as [|p|p] eqn:Es; [lia|apply Z.shiftl_mul_pow2; lia|unfold s in Es; lia]. }
  rewrite Em in E. pose proof (Z.sqrtrem_spec (Z.pos m * 2 ^ s) ltac:(assert (0 < 2 ^ s) by (apply Z.pow_pos_nonneg; unfold s; lia); nia)) as Sq. destruct (Z.sqrtrem (Z.pos m * 2 ^ s)) as [q r]. destruct Sq as [Eq1 Hr].
  assert (Hq : 2 ^ 52 <= q).
  { destruct (Z.le_gt_cases (2 ^ 52) q) as [|L]; [assumption|exfalso]. assert (L1 : 2 ^ 104 <= Z.pos m * 2 ^ s).
    { apply Z.le_trans with (2 ^ (d - 1) * 2 ^ s); [rewrite <- Z.pow_add_r by (unfold s; lia); apply Z.pow_le_mono_r; unfold s; lia|]. apply Z.mul_le_mono_nonneg_r; [apply Z.pow_nonneg; lia|exact D1]. }
    change (2 ^ 104) with (2 ^ 52 * 2 ^ 52) in L1. nia. }
  pose proof (digits_ge q 52 ltac:(lia) Hq) as Hdq.
  match type of E with context [rnd_aux false q e' ?l] => destruct (round_steps q e' l ltac:(lia) ltac:(rewrite fx_def; lia)) as (m2 & Hm2 & Hm1 & _ & HE) end.
  rewrite (HE false) in E. clear HE.
  assert (Hm1' : 1 <= q / 2 ^ (fx (Zdigits2 q + e') - e')).
  { rewrite fx_def. replace (Z.max (Zdigits2 q + e' - 53) (-1074) - e') with (Zdigits2 q - 53) by lia. apply Z.div_le_lower_bound; [apply Z.pow_pos_nonneg; lia|]. rewrite Z.mul_1_r.
    destruct q as [|p|p]; try lia. destruct (digits_bounds p) as [P1 _]. apply Z.le_trans with (2 ^ (Zdigits2 (Z.pos p) - 1)); [apply Z.pow_le_mono_r; lia|exact P1]. }
  destruct (Z.eqb_spec m2 0); [lia|]. destruct (m2 <? 2 ^ 53); [destruct (_ <=? 971)|destruct (_ <=? 971)]; discriminate.
Qed.
Lemma added_double l s : added l s -> Forall double l -> double s.
Proof.
  induction 1 as [|a|l0 l1 l2 a b P A1 IH1 A2 IH2]; intros D; [exact I|inversion D; assumption|]. rewrite P in D. apply Forall_app in D as [D1 D2]. specialize (IH1 D1). specialize (IH2 D2).
  destruct a as [sa|sa| |sa ma ea]; try (destruct b as [sb|sb| |sb mb eb]; try exact I; try (apply add_double; assumption || exact I); destruct sa, sb; exact I).
Qed.

(** ** C110 *)
Section Doubles.
  Context (sum : list F -> F) (sum_added : forall l, added l (sum l)).
  Notation N := (fl64 sum).

  Lemma mean_ge0 l : Forall fge0 l -> fge0 (np_mean N l).
  Proof. intros H. unfold np_mean. cbn [n_div n_sum n_ofZ fl64]. apply fdiv_nonneg; [exact (added_nonneg _ _ (sum_added l) H)|apply f_ofZ_nonneg; lia]. Qed.
  Lemma squares_ge0 l : Forall fge0 (map (sqr N) l).
  Proof. apply Forall_forall. intros x Hx. apply in_map_iff in Hx as (d & <- & _). apply sq_nonneg. Qed.
  Lemma mse_ge0 y yhat v : mse_calc N y yhat = Ok v -> fge0 v.
  Proof.
    assert (G : forall l, fge0 (mean_like N (t_series y) (map (sqr N) l))).
    { intros l. unfold mean_like. apply mean_ge0. destruct (t_series y); [|apply squares_ge0]. apply Forall_forall. intros x Hx. apply filter_In in Hx as [Hx _]. revert x Hx. apply Forall_forall, squares_ge0. }
    unfold mse_calc. destruct (_ =? _)%nat; [intros E; injection E as <-; apply G|]. destruct (PdMethods.vsub_np N yhat (t_vals y)) as [ds|]; cbn [bind]; [|discriminate]. destruct (_ && _); [discriminate|]. intros E. injection E as <-. apply G.
  Qed.
  Theorem C110_nonnegative m y yhat v : In m [MSE N; RMSE N] -> mt_calc m y yhat = Ok v -> f_isnan v = true \/ SFleb f_zero v = true.
  Proof.
    intros Hm E. assert (G : fge0 v).
    { destruct Hm as [<-|[<-|[]]]; [exact (mse_ge0 _ _ _ E)|]. cbn [RMSE mt_calc] in E. destruct (mse_calc N y yhat) as [w|] eqn:Ew; [|discriminate]. injection E as <-. apply fsqrt_nonneg. exact (mse_ge0 _ _ _ Ew). }
    destruct (f_isnan v) eqn:Ev; [left; reflexivity|right]. apply nonneg_ge0; assumption.
  Qed.
  (** predictions that equal the targets have no error *)
  Theorem C110_perfect m y : In m [MSE N; RMSE N] -> t_vals y <> [] -> Forall finite (t_vals y) -> mt_calc m y (t_vals y) = Ok f_zero.
  Proof.
    intros Hm Hne Hf.
    assert (E : mse_calc N y (t_vals y) = Ok f_zero).
    { unfold mse_calc. rewrite Nat.eqb_refl. f_equal.
      assert (Hz : map (sqr N) (vsub N (t_vals y) (t_vals y)) = repeat f_zero (length (t_vals y))).
      { clear Hne. induction (t_vals y) as [|x t IH]; [reflexivity|]. inversion Hf; subst. unfold vsub in *. cbn [combine map length repeat fst snd]. f_equal; [|apply IH; assumption].
        unfold sqr. cbn [n_mul n_sub fl64]. rewrite fsub_self; [reflexivity|]. apply not_true_iff_false. intros H. apply fsub_nan_self in H as [->|(s & ->)]; contradiction. }
      unfold mean_like. rewrite Hz.
      replace (if t_series y then filter (fun x => negb (n_isnan N x)) (repeat f_zero (length (t_vals y))) else repeat f_zero (length (t_vals y))) with (repeat f_zero (length (t_vals y))).
      2: { destruct (t_series y); [|reflexivity]. symmetry. apply filter_all. intros x Hx. apply repeat_spec in Hx as ->. reflexivity. }
      unfold np_mean. cbn [n_div n_sum n_ofZ fl64]. rewrite repeat_length.
      assert (Es : sum (repeat f_zero (length (t_vals y))) = f_zero).
      { assert (Q : forall l s, added l s -> Forall (eq f_zero) l -> s = f_zero).
        { induction 1 as [|a|l0 l1 l2 a b P _ IH1 _ IH2]; intros A; [reflexivity|inversion A; auto|]. rewrite P in A. apply Forall_app in A as [A1 A2]. rewrite (IH1 A1), (IH2 A2). reflexivity. }
        apply (Q _ _ (sum_added _)). apply Forall_forall. intros x Hx. apply repeat_spec in Hx as ->. reflexivity. }
      rewrite Es. destruct (ofZ_cases (Z.of_nat (length (t_vals y))) ltac:(lia)) as [E|[->|(a & b & ->)]]; try reflexivity.
      exfalso. assert (1 <= Z.of_nat (length (t_vals y))) by (destruct (t_vals y); [congruence|cbn [length]; lia]).
      assert (L : fle (f_ofZ 1) (f_ofZ (Z.of_nat (length (t_vals y))))) by (apply normalize_mono; rewrite Z.min_id, Z.sub_diag, Z.pow_0_r; lia).
      rewrite E in L. destruct L as (_ & _ & L). discriminate L. }
    destruct Hm as [<-|[<-|[]]]; [exact E|]. cbn [RMSE mt_calc]. rewrite E. reflexivity.
  Qed.

  Definition small : F := S754_finite false 4503599627370496 (-552).     (* 2^-500 *)
  (** no error means that all errors are below 2^-500 *)
  Theorem C110_zero_partial y yhat : length (t_vals y) = length yhat -> Forall finite (t_vals y) -> Forall finite yhat -> Z.of_nat (length yhat) <= 2 ^ 52 ->
    mt_calc (MSE N) y yhat = Ok f_zero -> forall v z, In (v, z) (combine (t_vals y) yhat) -> SFltb (SFabs (fsub z v)) small = true.
  Proof.
    intros Hl Hv Hz Hn E v z Hin. cbn [MSE mt_calc] in E. unfold mse_calc in E. rewrite Hl, Nat.eqb_refl in E.
    apply (f_equal (fun r => match r with Ok x => x | Err _ => f_zero end)) in E. cbv beta iota in E. set (ds := vsub N yhat (t_vals y)) in *. set (sq := map (sqr N) ds) in *.
    assert (Hd : forall d, In d ds -> double d /\ f_isnan d = false).
    { intros d Hd. unfold ds, vsub in Hd. apply in_map_iff in Hd as ([a b] & <- & Hp). cbn [fst snd n_sub fl64].
      assert (Fa : finite a) by (eapply Forall_forall; [exact Hz|eapply in_combine_l, Hp]). assert (Fb : finite b) by (eapply Forall_forall; [exact Hv|eapply in_combine_r, Hp]).
      split; [apply sub_double; assumption|]. apply (sub_rank a b (-1074) Fa Fb (finite_above _ Fa) (finite_above _ Fb)). }
    assert (Hsq : mean_like N (t_series y) sq = np_mean N sq).
    { unfold mean_like. destruct (t_series y); [|reflexivity]. f_equal. apply filter_all. intros x Hx. apply in_map_iff in Hx as (d & <- & Hdd).
      cbn [n_isnan fl64 sqr n_mul]. unfold sqr. cbn [n_mul fl64]. destruct (Hd d Hdd). rewrite sq_num by assumption. reflexivity. }
    rewrite Hsq in E. unfold np_mean in E. cbn [n_div n_sum n_ofZ fl64] in E.
    assert (Hlen : length sq = length yhat) by (unfold sq, ds, vsub; rewrite !map_length, combine_length; lia).
    rewrite Hlen in E. set (n := Z.of_nat (length yhat)) in *.
    assert (Hn1 : 0 < n) by (unfold n; apply in_combine_r in Hin; destruct yhat; [destruct Hin|cbn [length]; lia]).
    pose proof (sum_added sq) as Ha. set (s := sum sq) in *.
    assert (Dq : Forall double sq) by (apply Forall_forall; intros x Hx; apply in_map_iff in Hx as (d & <- & Hdd); apply sq_double, Hd, Hdd).
    assert (Gs : fge0 s) by (apply (added_nonneg _ _ Ha), squares_ge0).
    assert (Fs : finite s).
    { destruct (count_double n ltac:(lia)) as (m & e & En & _). rewrite En in E.
      destruct s as [t|t| |t m' e'] eqn:Es; try exact I; [cbn in Gs; subst; discriminate|discriminate|].
      clear - Ha Dq E. pose proof (squares_ge0 ds) as G. fold sq in G. revert Dq G. remember (S754_finite t m' e') as w eqn:Ew. clear E. revert t m' e' Ew.
      induction Ha as [|a|l0 l1 l2 a b P A1 IH1 A2 IH2]; intros t m' e' Ew D G; [discriminate|inversion D; subst; assumption|]. rewrite P in D, G. apply Forall_app in D as [D1 D2]. apply Forall_app in G as [G1 G2].
      assert (Fa : finite a). { destruct a as [|[]| |]; try exact I; try (eapply IH1; eauto; fail); destruct b as [|[]| |]; discriminate. }
      assert (Fb : finite b). { destruct b as [|[]| |]; try exact I; try (eapply IH2; eauto; fail); destruct a as [|[]| |]; discriminate. }
      pose proof (add_double a b Fa Fb) as Dd. rewrite Ew in Dd |- *. exact Dd. }
    pose proof (div_err s n Fs ltac:(lia)) as Er. rewrite E in Er. specialize (Er I). change (tiny f_zero) with 0 in Er.
    rewrite Z.mul_0_l, Z.sub_0_l, Z.abs_opp in Er.
    assert (Ts : Z.abs (tiny s) <= 2 ^ 52) by (change (2 ^ 53) with (2 * 2 ^ 52) in Er; change (2 ^ 52) with 4503599627370496 in *; lia).
    set (d := fsub z v). assert (Hdd : In d ds).
    { unfold ds, vsub. apply in_map_iff. exists (z, v). split; [reflexivity|]. clear - Hin. revert yhat Hin; induction (t_vals y) as [|a l IH]; intros [|b yhat] Hin; cbn in *; try contradiction. destruct Hin as [E|Hin]; [left; congruence|right; auto]. }
    destruct (Hd d Hdd) as [Dd Nd]. destruct (sum_above sq s Ha (squares_ge0 ds) Dq Fs (fmul d d)) as [Fq Lq]; [unfold sq; apply in_map_iff; exists d; split; [reflexivity|exact Hdd]|].
    destruct (SFltb (SFabs d) small) eqn:Lt; [reflexivity|exfalso].
    assert (Fd : finite d). { destruct d as [|t| |]; try exact I; try discriminate; [destruct t; destruct Fq|exact Dd]. }
    assert (Fad : finite (SFabs d)) by (destruct d; exact Fd). assert (Gad : fge0 (SFabs d)) by (destruct d; try reflexivity; exact I).
    assert (L0 : fle small (SFabs d)) by (split; [reflexivity|]; split; [apply finite_num, Fad|exact Lt]).
    assert (Fc : finite small) by reflexivity.
    pose proof (mul_mono small (SFabs d) small Fc Fad Fc eq_refl Gad eq_refl L0) as M1. pose proof (mul_mono small (SFabs d) (SFabs d) Fc Fad Fad eq_refl Gad Gad L0) as M2.
    rewrite (mul_comm (SFabs d) small) in M1. rewrite sq_abs in M2. pose proof (fle_trans _ _ _ (fle_trans _ _ _ M1 M2) Lq) as M.
    apply (fle_units _ _ (-1074)) in M; [|reflexivity|exact Fs|vm_compute; discriminate|apply finite_above, Fs].
    change (units s (-1074)) with (tiny s) in M. assert (C : units (fmul small small) (-1074) = 2 ^ 74) by (vm_compute; reflexivity). rewrite C in M.
    clear - M Ts. change (2 ^ 74) with 18889465931478580854784 in M. change (2 ^ 52) with 4503599627370496 in Ts. lia.
  Qed.

  Lemma mse_double y yhat w : length (t_vals y) = length yhat -> Forall finite (t_vals y) -> Forall finite yhat -> Z.of_nat (length yhat) <= 2 ^ 52 -> mse_calc N y yhat = Ok w -> double w.
  Proof.
    intros Hl Hv Hz Hn E. unfold mse_calc in E. rewrite Hl, Nat.eqb_refl in E. injection E as <-.
    set (sq := map (sqr N) (vsub N yhat (t_vals y))).
    assert (Dq : Forall double sq).
    { apply Forall_forall. intros x Hx. apply in_map_iff in Hx as (d & <- & Hd). apply sq_double. unfold vsub in Hd. apply in_map_iff in Hd as ([a b] & <- & Hp). cbn [fst snd n_sub fl64].
      apply sub_double; [exact (proj1 (Forall_forall _ _) Hz _ (in_combine_l _ _ _ _ Hp))|exact (proj1 (Forall_forall _ _) Hv _ (in_combine_r _ _ _ _ Hp))]. }
    assert (Hlen : Z.of_nat (length sq) <= 2 ^ 52) by (unfold sq, vsub; rewrite !map_length, combine_length; lia).
    assert (G : forall l, Forall double l -> Z.of_nat (length l) <= 2 ^ 52 -> double (np_mean N l)).
    { intros l Dl Ln. unfold np_mean. cbn [n_div n_sum n_ofZ fl64]. pose proof (added_double _ _ (sum_added l) Dl) as Ds. destruct l as [|x l].
      - change (f_ofZ (Z.of_nat (length (@nil F)))) with f_zero. destruct (sum []); exact I.
      - destruct (count_double (Z.of_nat (length (x :: l))) ltac:(cbn [length] in *; lia)) as (m & e & -> & _). destruct (sum (x :: l)) as [s|s| |s m' e'] eqn:Es; try exact I; apply div_double; assumption || exact I. }
    unfold mean_like. destruct (t_series y); [|apply G; assumption]. apply G.
    - apply Forall_forall. intros x Hx. apply filter_In in Hx as [Hx _]. revert x Hx. apply Forall_forall, Dq.
    - assert (forall (p : F -> bool) l, (length (filter p l) <= length l)%nat) as L by (intros p; induction l as [|x l IH]; cbn; [lia|destruct (p x); cbn; lia]). eapply Z.le_trans; [apply Nat2Z.inj_le, L|exact Hlen].
  Qed.
  (** the same for the root of the mean *)
  Theorem C110_rmse_zero_partial y yhat : length (t_vals y) = length yhat -> Forall finite (t_vals y) -> Forall finite yhat -> Z.of_nat (length yhat) <= 2 ^ 52 ->
    mt_calc (RMSE N) y yhat = Ok f_zero -> forall v z, In (v, z) (combine (t_vals y) yhat) -> SFltb (SFabs (fsub z v)) small = true.
  Proof.
    intros Hl Hv Hz Hn E. apply C110_zero_partial; auto. cbn [RMSE MSE mt_calc] in *. destruct (mse_calc N y yhat) as [w|] eqn:Ew; [|discriminate]. f_equal.
    apply sqrt_zero; [exact (mse_double _ _ _ Hl Hv Hz Hn Ew)|exact (mse_ge0 _ _ _ Ew)|]. assert (E1 : Ok (A := F) (fsqrt w) = Ok f_zero) by exact E. congruence.
  Qed.

  (** the share of hits: between 0 and 1, and the ends are reached exactly where they should be *)
  Theorem C110_accuracy y yhat : length (t_vals y) = length yhat -> yhat <> [] -> Z.of_nat (length yhat) <= 2 ^ 52 ->
    exists v, mt_calc (Accuracy N) y yhat = Ok v /\ SFleb f_zero v = true /\ SFleb v f_one = true
      /\ (v = f_one <-> forall a b, In (a, b) (combine (t_vals y) yhat) -> SFeqb a b = true)
      /\ (v = f_zero <-> forall a b, In (a, b) (combine (t_vals y) yhat) -> SFeqb a b = false).
  Proof.
    intros Hl Hne Hn. cbn [Accuracy mt_calc]. unfold accuracy_calc. rewrite Hl, Nat.eqb_refl. eexists. split; [reflexivity|].
    set (hit := fun p : F * F => SFeqb (fst p) (snd p)). set (bs := map hit (combine (t_vals y) yhat)).
    assert (Hlen : length bs = length yhat) by (unfold bs; rewrite map_length, combine_length; lia).
    replace (map _ (combine (t_vals y) yhat)) with (map flag bs) by (unfold bs; rewrite map_map; reflexivity).
    unfold np_mean. cbn [n_div n_sum n_ofZ fl64]. rewrite (sum_flags _ _ (sum_added (map flag bs)) bs (Permutation_refl _)) by lia. rewrite map_length, Hlen.
    pose proof (yes_le bs) as Hy. rewrite Hlen in Hy.
    assert (H1 : 0 < Z.of_nat (length yhat)) by (destruct yhat; [congruence|cbn [length]; lia]).
    destruct (share_bounds (yes bs) (Z.of_nat (length yhat)) ltac:(lia) ltac:(lia)) as (B1 & B2 & B3 & B4).
    split; [exact B1|]. split; [exact B2|]. rewrite B3, B4. clear B1 B2 B3 B4. unfold yes in *. rewrite <- Hlen. split.
    - rewrite Nat2Z.inj_iff. rewrite (proj2 (filter_length_all (fun b : bool => b) bs)). split.
      + intros H a b Hab. exact (H (hit (a, b)) (in_map hit _ _ Hab)).
      + intros H b Hb. apply in_map_iff in Hb as ([a c] & <- & Hac). exact (H a c Hac).
    - split.
      + intros H a b Hab. destruct (SFeqb a b) eqn:E; [|reflexivity]. exfalso.
        assert (Hi : In true (filter (fun b : bool => b) bs)) by (apply filter_In; split; [|reflexivity]; rewrite <- E; exact (in_map hit _ _ Hab)).
        destruct (filter (fun b : bool => b) bs); [destruct Hi|cbn [length] in H; lia].
      + intros H. replace (filter (fun b : bool => b) bs) with (@nil bool); [reflexivity|]. symmetry.
        destruct (filter (fun b : bool => b) bs) as [|b0 t0] eqn:E; [reflexivity|exfalso]. assert (Hi : In b0 (filter (fun b : bool => b) bs)) by (rewrite E; left; reflexivity).
        apply filter_In in Hi as [Hi ->]. apply in_map_iff in Hi as ([a c] & Hh & Hac). unfold hit in Hh. cbn in Hh. rewrite (H a c Hac) in Hh. discriminate.
  Qed.
End Doubles.

(** wrong predictions without error: the square of 2^-600 is rounded to 0 *)
Theorem C110_zero_refuted : exists y yhat, Forall finite (t_vals y) /\ Forall finite yhat /\ length (t_vals y) = length yhat
  /\ (exists a b, In (a, b) (combine (t_vals y) yhat) /\ SFeqb a b = false)
  /\ mt_calc (MSE (fl64 seq_sum)) y yhat = Ok f_zero /\ mt_calc (RMSE (fl64 seq_sum)) y yhat = Ok f_zero.
Proof.
  exists (array [f_one; f_zero]), [f_one; S754_finite false 4503599627370496 (-652)]. split; [repeat constructor|]. split; [repeat constructor|]. split; [reflexivity|].
  split; [|split; vm_compute; reflexivity]. do 2 eexists. split; [right; left; reflexivity|reflexivity].
Qed.
Print Assumptions C110_zero_refuted.
Open Scope nat_scope.
Open Scope list_scope.

(** ** Examples *)
From Coq Require Import QArith.
Open Scope nat_scope.
Open Scope list_scope.
Example C109_example : known [Some 1%R; None; Some 4%R] [2%R; 5%R; 6%R] = [(1%R, 2%R); (4%R, 6%R)]
  /\ mt_calc (MSE xQ) (series [0; 1; 2]%Z [Fin (1 # 1); NaN; Fin (4 # 1)]%Q) [Fin (2 # 1); Fin (5 # 1); Fin (6 # 1)]%Q = Ok (Fin (5 # 2)%Q)
  /\ mt_calc (MSE xQ) (array [Fin (1 # 1); NaN; Fin (4 # 1)]%Q) [Fin (2 # 1); Fin (5 # 1); Fin (6 # 1)]%Q = Ok NaN
  /\ mt_calc (MSE xQ) (array [Fin (1 # 1); Fin (4 # 1)]%Q) [Fin (2 # 1); Fin (6 # 1)]%Q = Ok (Fin (5 # 2)%Q).
Proof. split; [reflexivity|]. split; [vm_compute; reflexivity|]. split; vm_compute; reflexivity. Qed.
Definition f_n (z : Z) : F := f_ofZ z.
Example C110_example :
  mt_calc (MSE (fl64 seq_sum)) (array [f_n 1; f_n 3]) [f_n 2; f_n 3] = Ok (fdiv (f_n 1) (f_n 2))
  /\ mt_calc (MSE (fl64 seq_sum)) (array [f_n 1; f_n 3]) [f_n 1; f_n 3] = Ok f_zero
  /\ mt_calc (Accuracy (fl64 seq_sum)) (array [f_n 1; f_n 3; f_n 0]) [f_n 2; f_n 3; f_n 1] = Ok (fdiv f_one (f_n 3))
  /\ Forall finite [f_n 1; f_n 3] /\ (forall l, added l (seq_sum l)).
Proof. split; [vm_compute; reflexivity|]. split; [vm_compute; reflexivity|]. split; [vm_compute; reflexivity|]. split; [repeat constructor|exact seq_sum_added]. Qed.

Print Assumptions C109_container_partial.
Print Assumptions C109_series_partial.
Print Assumptions C109_array_refuted.
Print Assumptions C109_accuracy_partial.
Print Assumptions C110_nonnegative.
Print Assumptions C110_perfect.
Print Assumptions C110_zero_partial.
Print Assumptions C110_rmse_zero_partial.
Print Assumptions C110_accuracy.

Print Assumptions C109_lengths_refuted.
