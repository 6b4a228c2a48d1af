(** C145: the performance based interaction values and the permutation importance of nearby models. *)
From Verif Require Import Py Num NumR Sorting Frame Rng PdCalc PdSpec PdFacts PdProofs PdTheorems PdErrors PdApi PdMethods MethodSpec
  PdMethodFacts PdMethodRun PdMethodReal PdMethodReal2 GreenwellFacts Props_Pd Props_Methods Props_Methods2 Perm ForestFacts PermFacts PermRun Props_Perm Props_EndToEnd Props_EndToEnd2 Props_Visual3 Props_Terms Props_Stable Props_Accuracy Props_Accuracy3.
From Coq Require Import ZArith Reals Lra Lia.
Open Scope string_scope.
Open Scope nat_scope.
Open Scope list_scope.
Notation rearranged := PermFacts.rearranged.
Notation included := Props_Perm.included.

(** ** Specification *)
(** the scores of the two models differ by at most [gap] on every table of the size of the data whose cells occur in their columns *)
Definition scores_close {C} (c : scoring) (X : frame C) (ys : list R) (gap : R) (h h' : list C -> R) : Prop :=
  forall rs, length rs = length (f_rows X) -> (forall r, In r rs -> made_of (f_rows X) (length (f_cols X)) r) ->
    (Rabs (score_on c h' ys rs - score_on c h ys rs) <= gap)%R.
(** no prediction of the model on such rows is further than [M] from a target *)
Definition misses_at_most {C} (X : frame C) (ys : list R) (M : R) (h : list C -> R) : Prop :=
  forall r y, made_of (f_rows X) (length (f_cols X)) r -> In y ys -> (Rabs (h r - y) <= M)%R.

(** ** Metrics *)
Lemma combine_map_snd {A B D} (f : B -> D) (l : list A) (k : list B) : combine l (map f k) = map (fun p => (fst p, f (snd p))) (combine l k).
Proof. revert k. induction l as [|a l IH]; intros [|b k]; cbn; [reflexivity..|]. rewrite IH. reflexivity. Qed.
Lemma Rmse_rows {C} (h : list C -> R) ys rs : Rmse ys (map h rs) = Rmean (map (fun p => Rsqr (h (snd p) - fst p)) (combine ys rs)).
Proof. unfold Rmse. rewrite combine_map_snd, map_map. reflexivity. Qed.

Section Roots.
  Open Scope R_scope.
  Context {A : Type} (l : list A) (Hne : l <> []).
  Lemma root_mean_close (d h : A -> R) e : 0 <= e -> (forall a, In a l -> Rabs (d a - h a) <= e) ->
    Rabs (sqrt (Rmean (map (fun a => Rsqr (d a)) l)) - sqrt (Rmean (map (fun a => Rsqr (h a)) l))) <= e.
  Proof.
    intros He D. pose proof (INR_pos_length l Hne) as Pn. unfold Rmean. rewrite !map_length.
    change (Rsum (map (fun r => Rsqr (d r)) l)) with (Lsum l d). change (Rsum (map (fun r => Rsqr (h r)) l)) with (Lsum l h).
    rewrite !sqrt_div by (try apply Lsum_nonneg; exact Pn). pose proof (sqrt_lt_R0 _ Pn) as Sn.
    pose proof (Lnorm_close l h d (fun r => d r - h r) ltac:(intros; cbn beta; ring)) as L.
    assert (L2 : Lnorm l (fun r => d r - h r) <= sqrt (INR (length l)) * e).
    { unfold Lnorm. rewrite <- (sqrt_Rsqr e) by lra. rewrite <- sqrt_mult by (try apply Rle_0_sqr; lra). apply sqrt_le_1_alt. apply Lsum_bound, D. }
    unfold Lnorm in L at 1 2. set (x := sqrt (Lsum l d)) in *. set (y := sqrt (Lsum l h)) in *. set (z := sqrt (INR (length l))) in *.
    replace (x / z - y / z) with ((x - y) * / z) by (field; lra). rewrite Rabs_mult, (Rabs_pos_eq (/ z)) by (left; apply Rinv_0_lt_compat, Sn).
    apply (Rmult_le_reg_r z); [exact Sn|]. rewrite Rmult_assoc, Rinv_l, Rmult_1_r by lra. lra.
  Qed.
  Lemma mean_close (d h : A -> R) e : (forall a, In a l -> Rabs (d a - h a) <= e) -> Rabs (Rmean (map d l) - Rmean (map h l)) <= e.
  Proof. intros D. rewrite <- Rmean_map_sub. apply Rmean_abs; assumption. Qed.
End Roots.

Section Metrics.
  Open Scope R_scope.
  Context {C : Type} (X : frame C) (HX : wf_frame X) (Hne : f_rows X <> []) (ys : list R) (Hl : length ys = length (f_rows X)) (h h' : list C -> R) (eps : R)
          (Hh : models_close (f_rows X) (length (f_cols X)) eps h h').
  Lemma close_nonneg : 0 <= eps.
  Proof. exact (eps_nonneg (f_rows X) (length (f_cols X)) (wf_rows X HX) Hne h h' eps Hh). Qed.
  Lemma table_ne (rs : list (list C)) : length rs = length (f_rows X) -> combine ys rs <> [].
  Proof. intros Hr E. apply (f_equal (@length _)) in E. rewrite combine_length, Hl, Hr, Nat.min_id in E. destruct (f_rows X); [congruence|discriminate]. Qed.
  (** the root mean squared error *)
  Theorem C145_rmse : scores_close ByRMSE X ys eps h h'.
  Proof.
    intros rs Hr Hm. unfold score_on, score_value. rewrite !Rmse_rows. apply root_mean_close; [apply table_ne, Hr|apply close_nonneg|].
    intros [y r] Hin. cbn [fst snd]. replace (h' r - y - (h r - y)) with (h' r - h r) by ring. apply Hh, Hm, (in_combine_r _ _ _ _ Hin).
  Qed.
  (** the mean squared error, for predictions at most [M] away from the targets *)
  Theorem C145_mse M : misses_at_most X ys M h -> scores_close ByMSE X ys (eps * (2 * M + eps)) h h'.
  Proof.
    intros HM rs Hr Hm. unfold score_on, score_value. rewrite !Rmse_rows. apply mean_close; [apply table_ne, Hr|].
    intros [y r] Hin. cbn [fst snd]. pose proof (Hm r (in_combine_r _ _ _ _ Hin)) as Mr. pose proof (Hh r Mr) as D. pose proof (HM r y Mr (in_combine_l _ _ _ _ Hin)) as K. pose proof close_nonneg as He.
    replace (Rsqr (h' r - y) - Rsqr (h r - y)) with ((h' r - h r) * (2 * (h r - y) + (h' r - h r))) by (unfold Rsqr; ring).
    rewrite Rabs_mult. apply Rmult_le_compat; [apply Rabs_pos|apply Rabs_pos|exact D|]. eapply Rle_trans; [apply Rabs_triang|]. rewrite Rabs_mult, (Rabs_pos_eq 2) by lra. lra.
  Qed.
End Metrics.

(** ** Statistics *)
Section Values.
  Context {C G : Type} (Rg : rng_ops G) (HR : rng_ok Rg) (srt : sorter) (Hs : sorter_ok srt) (c : scoring).
  Section OneData.
    Open Scope R_scope.
    Context (X : frame C) (HX : wf_frame X) (ys : list R) (h h' : list C -> R) (gap : R) (Hg : scores_close c X ys gap h h').
    Lemma shuffled_close g sel i : Rabs (shuffled_score Rg c h' X ys g sel i - shuffled_score Rg c h X ys g sel i) <= gap.
    Proof.
      unfold shuffled_score. apply Hg; [apply rearranged_length, nth_perm_ok, HR|]. apply made_rearranged, (wf_rows X HX).
    Qed.
    Lemma data_close : Rabs (score_on c h' ys (f_rows X) - score_on c h ys (f_rows X)) <= gap.
    Proof. apply Hg; [reflexivity|]. intros r Hr. apply (made_row (f_rows X) _ (wf_rows X HX)), Hr. Qed.
    Lemma oh_statistic_close n g p1 p2 i : (0 < n)%nat -> Rabs (oh_statistic Rg c h' X ys n g p1 p2 i - oh_statistic Rg c h X ys n g p1 p2 i) <= 4 * gap.
    Proof.
      intros Hn. unfold oh_statistic. apply mean_close; [destruct n; [lia|discriminate]|]. intros j _. cbv zeta.
      pose proof data_close as D0. pose proof (shuffled_close g [p1; p2] (3 * n * i + 3 * j + 2)%nat) as D1. pose proof (shuffled_close g [p1] (3 * n * i + 3 * j)%nat) as D2. pose proof (shuffled_close g [p2] (3 * n * i + 3 * j + 1)%nat) as D3.
      set (a0 := score_on c h ys _) in *. set (b0 := score_on c h' ys _) in *.
      set (a1 := shuffled_score Rg c h X ys g [p1; p2] _) in *. set (b1 := shuffled_score Rg c h' X ys g [p1; p2] _) in *.
      set (a2 := shuffled_score Rg c h X ys g [p1] _) in *. set (b2 := shuffled_score Rg c h' X ys g [p1] _) in *.
      set (a3 := shuffled_score Rg c h X ys g [p2] _) in *. set (b3 := shuffled_score Rg c h' X ys g [p2] _) in *.
      eapply Rle_trans; [apply Rabs_triang_inv2|]. apply Rabs_le.
      assert (K : forall x, Rabs x <= gap -> - gap <= x <= gap) by (intros x; unfold Rabs; destruct (Rcase_abs x); lra). apply K in D0, D1, D2, D3. lra.
    Qed.
    Lemma loss_close x x' : Rabs (x' - x) <= gap -> Rabs (loss c h' X ys x' - loss c h X ys x) <= 2 * gap.
    Proof.
      intros D. pose proof data_close as D0. unfold loss. assert (K : forall x, Rabs x <= gap -> - gap <= x <= gap) by (intros y; unfold Rabs; destruct (Rcase_abs y); lra). apply K in D0, D. apply Rabs_le. destruct c; lra.
    Qed.
    Lemma oh_importance_close n g p k m : (0 < n)%nat ->
      Rabs (loss c h' X ys (Rmean (map (fun j => shuffled_score Rg c h' X ys g [p] (j * m + k)%nat) (seq 0 n))) - loss c h X ys (Rmean (map (fun j => shuffled_score Rg c h X ys g [p] (j * m + k)%nat) (seq 0 n)))) <= 2 * gap.
    Proof. intros Hn. apply loss_close, mean_close; [destruct n; [lia|discriminate]|]. intros j _. apply shuffled_close. Qed.
  End OneData.

  (** one run *)
  Lemma run_output (s : Perm.sstate C (ext R) G) (a : sargs C (ext R)) h X ys g e s' out log : sj_input Rg s a h X ys g -> sj_fit xR Rg srt (scoring_metric c) e s a = (s', out, log) ->
    out = Ok tt /\ wf_frame X /\ exists t fi, sj_output Rg c a h X ys g e s' t fi.
  Proof.
    intros Hi H. destruct (sj_fit_output Rg HR srt Hs c s a h X ys g e Hi) as (s0 & t & fi & log0 & E & HX & Ho). rewrite H in E. injection E as -> -> ->. eauto.
  Qed.

  (** two fits on the same data that ask the generator for the same draws: the same number of repetitions and the same features *)
  Record twin_runs (s1 : Perm.sstate C (ext R) G) (a1 : sargs C (ext R)) (s1' s2 : Perm.sstate C (ext R) G) (a2 : sargs C (ext R)) (s2' : Perm.sstate C (ext R) G) h h' X ys g e1 e2 gap : Prop := {
    tw_first : sj_input Rg s1 a1 h X ys g;
    tw_second : sj_input Rg s2 a2 h' X ys g;
    tw_repeat : sa_repeat a2 = sa_repeat a1;
    tw_features : included a2 = included a1;
    tw_fit1 : exists out log, sj_fit xR Rg srt (scoring_metric c) e1 s1 a1 = (s1', out, log);
    tw_fit2 : exists out log, sj_fit xR Rg srt (scoring_metric c) e2 s2 a2 = (s2', out, log);
    tw_close : scores_close c X ys gap h h' }.

  Theorem C145_pairs s1 a1 s1' s2 a2 s2' h h' X ys g e1 e2 gap t1 t2 f1 f2 v1 v2 :
    twin_runs s1 a1 s1' s2 a2 s2' h h' X ys g e1 e2 gap -> sj_ovo s1' = Some t1 -> sj_ovo s2' = Some t2 ->
    In (f1, f2, v1) t1 -> In (f1, f2, v2) t2 -> values_close (4 * gap) v1 v2.
  Proof.
    intros [I1 I2 Er Ef (o1 & l1 & F1) (o2 & l2 & F2) Hg] T1 T2 H1 H2.
    destruct (run_output _ _ _ _ _ _ _ _ _ _ I1 F1) as (_ & HX & u1 & fi1 & O1). destruct (run_output _ _ _ _ _ _ _ _ _ _ I2 F2) as (_ & _ & u2 & fi2 & O2).
    rewrite (so_ovo _ _ _ _ _ _ _ _ _ _ _ O1) in T1. injection T1 as ->. rewrite (so_ovo _ _ _ _ _ _ _ _ _ _ _ O2) in T2. injection T2 as ->.
    pose proof (so_values _ _ _ _ _ _ _ _ _ _ _ O1 _ H1) as V1. pose proof (so_values _ _ _ _ _ _ _ _ _ _ _ O2 _ H2) as V2. cbn [fst snd] in V1, V2. rewrite Ef, Er in V2.
    destruct V1 as (i & a & b & p1 & p2 & Hi & Hab & P1 & P2 & ->).
    pose proof (si_distinct _ _ _ _ _ _ _ I1) as Hd.
    pose proof (oh_pair_unique Rg c h' X ys (sa_repeat a1) (included a1) g f1 f2 v2 (Fin (oh_statistic Rg c h' X ys (sa_repeat a1) g p1 p2 i)) (proj1 HX) Hd V2) as U.
    rewrite U by (exists i, a, b, p1, p2; auto). eexists _, _. split; [reflexivity|]. split; [reflexivity|]. apply oh_statistic_close; auto. exact (si_repeat _ _ _ _ _ _ _ I1).
  Qed.

  (** the importances, if the unseeded generators start in the same state *)
  Theorem C145_importance s1 a1 s1' s2 a2 s2' h h' X ys g e gap t1 t2 f v1 v2 :
    twin_runs s1 a1 s1' s2 a2 s2' h h' X ys g e e gap -> sj_fi s1' = Some t1 -> sj_fi s2' = Some t2 ->
    In (f, v1) t1 -> In (f, v2) t2 -> values_close (2 * gap) v1 v2.
  Proof.
    intros [I1 I2 Er Ef (o1 & l1 & F1) (o2 & l2 & F2) Hg] T1 T2 H1 H2.
    destruct (run_output _ _ _ _ _ _ _ _ _ _ I1 F1) as (_ & HX & u1 & fi1 & O1). destruct (run_output _ _ _ _ _ _ _ _ _ _ I2 F2) as (_ & _ & u2 & fi2 & O2).
    rewrite (so_fi _ _ _ _ _ _ _ _ _ _ _ O1) in T1. injection T1 as ->. rewrite (so_fi _ _ _ _ _ _ _ _ _ _ _ O2) in T2. injection T2 as ->.
    destruct (so_importance _ _ _ _ _ _ _ _ _ _ _ O1 _ _ H1) as (k & p & K & P & ->). destruct (so_importance _ _ _ _ _ _ _ _ _ _ _ O2 _ _ H2) as (k' & p' & K' & P' & ->). rewrite Ef in *. rewrite Er.
    pose proof (si_distinct _ _ _ _ _ _ _ I1) as Hd. rewrite <- (nth_once _ _ _ _ Hd K K'), <- (nth_once _ _ _ _ (proj1 HX) P P').
    eexists _, _. split; [reflexivity|]. split; [reflexivity|]. apply oh_importance_close; auto. exact (si_repeat _ _ _ _ _ _ _ I1).
  Qed.

  (** pairs further apart than twice the bound keep their order *)
  Theorem C145_order s1 a1 s1' s2 a2 s2' h h' X ys g e1 e2 gap t1 t2 f1 f2 g1 g2 x y w w' i j :
    twin_runs s1 a1 s1' s2 a2 s2' h h' X ys g e1 e2 gap -> sj_ovo s1' = Some t1 -> sj_ovo s2' = Some t2 ->
    In (f1, f2, Fin x) t1 -> In (g1, g2, Fin y) t1 -> (y + 8 * gap < x)%R ->
    nth_error t2 i = Some (f1, f2, w) -> nth_error t2 j = Some (g1, g2, w') -> i < j.
  Proof.
    intros TW T1 T2 Hf Hg Hxy Hi Hj.
    destruct (C145_pairs _ _ _ _ _ _ _ _ _ _ _ _ _ _ _ _ _ _ _ _ TW T1 T2 Hf (nth_error_In _ _ Hi)) as (b & x' & E1 & E2 & K1).
    destruct (C145_pairs _ _ _ _ _ _ _ _ _ _ _ _ _ _ _ _ _ _ _ _ TW T1 T2 Hg (nth_error_In _ _ Hj)) as (b' & y' & E3 & E4 & K2).
    injection E1 as <-. injection E3 as <-. subst w w'.
    assert (Hlt : (y' < x')%R) by (revert K1 K2; unfold Rabs; repeat match goal with |- context [Rcase_abs ?p] => destruct (Rcase_abs p) end; lra). clear K1 K2.
    destruct TW as [_ I2 _ _ _ (o2 & l2 & F2) _]. destruct (run_output _ _ _ _ _ _ _ _ _ _ I2 F2) as (_ & _ & u2 & fi2 & O2). rewrite (so_ovo _ _ _ _ _ _ _ _ _ _ _ O2) in T2. injection T2 as ->.
    pose proof (so_sorted _ _ _ _ _ _ _ _ _ _ _ O2) as Hd.
    assert (Hij : i <> j) by (intros ->; rewrite Hi in Hj; injection Hj as _ _ E; lra).
    destruct (Nat.lt_trichotomy i j) as [L|[L|L]]; [exact L|congruence|exfalso].
    clear - Hd Hi Hj Hlt L. revert i j Hi Hj L. induction Hd as [|r t Hd IH Hr]; intros i j Hi Hj L; [destruct i; discriminate|].
    destruct i as [|i]; [lia|]. destruct j as [|j]; [|apply (IH i j Hi Hj); lia]. injection Hj as ->. cbn [nth_error] in Hi. rewrite Forall_forall in Hr. specialize (Hr _ (nth_error_In _ _ Hi)). cbn [snd] in Hr.
    cbn in Hr. apply negb_true_iff, Rltb_false in Hr. lra.
  Qed.
End Values.

(** ** Examples: the product of two columns *)
Definition st_args (h : list Z -> R) (k : nat) : sargs Z (ext R) :=
  {| sa_model := {| md_id := 0; md_proba1 := None; md_predict := Some (fun _ rows => Ok (map (fun r => Fin (h r)) rows)) |};
     sa_X := ex_X; sa_y := fin_target false [] oh_ys; sa_n := None; sa_repeat := k; sa_features := None |}.
Lemma st_input h k : 0 < k -> sj_input rotR (sj_init (r_seed rotR 1)) (st_args h k) h ex_X oh_ys (r_seed rotR 1).
Proof.
  intros Hk. constructor; [exact ex_X_wf|exists false, []; reflexivity|reflexivity|discriminate| |exact Hk| |intros f Hf; exact Hf|cbn; lia].
  - eexists. split; [reflexivity|]. split.
    + intros i rows l H. injection H as <-. reflexivity.
    + intros i rows. eexists. reflexivity.
  - apply ex_X_wf.
Qed.
(** the value of the only pair *)
Lemma st_fit c h k e : 0 < k -> exists s' log t, sj_fit xR rotR isort (scoring_metric c) e (sj_init (r_seed rotR 1)) (st_args h k) = (s', Ok tt, log) /\ sj_ovo s' = Some t
  /\ In ("a", "b", Fin (oh_statistic rotR c h ex_X oh_ys k (r_seed rotR 1) 0 1 0)) t.
Proof.
  intros Hk. pose proof (st_input h k Hk) as Hi. destruct (sj_fit_output rotR rotR_ok isort isort_ok c _ _ h ex_X oh_ys _ e Hi) as (s' & t & fi & log & E & _ & Ho). exists s', log, t. split; [exact E|].
  pose proof (so_ovo _ _ _ _ _ _ _ _ _ _ _ Ho) as Ht. split; [exact Ht|].
  destruct (si_model _ _ _ _ _ _ _ Hi) as (P & HP & Hrow & _).
  destruct (C25_interaction_values rotR rotR_ok isort isort_ok (scoring_metric c) e (sj_init (r_seed rotR 1)) (st_args h k) s' log ex_X (fin_target false [] oh_ys) (r_seed rotR 1) P _ (score_on c h oh_ys)
              ex_X_wf (proj1 ex_X_wf) Hk eq_refl HP Hrow (scores_scoring c ex_X false [] oh_ys h eq_refl (si_rows _ _ _ _ _ _ _ Hi)) E) as (t' & raw & Ht' & Hp & _ & Hv & _).
  rewrite Ht in Ht'. injection Ht' as <-. apply (Permutation_in _ (Permutation_sym Hp)). specialize (Hv 0 "a" "b" 0 1 eq_refl eq_refl eq_refl). apply nth_error_In in Hv. cbn [sa_repeat st_args] in Hv.
  exact Hv.
Qed.
Lemma st_twins c h h' k e1 e2 gap s1' o1 l1 s2' o2 l2 : 0 < k -> scores_close c ex_X oh_ys gap h h' ->
  sj_fit xR rotR isort (scoring_metric c) e1 (sj_init (r_seed rotR 1)) (st_args h k) = (s1', o1, l1) ->
  sj_fit xR rotR isort (scoring_metric c) e2 (sj_init (r_seed rotR 1)) (st_args h' k) = (s2', o2, l2) ->
  twin_runs rotR isort c (sj_init (r_seed rotR 1)) (st_args h k) s1' (sj_init (r_seed rotR 1)) (st_args h' k) s2' h h' ex_X oh_ys (r_seed rotR 1) e1 e2 gap.
Proof. intros Hk Hc F1 F2. constructor; [apply st_input, Hk|apply st_input, Hk|reflexivity|reflexivity|eauto|eauto|exact Hc]. Qed.
Lemma made_ex r : made_of (f_rows ex_X) 2 r -> exists x y, r = [x; y] /\ (0 <= x <= 20)%Z /\ (0 <= y <= 5)%Z.
Proof.
  intros [Hl Hr]. destruct r as [|x [|y [|]]]; try discriminate Hl. exists x, y. split; [reflexivity|].
  destruct (Hr 0 x eq_refl) as (s & Hs & Ex). destruct (Hr 1 y eq_refl) as (s' & Hs' & Ey).
  split.
  - destruct Hs as [<-|[<-|[<-|[<-|[<-|[]]]]]]; injection Ex as <-; lia.
  - destruct Hs' as [<-|[<-|[<-|[<-|[<-|[]]]]]]; injection Ey as <-; lia.
Qed.
Lemma times_misses : misses_at_most ex_X oh_ys 100 times_r.
Proof.
  intros r y Hr Hy. apply made_ex in Hr as (a & b & -> & Ha & Hb). unfold times_r. cbn [nth].
  assert (0 <= a * b <= 100)%Z by nia. assert (E : (0 <= IZR (a * b) <= 100)%R) by (split; apply IZR_le; lia).
  assert (0 <= y <= 40)%R by (destruct Hy as [<-|[<-|[<-|[<-|[<-|[]]]]]]; lra). apply Rabs_le. lra.
Qed.
(** every model within 1/5 of the product gets a value in this range; the product has 2639/5 *)
Example C145_example h' : models_close (f_rows ex_X) 2 (1 / 5) times_r h' ->
  exists s' log t v, sj_fit xR rotR isort (scoring_metric ByMSE) 7 (sj_init (r_seed rotR 1)) (st_args h' 2) = (s', Ok tt, log) /\ sj_ovo s' = Some t
    /\ In ("a", "b", Fin v) t /\ (367 < v < 689)%R.
Proof.
  intros Hh. assert (Hk : 0 < 2) by lia. destruct (st_fit ByMSE times_r 2 5 Hk) as (s1 & l1 & t1 & F1 & T1 & V1). destruct (st_fit ByMSE h' 2 7 Hk) as (s2 & l2 & t2 & F2 & T2 & V2).
  pose proof (C145_mse ex_X ex_X_wf ltac:(discriminate) oh_ys eq_refl times_r h' (1 / 5) Hh 100 times_misses) as Hc.
  pose proof (st_twins ByMSE times_r h' 2 5 7 _ s1 _ l1 s2 _ l2 Hk Hc F1 F2) as TW.
  destruct (C145_pairs rotR rotR_ok isort isort_ok ByMSE _ _ _ _ _ _ _ _ _ _ _ _ _ _ _ _ _ _ _ _ TW T1 T2 V1 V2) as (x & x' & E1 & E2 & K). rewrite oh_ex in E1. injection E1 as <-.
  exists s2, l2, t2, x'. split; [exact F2|]. split; [exact T2|]. split; [rewrite <- E2; exact V2|].
  revert K. unfold Rabs. destruct (Rcase_abs _); lra.
Qed.
Example C145_example_model : models_close (f_rows ex_X) 2 (1 / 5) times_r (fun r => times_r r + IZR (nth 0 r 0%Z) / 100)%R.
Proof.
  intros r Hr. apply made_ex in Hr as (a & b & -> & Ha & Hb). cbn [nth]. assert (0 <= IZR a <= 20)%R by (split; apply IZR_le; lia). apply Rabs_le. lra.
Qed.

(** ** Accuracy: arbitrarily close models, values far apart *)
Lemma hits_Z (ys zs : list Z) : hits (map IZR ys) (map IZR zs) = length (filter (fun p => Z.eqb (fst p) (snd p)) (combine ys zs)).
Proof.
  unfold hits. revert zs. induction ys as [|y ys IH]; intros [|z zs]; [reflexivity..|]. cbn [map combine filter fst snd].
  destruct (Req_EM_T (IZR y) (IZR z)) as [E|E]; destruct (Z.eqb_spec y z) as [E2|E2]; cbn [length]; rewrite ?IH; try reflexivity; exfalso; [apply E2, eq_IZR, E|apply E; congruence].
Qed.
Lemma hits_off (ys zs : list Z) (d : R) : (0 < d < 1)%R -> hits (map IZR ys) (map (fun z => IZR z + d)%R zs) = 0.
Proof.
  intros Hd. unfold hits. revert zs. induction ys as [|y ys IH]; intros [|z zs]; [reflexivity..|]. cbn [map combine filter fst snd].
  destruct (Req_EM_T (IZR y) (IZR z + d)) as [E|E]; [exfalso|apply IH]. assert (E2 : (IZR (y - z) = d)%R) by (rewrite minus_IZR; lra).
  assert (0 < y - z < 1)%Z by (split; apply lt_IZR; lra). lia.
Qed.
Lemma accuracy_times : oh_statistic rotR ByAccuracy times_r ex_X oh_ys 1 (r_seed rotR 1) 0 1 0 = (1 / 5)%R.
Proof.
  unfold oh_statistic. cbn [seq map Nat.mul Nat.add]. unfold shuffled_score, score_on, score_value, Raccuracy.
  assert (E : forall rs, hits oh_ys (map times_r rs) = length (filter (fun p => Z.eqb (fst p) (snd p)) (combine [0; 0; 3; 35; 40]%Z (map (fun r => nth 0 r 0 * nth 1 r 0)%Z rs)))).
  { intros rs. rewrite <- hits_Z, map_map. reflexivity. }
  rewrite !E.
  repeat match goal with |- context [INR (length (filter ?f ?l))] => let x := eval vm_compute in (length (filter f l)) in change (length (filter f l)) with x end.
  cbn [length oh_ys map]. unfold Rmean, Rsum. cbn. match goal with |- ((Rabs ?x + 0) / _)%R = _ => replace x with (1 / 5)%R by lra end. rewrite Rabs_pos_eq by lra. lra.
Qed.
Lemma accuracy_off d : (0 < d < 1)%R -> oh_statistic rotR ByAccuracy (fun r => times_r r + d)%R ex_X oh_ys 1 (r_seed rotR 1) 0 1 0 = 0%R.
Proof.
  intros Hd. unfold oh_statistic. cbn [seq map Nat.mul Nat.add]. unfold shuffled_score, score_on, score_value, Raccuracy.
  assert (E : forall rs, hits oh_ys (map (fun r => times_r r + d)%R rs) = 0).
  { intros rs. rewrite <- (hits_off [0; 0; 3; 35; 40]%Z (map (fun r => nth 0 r 0 * nth 1 r 0)%Z rs) d Hd), map_map. reflexivity. }
  rewrite !E. cbn [INR length oh_ys map]. unfold Rmean, Rsum. cbn. match goal with |- ((Rabs ?x + 0) / _)%R = _ => replace x with 0%R by lra end. rewrite Rabs_R0. lra.
Qed.
Theorem C145_accuracy_jumps :
  exists x y, x <> y /\ forall eps, (0 < eps)%R -> exists h h' s1 l1 s2 l2 t1 t2,
    models_close (f_rows ex_X) 2 eps h h'
    /\ sj_input rotR (sj_init (r_seed rotR 1)) (st_args h 1) h ex_X oh_ys (r_seed rotR 1) /\ sj_input rotR (sj_init (r_seed rotR 1)) (st_args h' 1) h' ex_X oh_ys (r_seed rotR 1)
    /\ sj_fit xR rotR isort (scoring_metric ByAccuracy) 5 (sj_init (r_seed rotR 1)) (st_args h 1) = (s1, Ok tt, l1) /\ sj_ovo s1 = Some t1
    /\ sj_fit xR rotR isort (scoring_metric ByAccuracy) 5 (sj_init (r_seed rotR 1)) (st_args h' 1) = (s2, Ok tt, l2) /\ sj_ovo s2 = Some t2
    /\ In ("a", "b", Fin x) t1 /\ In ("a", "b", Fin y) t2.
Proof.
  exists (1 / 5)%R, 0%R. split; [lra|]. intros eps Heps. set (d := Rmin eps (1 / 2)). assert (Hd : (0 < d < 1)%R /\ (d <= eps)%R) by (unfold d, Rmin; destruct (Rle_dec eps (1 / 2)); lra). destruct Hd as [Hd Hde].
  exists times_r, (fun r => times_r r + d)%R. assert (Hk : 0 < 1) by lia.
  destruct (st_fit ByAccuracy times_r 1 5 Hk) as (s1 & l1 & t1 & F1 & T1 & V1). destruct (st_fit ByAccuracy (fun r => times_r r + d)%R 1 5 Hk) as (s2 & l2 & t2 & F2 & T2 & V2).
  rewrite accuracy_times in V1. rewrite (accuracy_off d Hd) in V2. exists s1, l1, s2, l2, t1, t2.
  split. { intros r _. replace (times_r r + d - times_r r)%R with d by ring. rewrite Rabs_pos_eq by lra. exact Hde. }
  split; [apply st_input, Hk|]. split; [apply st_input, Hk|]. split; [exact F1|]. split; [exact T1|]. split; [exact F2|]. split; [exact T2|]. split; [exact V1|exact V2].
Qed.

Print Assumptions C145_rmse.
Print Assumptions C145_mse.
Print Assumptions C145_pairs.
Print Assumptions C145_importance.
Print Assumptions C145_order.
Print Assumptions C145_accuracy_jumps.
