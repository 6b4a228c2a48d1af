(** C146: the performance based interaction values and the permutation importance when targets and predictions are given on another scale. *)
From Verif Require Import Py Num NumR Sorting Frame Rng PdCalc PdSpec PdFacts PdProofs PdTheorems PdErrors PdApi PdMethods MethodSpec
  PdMethodFacts PdMethodRun PdMethodReal PdMethodReal2 GreenwellFacts Props_Pd Props_Methods Props_Methods2 Perm ForestFacts PermFacts PermRun Props_Perm Props_EndToEnd Props_EndToEnd2 Props_Visual3 Props_Terms Props_Stable Props_Accuracy Props_Accuracy3 Props_Stable3.
From Coq Require Import ZArith Reals Lra Lia.
Open Scope string_scope.
Open Scope nat_scope.
Open Scope list_scope.
Notation included := Props_Perm.included.

(** ** Specification *)
(** another scale: grams for kilograms, Fahrenheit for Celsius *)
Definition rescale (c k x : R) : R := (c * x + k)%R.
(** what the change of scale does to scores *)
Definition score_factor (m : scoring) (c : R) : R := match m with ByMSE => Rsqr c | ByRMSE => Rabs c | ByAccuracy => 1%R end.
Definition times_value (x : R) (v v' : ext R) : Prop := exists y, v = Fin y /\ v' = Fin (x * y)%R.

Section Scores.
  Open Scope R_scope.
  Context {C : Type} (c k : R) (Hc : c <> 0) (h : list C -> R).
  Lemma combine_map_fst {A B D} (f : A -> D) (l : list A) (q : list B) : combine (map f l) q = map (fun p => (f (fst p), snd p)) (combine l q).
  Proof. revert q. induction l as [|a l IH]; intros [|b q]; cbn; [reflexivity..|]. rewrite IH. reflexivity. Qed.
  Lemma mse_scaled ys rs : Rmse (map (rescale c k) ys) (map (fun r => rescale c k (h r)) rs) = Rsqr c * Rmse ys (map h rs).
  Proof.
    rewrite !Rmse_rows, combine_map_fst, map_map, <- Rmean_map_mult. apply Rmean_map_ext. intros [y r] _. cbn [fst snd]. unfold rescale, Rsqr. ring.
  Qed.
  Lemma hits_scaled ys rs : hits (map (rescale c k) ys) (map (fun r => rescale c k (h r)) rs) = hits ys (map h rs).
  Proof.
    unfold hits. rewrite combine_map_fst, !combine_map_snd. generalize (combine ys rs) as l. induction l as [|[y r] l IH]; [reflexivity|]. cbn [map filter fst snd].
    destruct (Req_EM_T (rescale c k y) (rescale c k (h r))) as [E|E]; destruct (Req_EM_T y (h r)) as [E2|E2]; cbn [length]; rewrite ?IH; try reflexivity; exfalso.
    - apply E2. unfold rescale in E. apply (Rmult_eq_reg_l c); [lra|exact Hc].
    - apply E. rewrite E2. reflexivity.
  Qed.
  Lemma Rmse_nonneg ys zs : 0 <= Rmse ys zs.
  Proof. unfold Rmse. apply Rmean_nonneg. intros x Hx. apply in_map_iff in Hx as (p & <- & _). apply Rle_0_sqr. Qed.
  Lemma score_scaled m ys rs : score_on m (fun r => rescale c k (h r)) (map (rescale c k) ys) rs = score_factor m c * score_on m h ys rs.
  Proof.
    unfold score_on, score_value, score_factor. destruct m.
    - apply mse_scaled.
    - rewrite mse_scaled, sqrt_mult by (apply Rle_0_sqr || apply Rmse_nonneg). rewrite sqrt_Rsqr_abs. reflexivity.
    - unfold Raccuracy. rewrite hits_scaled, map_length. ring.
  Qed.
  Lemma factor_pos m : 0 < score_factor m c.
  Proof. destruct m; cbn; [apply Rsqr_pos_lt, Hc|apply Rabs_pos_lt, Hc|lra]. Qed.
End Scores.

Section Scale.
  Context {C G : Type} (Rg : rng_ops G) (HR : rng_ok Rg) (srt : sorter) (Hs : sorter_ok srt) (m : scoring) (c k : R) (Hc : c <> 0%R).
  Notation other h := (fun r => rescale c k (h r)).
  Notation others ys := (map (rescale c k) ys).

  Lemma statistic_scaled h (X : frame C) ys n g p1 p2 i : oh_statistic Rg m (other h) X (others ys) n g p1 p2 i = (score_factor m c * oh_statistic Rg m h X ys n g p1 p2 i)%R.
  Proof.
    unfold oh_statistic, shuffled_score. rewrite <- Rmean_map_mult. apply Rmean_map_ext. intros j _. cbv zeta. rewrite !(score_scaled c k Hc h).
    rewrite <- (Rabs_pos_eq (score_factor m c)) at 5 by (left; apply factor_pos, Hc). rewrite <- Rabs_mult. f_equal. ring.
  Qed.
  Lemma loss_scaled h (X : frame C) ys x : loss m (other h) X (others ys) (score_factor m c * x)%R = (score_factor m c * loss m h X ys x)%R.
  Proof. unfold loss. rewrite (score_scaled c k Hc h). destruct m; ring. Qed.

  (** two fits on the same data asking for the same draws, the second with rescaled targets and predictions *)
  Record scaled_runs (s1 : Perm.sstate C (ext R) G) (a1 : sargs C (ext R)) (s1' s2 : Perm.sstate C (ext R) G) (a2 : sargs C (ext R)) (s2' : Perm.sstate C (ext R) G) h X ys g e1 e2 : Prop := {
    sc_first : sj_input Rg s1 a1 h X ys g;
    sc_second : sj_input Rg s2 a2 (other h) X (others ys) g;
    sc_repeat : sa_repeat a2 = sa_repeat a1;
    sc_features : included a2 = included a1;
    sc_fit1 : exists out log, sj_fit xR Rg srt (scoring_metric m) e1 s1 a1 = (s1', out, log);
    sc_fit2 : exists out log, sj_fit xR Rg srt (scoring_metric m) e2 s2 a2 = (s2', out, log) }.

  Theorem C146_pairs s1 a1 s1' s2 a2 s2' h X ys g e1 e2 t1 t2 f1 f2 v1 v2 :
    scaled_runs s1 a1 s1' s2 a2 s2' h X ys g e1 e2 -> sj_ovo s1' = Some t1 -> sj_ovo s2' = Some t2 ->
    In (f1, f2, v1) t1 -> In (f1, f2, v2) t2 -> times_value (score_factor m c) v1 v2.
  Proof.
    intros [I1 I2 Er Ef (o1 & l1 & F1) (o2 & l2 & F2)] T1 T2 H1 H2.
    destruct (run_output Rg HR srt Hs _ _ _ _ _ _ _ _ _ _ _ I1 F1) as (_ & HX & u1 & fi1 & O1). destruct (run_output Rg HR srt Hs _ _ _ _ _ _ _ _ _ _ _ I2 F2) as (_ & _ & u2 & fi2 & O2).
    rewrite (so_ovo _ _ _ _ _ _ _ _ _ _ _ O1) in T1. injection T1 as ->. rewrite (so_ovo _ _ _ _ _ _ _ _ _ _ _ O2) in T2. injection T2 as ->.
    pose proof (so_values _ _ _ _ _ _ _ _ _ _ _ O1 _ H1) as V1. pose proof (so_values _ _ _ _ _ _ _ _ _ _ _ O2 _ H2) as V2. cbn [fst snd] in V1, V2. rewrite Ef, Er in V2.
    destruct V1 as (i & a & b & p1 & p2 & Hi & Hab & P1 & P2 & ->).
    rewrite (oh_pair_unique Rg m (other h) X (others ys) (sa_repeat a1) (included a1) g f1 f2 v2 (Fin (oh_statistic Rg m (other h) X (others ys) (sa_repeat a1) g p1 p2 i)) (proj1 HX) (si_distinct _ _ _ _ _ _ _ I1) V2)
      by (exists i, a, b, p1, p2; auto).
    rewrite statistic_scaled. eexists. split; reflexivity.
  Qed.

  (** the importances, if the unseeded generators start in the same state *)
  Theorem C146_importance s1 a1 s1' s2 a2 s2' h X ys g e t1 t2 f v1 v2 :
    scaled_runs s1 a1 s1' s2 a2 s2' h X ys g e e -> sj_fi s1' = Some t1 -> sj_fi s2' = Some t2 ->
    In (f, v1) t1 -> In (f, v2) t2 -> times_value (score_factor m c) v1 v2.
  Proof.
    intros [I1 I2 Er Ef (o1 & l1 & F1) (o2 & l2 & F2)] T1 T2 H1 H2.
    destruct (run_output Rg HR srt Hs _ _ _ _ _ _ _ _ _ _ _ I1 F1) as (_ & HX & u1 & fi1 & O1). destruct (run_output Rg HR srt Hs _ _ _ _ _ _ _ _ _ _ _ I2 F2) as (_ & _ & u2 & fi2 & O2).
    rewrite (so_fi _ _ _ _ _ _ _ _ _ _ _ O1) in T1. injection T1 as ->. rewrite (so_fi _ _ _ _ _ _ _ _ _ _ _ O2) in T2. injection T2 as ->.
    destruct (so_importance _ _ _ _ _ _ _ _ _ _ _ O1 _ _ H1) as (q & p & K & P & ->). destruct (so_importance _ _ _ _ _ _ _ _ _ _ _ O2 _ _ H2) as (q' & p' & K' & P' & ->). rewrite Ef in *. rewrite Er.
    rewrite <- (nth_once _ _ _ _ (si_distinct _ _ _ _ _ _ _ I1) K K'), <- (nth_once _ _ _ _ (proj1 HX) P P').
    eexists. split; [reflexivity|]. f_equal. rewrite <- loss_scaled, <- Rmean_map_mult. f_equal. apply Rmean_map_ext. intros j _. unfold shuffled_score. rewrite (score_scaled c k Hc h). reflexivity.
  Qed.

  (** pairs of different strength keep their order *)
  Theorem C146_order s1 a1 s1' s2 a2 s2' h X ys g e1 e2 t1 t2 f1 f2 g1 g2 x y w w' i j :
    scaled_runs s1 a1 s1' s2 a2 s2' h X ys g e1 e2 -> sj_ovo s1' = Some t1 -> sj_ovo s2' = Some t2 ->
    In (f1, f2, Fin x) t1 -> In (g1, g2, Fin y) t1 -> (y < x)%R ->
    nth_error t2 i = Some (f1, f2, w) -> nth_error t2 j = Some (g1, g2, w') -> i < j.
  Proof.
    intros TW T1 T2 Hf Hg Hxy Hi Hj.
    destruct (C146_pairs _ _ _ _ _ _ _ _ _ _ _ _ _ _ _ _ _ _ TW T1 T2 Hf (nth_error_In _ _ Hi)) as (b & E1 & ->).
    destruct (C146_pairs _ _ _ _ _ _ _ _ _ _ _ _ _ _ _ _ _ _ TW T1 T2 Hg (nth_error_In _ _ Hj)) as (b' & E3 & ->).
    injection E1 as <-. injection E3 as <-. assert (Hlt : (score_factor m c * y < score_factor m c * x)%R) by (apply Rmult_lt_compat_l; [apply factor_pos, Hc|exact Hxy]).
    destruct TW as [_ I2 _ _ _ (o2 & l2 & F2)]. destruct (run_output Rg HR srt Hs _ _ _ _ _ _ _ _ _ _ _ I2 F2) as (_ & _ & u2 & fi2 & O2). rewrite (so_ovo _ _ _ _ _ _ _ _ _ _ _ O2) in T2. injection T2 as ->.
    pose proof (so_sorted _ _ _ _ _ _ _ _ _ _ _ O2) as Hd. set (x' := (score_factor m c * x)%R) in *. set (y' := (score_factor m c * y)%R) in *. clearbody x' y'.
    assert (Hij : i <> j) by (intros ->; rewrite Hi in Hj; injection Hj as _ _ E; lra).
    destruct (Nat.lt_trichotomy i j) as [L|[L|L]]; [exact L|congruence|exfalso].
    clear - Hd Hi Hj Hlt L. revert i j Hi Hj L. induction Hd as [|r t Hd IH Hr]; intros i j Hi Hj L; [destruct i; discriminate|].
    destruct i as [|i]; [lia|]. destruct j as [|j]; [|apply (IH i j Hi Hj); lia]. injection Hj as ->. cbn [nth_error] in Hi. rewrite Forall_forall in Hr. specialize (Hr _ (nth_error_In _ _ Hi)). cbn [snd] in Hr.
    cbn in Hr. apply negb_true_iff, Rltb_false in Hr. lra.
  Qed.
End Scale.

(** ** Example: the product of two columns and its targets, halved and shifted; the value 2639/5 becomes a quarter of it *)
Definition sc_args (h : list Z -> R) (ys : list R) (k : nat) : sargs Z (ext R) :=
  {| sa_model := {| md_id := 0; md_proba1 := None; md_predict := Some (fun _ rows => Ok (map (fun r => Fin (h r)) rows)) |};
     sa_X := ex_X; sa_y := fin_target false [] ys; sa_n := None; sa_repeat := k; sa_features := None |}.
Lemma sc_input h ys k : 0 < k -> length ys = 5 -> sj_input rotR (sj_init (r_seed rotR 1)) (sc_args h ys k) h ex_X ys (r_seed rotR 1).
Proof.
  intros Hk Hl. constructor; [exact ex_X_wf|exists false, []; reflexivity|exact Hl|discriminate| |exact Hk| |intros f Hf; exact Hf|cbn; lia].
  - eexists. split; [reflexivity|]. split.
    + intros i rows l H. injection H as <-. reflexivity.
    + intros i rows. eexists. reflexivity.
  - apply ex_X_wf.
Qed.
Lemma sc_fit c h ys k e : 0 < k -> length ys = 5 -> exists s' log t, sj_fit xR rotR isort (scoring_metric c) e (sj_init (r_seed rotR 1)) (sc_args h ys k) = (s', Ok tt, log) /\ sj_ovo s' = Some t
  /\ In ("a", "b", Fin (oh_statistic rotR c h ex_X ys k (r_seed rotR 1) 0 1 0)) t.
Proof.
  intros Hk Hl. pose proof (sc_input h ys k Hk Hl) as Hi. destruct (sj_fit_output rotR rotR_ok isort isort_ok c _ _ h ex_X ys _ e Hi) as (s' & t & fi & log & E & _ & Ho). exists s', log, t. split; [exact E|].
  pose proof (so_ovo _ _ _ _ _ _ _ _ _ _ _ Ho) as Ht. split; [exact Ht|].
  destruct (si_model _ _ _ _ _ _ _ Hi) as (P & HP & Hrow & _).
  destruct (C25_interaction_values rotR rotR_ok isort isort_ok (scoring_metric c) e (sj_init (r_seed rotR 1)) (sc_args h ys k) s' log ex_X (fin_target false [] ys) (r_seed rotR 1) P _ (score_on c h ys)
              ex_X_wf (proj1 ex_X_wf) Hk eq_refl HP Hrow (scores_scoring c ex_X false [] ys h Hl (si_rows _ _ _ _ _ _ _ Hi)) E) as (t' & raw & Ht' & Hp & _ & Hv & _).
  rewrite Ht in Ht'. injection Ht' as <-. apply (Permutation_in _ (Permutation_sym Hp)). specialize (Hv 0 "a" "b" 0 1 eq_refl eq_refl eq_refl). apply nth_error_In in Hv. cbn [sa_repeat sc_args] in Hv.
  exact Hv.
Qed.
Example C146_example : exists s' log t, sj_fit xR rotR isort (scoring_metric ByMSE) 7 (sj_init (r_seed rotR 1)) (sc_args (fun r => rescale (1 / 2) 3 (times_r r)) (map (rescale (1 / 2) 3) oh_ys) 2) = (s', Ok tt, log)
  /\ sj_ovo s' = Some t /\ In ("a", "b", Fin (Rsqr (1 / 2) * (2639 / 5))%R) t.
Proof.
  assert (Hk : 0 < 2) by lia. assert (Hc : (1 / 2 <> 0)%R) by lra. destruct (sc_fit ByMSE times_r oh_ys 2 5 Hk eq_refl) as (s1 & l1 & t1 & F1 & T1 & V1). rewrite oh_ex in V1.
  destruct (sc_fit ByMSE (fun r => rescale (1 / 2) 3 (times_r r)) (map (rescale (1 / 2) 3) oh_ys) 2 7 Hk eq_refl) as (s2 & l2 & t2 & F2 & T2 & V2).
  exists s2, l2, t2. split; [exact F2|]. split; [exact T2|].
  assert (TW : scaled_runs rotR isort ByMSE (1 / 2) 3 (sj_init (r_seed rotR 1)) (sc_args times_r oh_ys 2) s1 (sj_init (r_seed rotR 1)) (sc_args (fun r => rescale (1 / 2) 3 (times_r r)) (map (rescale (1 / 2) 3) oh_ys) 2) s2 times_r ex_X oh_ys (r_seed rotR 1) 5 7).
  { constructor; [apply sc_input; [exact Hk|reflexivity]|apply sc_input; [exact Hk|reflexivity]|reflexivity|reflexivity|eauto|eauto]. }
  destruct (C146_pairs rotR rotR_ok isort isort_ok ByMSE (1 / 2) 3 Hc _ _ _ _ _ _ _ _ _ _ _ _ _ _ _ _ _ _ TW T1 T2 V1 V2) as (y & E1 & E2). injection E1 as <-. rewrite E2 in V2. exact V2.
Qed.

Print Assumptions C146_pairs.
Print Assumptions C146_importance.
Print Assumptions C146_order.
