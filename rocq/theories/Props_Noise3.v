(** C147: the performance based method and the permutation importance with a model that answers
    differently every time.  C25, C31, C115 and C145 assume a model that predicts row by row. *)
From Verif Require Props_Split.
From Verif Require Import Py Num NumR Sorting Frame Rng PdCalc PdSpec PdFacts PdProofs PdTheorems PdErrors PdApi PdMethods MethodSpec
  PdMethodFacts PdMethodRun PdMethodReal PdMethodReal2 GreenwellFacts Props_Pd Props_Methods Props_Methods2 Perm ForestFacts PermFacts PermRun PermAny Props_Perm Props_EndToEnd Props_EndToEnd2 Props_Visual3 PdAny Props_Any Props_Terms Props_Stable Props_Accuracy Props_Accuracy3 Props_Stable3.
From Coq Require Import ZArith Reals Lra Lia.
Open Scope string_scope.
Open Scope nat_scope.
Open Scope list_scope.
Notation rearranged := PermFacts.rearranged.
Notation included := Props_Perm.included.
Notation within := Props_Any.within.

(** ** Specification *)
(** whatever the model answers to a table of the size of the data whose cells occur in their
    columns, one number per row, the score of the answer is within [gap] of the score of [h] *)
Definition answers_near {C} (c : scoring) (P : nat -> list (list C) -> result (list (ext R))) (X : frame C) (ys : list R) (gap : R) (h : list C -> R) : Prop :=
  forall n rs zs, length rs = length (f_rows X) -> (forall r, In r rs -> made_of (f_rows X) (length (f_cols X)) r) -> P n rs = Ok zs ->
    exists ks, zs = map Fin ks /\ length ks = length rs /\ (Rabs (score_value c ys ks - score_on c h ys rs) <= gap)%R.

(** the input of [fit]: as for [sj_input], but the model need not predict row by row *)
Record noisy_input {C G} (Rg : rng_ops G) c (s : Perm.sstate C (ext R) G) (a : sargs C (ext R)) P (h : list C -> R) (X : frame C) (ys : list R) (g : G) (gap : R) : Prop := {
  ni_frame : wf_frame (sa_X a);
  ni_sample : exists b idx, sample_both Rg (sj_rng s) (sa_X a) (sa_y a) (sa_n a) = Ok (X, fin_target b idx ys, g);
  ni_target : length ys = length (f_rows X);
  ni_rows : f_rows X <> [];
  ni_model : md_predict (sa_model a) = Some P;
  ni_near : answers_near c P X ys gap h;
  ni_repeat : 0 < sa_repeat a;
  ni_distinct : NoDup (included a);
  ni_columns : forall f, In f (included a) -> In f (f_cols (sa_X a));
  ni_two : 2 <= length (included a) }.

Lemma scoring_fin c b idx ys ks : ys <> [] -> length ys = length ks -> mt_calc (scoring_metric c) (fin_target b idx ys) (map Fin ks) = Ok (Fin (score_value c ys ks)).
Proof. intros Hne Hl. destruct c; [apply C33_mse|apply C33_rmse|apply C33_accuracy]; assumption. Qed.

(** ** Metrics: answers within [eps] of a function of the row *)
Section Metrics.
  Open Scope R_scope.
  Context {C : Type} (X : frame C) (HX : wf_frame X) (Hne : f_rows X <> []) (ys : list R) (Hl : length ys = length (f_rows X))
          (P : nat -> list (list C) -> result (list (ext R))) (h : list C -> R) (eps : R) (He : 0 <= eps) (Hh : noisy P h eps).

  Lemma noisy_answers n rs zs : P n rs = Ok zs -> exists ks, zs = map Fin ks /\ length ks = length rs /\ forall p, In p (combine rs ks) -> Rabs (snd p - h (fst p)) <= eps.
  Proof.
    intros E. pose proof (Hh _ _ _ E) as F. clear E. induction F as [|r z rs zs (k & -> & Hk) F (ks & -> & Hks & IH)]; [exists []; split; [reflexivity|]; split; [reflexivity|intros p []]|].
    exists (k :: ks). split; [reflexivity|]. split; [cbn; congruence|]. intros p [<-|Hp]; [exact Hk|apply IH, Hp].
  Qed.
  (** the answers and the predictions of [h] as two functions on one list *)
  Lemma paired (rs : list (list C)) (ks : list R) : length ks = length rs -> length ys = length rs ->
    let l := combine ys (combine rs ks) in
    combine ys (map h rs) = map (fun p => (fst p, h (fst (snd p)))) l /\ combine ys ks = map (fun p => (fst p, snd (snd p))) l.
  Proof.
    clear. cbv zeta. revert rs ks. induction ys as [|y t IH]; intros [|r rs] [|k ks] H1 H2; try discriminate; [split; reflexivity|].
    cbn in H1, H2. injection H1 as H1. injection H2 as H2. destruct (IH rs ks H1 H2) as [E1 E2]. cbn [combine map fst snd]. rewrite E1, E2. split; reflexivity.
  Qed.
  Lemma paired_ne (rs : list (list C)) (ks : list R) : length ks = length rs -> length rs = length (f_rows X) -> combine ys (combine rs ks) <> [].
  Proof.
    intros H1 H2 E. apply (f_equal (@length _)) in E. rewrite !combine_length, H1, Hl, H2, !Nat.min_id in E. destruct (f_rows X); [congruence|discriminate].
  Qed.

  Theorem C147_rmse : answers_near ByRMSE P X ys eps h.
  Proof.
    intros n rs zs Hr _ E. destruct (noisy_answers n rs zs E) as (ks & -> & Hk & D). exists ks. split; [reflexivity|]. split; [exact Hk|].
    destruct (paired rs ks Hk ltac:(congruence)) as [E1 E2]. unfold score_on, score_value, Rmse. rewrite E1, E2, !map_map. cbn [fst snd].
    apply (root_mean_close _ (paired_ne rs ks Hk Hr) (fun p => snd (snd p) - fst p) (fun p => h (fst (snd p)) - fst p)); [exact He|].
    intros [y [r k]] Hin. cbn [fst snd]. replace (k - y - (h r - y)) with (k - h r) by ring. exact (D (r, k) (in_combine_r _ _ _ _ Hin)).
  Qed.
  Theorem C147_mse M : misses_at_most X ys M h -> answers_near ByMSE P X ys (eps * (2 * M + eps)) h.
  Proof.
    intros HM n rs zs Hr Hm E. destruct (noisy_answers n rs zs E) as (ks & -> & Hk & D). exists ks. split; [reflexivity|]. split; [exact Hk|].
    destruct (paired rs ks Hk ltac:(congruence)) as [E1 E2]. unfold score_on, score_value, Rmse. rewrite E1, E2, !map_map. cbn [fst snd].
    apply (mean_close _ (paired_ne rs ks Hk Hr) (fun p => Rsqr (snd (snd p) - fst p)) (fun p => Rsqr (h (fst (snd p)) - fst p))).
    intros [y [r k]] Hin. cbn [fst snd]. pose proof (D (r, k) (in_combine_r _ _ _ _ Hin)) as D1. cbn [fst snd] in D1.
    assert (Hin2 : In r rs) by (eapply in_combine_l, (in_combine_r _ _ _ _ Hin)). pose proof (HM r y (Hm r Hin2) (in_combine_l _ _ _ _ Hin)) as K.
    replace (Rsqr (k - y) - Rsqr (h r - y)) with ((k - h r) * (2 * (h r - y) + (k - h r))) by (unfold Rsqr; ring).
    rewrite Rabs_mult. apply Rmult_le_compat; [apply Rabs_pos|apply Rabs_pos|exact D1|]. eapply Rle_trans; [apply Rabs_triang|]. rewrite Rabs_mult, (Rabs_pos_eq 2) by lra. lra.
  Qed.
End Metrics.

(** ** Values *)
Lemma means_near {A} (l : list A) (f : A -> R) (u : A -> ext R) gap : l <> [] -> (forall a, In a l -> within (f a) gap (u a)) ->
  exists y, np_mean xR (map u l) = Fin y /\ (Rabs (y - Rmean (map f l)) <= gap)%R /\ ((forall a, In a l -> exists q, u a = Fin q /\ (0 <= q)%R) -> (0 <= y)%R).
Proof.
  intros Hne H. set (k := fun a => match u a with Fin x => x | _ => 0%R end).
  assert (Ek : map u l = map Fin (map k l)) by (rewrite map_map; apply map_ext_in; intros a Ha; unfold k; destruct (H a Ha) as (x & -> & _); reflexivity).
  exists (Rmean (map k l)). split; [rewrite Ek; apply xR_mean_fin; destruct l; [congruence|discriminate]|].
  split.
  - apply mean_close; [exact Hne|]. intros a Ha. unfold k. destruct (H a Ha) as (x & -> & Hx). exact Hx.
  - intros Hq. apply Rmean_nonneg. intros x Hx. apply in_map_iff in Hx as (a & <- & Ha). unfold k. destruct (Hq a Ha) as (q & -> & H0). exact H0.
Qed.

Section Values.
  Context {C G : Type} (Rg : rng_ops G) (HR : rng_ok Rg) (srt : sorter) (Hs : sorter_ok srt) (c : scoring).

  Section OneData.
    Context (P : nat -> list (list C) -> result (list (ext R))) (X : frame C) (HX : wf_frame X) (Hne : f_rows X <> []) (b : bool) (idx : list Z) (ys : list R)
            (Hl : length ys = length (f_rows X)) (gap : R) (h : list C -> R) (HA : answers_near c P X ys gap h).
    Notation rows := (f_rows X).
    Notation len := (length (f_rows X)).
    Notation m := (scoring_metric c).
    Notation y := (fin_target b idx ys).

    Definition near_score (rs : list (list C)) (v : ext R) : Prop :=
      length rs = len -> (forall r, In r rs -> made_of rows (length (f_cols X)) r) -> within (score_on c h ys rs) gap v.
    Lemma answers_judged n rs zs v : P n rs = Ok zs -> mt_calc m y zs = Ok v -> near_score rs v.
    Proof.
      intros E Hv Hr Hm. destruct (HA n rs zs Hr Hm E) as (ks & -> & Hk & D). assert (Hy : ys <> []) by (destruct ys; [|discriminate]; destruct rows; [congruence|discriminate]).
      rewrite scoring_fin in Hv by (congruence || exact Hy). injection Hv as <-. exists (score_value c ys ks). split; [reflexivity|exact D].
    Qed.
    Lemma near_data v : near_score rows v -> within (score_on c h ys rows) gap v.
    Proof. intros H. apply H; [reflexivity|]. intros r Hr. apply (made_row rows _ (wf_rows X HX)), Hr. Qed.
    Lemma near_shuffled g sel i v : near_score (rearranged rows sel (nth_perm Rg len g i)) v -> within (shuffled_score Rg c h X ys g sel i) gap v.
    Proof. intros H. apply H; [apply rearranged_length, nth_perm_ok, HR|]. apply made_rearranged, (wf_rows X HX). Qed.

    Lemma bounds x e : (Rabs x <= e -> - e <= x <= e)%R.
    Proof. unfold Rabs; destruct (Rcase_abs x); lra. Qed.

    Lemma any_repetition_near g k1 k2 ref d v : within (score_on c h ys rows) gap ref -> any_repetition xR Rg X m near_score g k1 k2 ref d v ->
      within (Rabs (shuffled_score Rg c h X ys g [k1; k2] (d + 2) - shuffled_score Rg c h X ys g [k1] d - shuffled_score Rg c h X ys g [k2] (d + 1) + score_on c h ys rows)) (4 * gap) (n_abs xR v)
      /\ exists q, n_abs xR v = Fin q /\ (0 <= q)%R.
    Proof.
      intros (x0 & -> & K0) (u1 & u2 & u12 & H1 & H2 & H12 & ->).
      apply near_shuffled in H1 as (x1 & -> & K1). apply near_shuffled in H2 as (x2 & -> & K2). apply near_shuffled in H12 as (x12 & -> & K12).
      replace (d + 2) with (S (S d)) by lia. replace (d + 1) with (S d) by lia.
      set (a0 := score_on c h ys _) in *. set (a1 := shuffled_score Rg c h X ys g [k1] _) in *. set (a2 := shuffled_score Rg c h X ys g [k2] _) in *. set (a12 := shuffled_score Rg c h X ys g [k1; k2] _) in *.
      fold a1 in K1. fold a2 in K2. fold a12 in K12. match goal with |- within _ _ ?z /\ _ => assert (Ez : z = Fin (Rabs (x12 - x1 - x2 + x0))) end.
      { unfold neg_if_class. destruct (applicable_to m Classification); cbn [n_neg n_sub xR ext_ops x_neg x_sub f_neg f_sub baseR]; rewrite xR_abs_fin; do 2 f_equal; lra. }
      rewrite Ez. split; [|eexists; split; [reflexivity|apply Rabs_pos]]. exists (Rabs (x12 - x1 - x2 + x0)). split; [reflexivity|].
      eapply Rle_trans; [apply Rabs_triang_inv2|]. apply Rabs_le. apply bounds in K0, K1, K2, K12. lra.
    Qed.

    Lemma any_pair_row_near g n ref i pr row : 0 < n -> within (score_on c h ys rows) gap ref -> any_pair_row xR Rg X m near_score g n ref (3 * n * i) pr row ->
      exists k1 k2 v, nth_error (f_cols X) k1 = Some (fst pr) /\ nth_error (f_cols X) k2 = Some (snd pr) /\ row = (fst pr, snd pr, v)
        /\ exists y, v = Fin y /\ (Rabs (y - oh_statistic Rg c h X ys n g k1 k2 i) <= 4 * gap)%R /\ (0 <= y)%R.
    Proof.
      intros Hn Href (k1 & k2 & vs & H1 & H2 & Hv & Hj & ->). exists k1, k2, (np_mean xR vs). split; [exact H1|]. split; [exact H2|]. split; [reflexivity|].
      assert (Evs : vs = map (fun j => nth j vs NaN) (seq 0 n)) by (rewrite <- Hv; apply list_as_map). rewrite Evs. unfold oh_statistic.
      match goal with |- exists y, _ /\ (Rabs (y - Rmean (map ?f _)) <= _)%R /\ _ => destruct (means_near (seq 0 n) f (fun j => nth j vs NaN) (4 * gap)%R) as (z & Ez & Dz & Nz) end; [destruct n; [lia|discriminate]| |].
      - intros j Hin. apply in_seq in Hin. destruct (Hj j ltac:(lia)) as (v & Hr & E). rewrite (nth_error_nth _ _ _ E). cbv zeta.
        replace (3 * j + 3 * n * i) with (3 * n * i + 3 * j) in Hr by lia. exact (proj1 (any_repetition_near _ _ _ _ _ _ Href Hr)).
      - exists z. split; [exact Ez|]. split; [exact Dz|]. apply Nz. intros j Hin. apply in_seq in Hin. destruct (Hj j ltac:(lia)) as (v & Hr & E). rewrite (nth_error_nth _ _ _ E).
        exact (proj2 (any_repetition_near _ _ _ _ _ _ Href Hr)).
    Qed.
  End OneData.

  (** the fit returns when the model answers every table *)
  Theorem C147_returns e (s : Perm.sstate C (ext R) G) (a : sargs C (ext R)) P h X ys g gap : noisy_input Rg c s a P h X ys g gap -> total P ->
    exists s' log, sj_fit xR Rg srt (scoring_metric c) e s a = (s', Ok tt, log).
  Proof.
    intros [Hf (b & idx & Hsmp) Hl Hr HP HA Hrep Hd Hcol H2] HT. destruct (sample_both_frame Rg HR _ _ _ _ _ _ _ Hf Hsmp) as (_ & HX & Hcols).
    unfold sj_fit. rewrite Hsmp, HP. fold (included a). cbv zeta. rewrite <- Hcols in Hcol.
    set (made := fun rs : list (list C) => length rs = length (f_rows X) /\ forall r, In r rs -> made_of (f_rows X) (length (f_cols X)) r).
    assert (M0 : made (f_rows X)) by (split; [reflexivity|]; intros r Hin; apply (made_row (f_rows X) _ (wf_rows X HX)), Hin).
    assert (M1 : forall sel p, Permutation p (seq 0 (length (f_rows X))) -> made (rearranged (f_rows X) sel p)).
    { intros sel p Hp. split; [apply rearranged_length, Hp|]. intros r Hin. exact (made_rearranged (f_rows X) _ (wf_rows X HX) sel p r Hin). }
    assert (Hy : ys <> []) by (destruct ys; [|discriminate]; destruct (f_rows X); [congruence|discriminate]).
    assert (HM : forall n rs zs, made rs -> P n rs = Ok zs -> exists u, mt_calc (scoring_metric c) (fin_target b idx ys) zs = Ok u).
    { intros n rs zs [A B] E. destruct (HA n rs zs A B E) as (ks & -> & Hk & _). eexists. apply scoring_fin; [exact Hy|congruence]. }
    destruct (any_succ_ovo xR Rg HR srt P HT X HX (scoring_metric c) (fin_target b idx ys) made M0 M1 HM (combinations2 (included a)) (sa_repeat a)) with (s := {| p_log := @nil (list (list C)); p_rng := g |}) as (s1 & t & E1 & _).
    { intros [f1 f2] Hpr. pose proof (combinations2_In _ _ Hpr) as []. pose proof (combinations2_irrefl _ _ _ Hd Hpr). cbn [fst snd] in *. auto. }
    rewrite E1.
    destruct (any_succ_importance xR Rg HR srt P HT X HX (scoring_metric c) (fin_target b idx ys) made M0 M1 HM (included a) (sa_repeat a)) with (s := {| p_log := p_log s1; p_rng := e |}) as (s2 & fi & E2 & _); [intros E; rewrite E in H2; cbn in H2; lia|exact Hcol|].
    rewrite E2. eauto.
  Qed.

  Lemma pairs_near e (s : Perm.sstate C (ext R) G) (a : sargs C (ext R)) P h X ys g gap s' log t f1 f2 v : noisy_input Rg c s a P h X ys g gap ->
    sj_fit xR Rg srt (scoring_metric c) e s a = (s', Ok tt, log) -> sj_ovo s' = Some t -> In (f1, f2, v) t ->
    exists v0, oh_pair Rg c h X ys (sa_repeat a) (included a) g f1 f2 v0 /\ exists z x, v0 = Fin z /\ v = Fin x /\ (Rabs (x - z) <= 4 * gap)%R /\ (0 <= x)%R.
  Proof.
    intros [Hf (b & idx & Hsmp) Hl Hr HP HA Hrep Hd Hcol H2] H Ht Hin. destruct (sample_both_frame Rg HR _ _ _ _ _ _ _ Hf Hsmp) as (_ & HX & Hcols).
    destruct (sj_fit_inv xR Rg srt (scoring_metric c) e s a s' log X _ g Hsmp H) as (s1 & s2 & t' & fi & E1 & _ & Ht' & _). rewrite HP in E1. rewrite Ht in Ht'. injection Ht' as <-.
    assert (Hprs : forall pr, In pr (combinations2 (included a)) -> In (fst pr) (f_cols X) /\ In (snd pr) (f_cols X) /\ fst pr <> snd pr).
    { intros [u1 u2] Hpr. destruct (combinations2_In _ _ Hpr) as [A B]. pose proof (combinations2_irrefl _ _ _ Hd Hpr). cbn [fst snd] in *. rewrite Hcols. auto. }
    destruct (any_ovo_inv xR Rg HR srt P X HX (scoring_metric c) _ (near_score X ys gap h) (answers_judged P X Hr b idx ys Hl gap h HA) _ _ g {| p_log := []; p_rng := g |} _ _
                Hprs eq_refl E1) as (ref & raw & Href & -> & Hlr & Hraw).
    apply near_data in Href; [|exact HX]. apply (Permutation_in _ (proj1 (sort_values_ok xR srt false _ raw Hs xR_ord))) in Hin. apply In_nth_error in Hin as (i & Hi).
    assert (Hli : i < length (combinations2 (included a))) by (rewrite <- Hlr; apply nth_error_Some; congruence).
    destruct (nth_error (combinations2 (included a)) i) as [pr|] eqn:Epr; [|apply nth_error_None in Epr; lia].
    destruct (Hraw i pr Epr) as (row & Hrow & Hpr). rewrite Hi in Hrow. injection Hrow as <-.
    destruct (any_pair_row_near X HX ys Hl gap h g _ ref i pr _ Hrep Href Hpr) as (k1 & k2 & v' & K1 & K2 & Erow & y & -> & D & Ny). injection Erow as E1' E2' ->. subst f1 f2.
    exists (Fin (oh_statistic Rg c h X ys (sa_repeat a) g k1 k2 i)). split; [exists i, (fst pr), (snd pr), k1, k2; rewrite Epr; destruct pr; cbn [fst snd]; auto|].
    eexists _, _. split; [reflexivity|]. split; [reflexivity|]. split; [exact D|exact Ny].
  Qed.

  (** every pair value is within four times the gap of the statistic of [h] *)
  Theorem C147_pairs e (s : Perm.sstate C (ext R) G) (a : sargs C (ext R)) P h X ys g gap s' log t f1 f2 v : noisy_input Rg c s a P h X ys g gap ->
    sj_fit xR Rg srt (scoring_metric c) e s a = (s', Ok tt, log) -> sj_ovo s' = Some t -> In (f1, f2, v) t ->
    exists v0, oh_pair Rg c h X ys (sa_repeat a) (included a) g f1 f2 v0 /\ values_close (4 * gap) v0 v.
  Proof.
    intros Hi H Ht Hin. destruct (pairs_near e s a P h X ys g gap s' log t f1 f2 v Hi H Ht Hin) as (v0 & O & z & x & -> & -> & D & _).
    eexists. split; [exact O|]. eexists _, _. split; [reflexivity|]. split; [reflexivity|exact D].
  Qed.

  (** every importance is within twice the gap of that of [h] *)
  Theorem C147_importance e (s : Perm.sstate C (ext R) G) (a : sargs C (ext R)) P h X ys g gap s' log fi f v : noisy_input Rg c s a P h X ys g gap ->
    sj_fit xR Rg srt (scoring_metric c) e s a = (s', Ok tt, log) -> sj_fi s' = Some fi -> In (f, v) fi ->
    exists v0, oh_importance Rg c h X ys (sa_repeat a) (included a) e f v0 /\ values_close (2 * gap) v0 v.
  Proof.
    intros [Hf (b & idx & Hsmp) Hl Hr HP HA Hrep Hd Hcol H2] H Ht Hin. destruct (sample_both_frame Rg HR _ _ _ _ _ _ _ Hf Hsmp) as (_ & HX & Hcols).
    destruct (sj_fit_inv xR Rg srt (scoring_metric c) e s a s' log X _ g Hsmp H) as (s1 & s2 & t' & fi' & _ & E2 & _ & Hfi & _). rewrite HP in E2. rewrite Ht in Hfi. injection Hfi as <-.
    destruct (any_importance_inv xR Rg HR srt P X HX (scoring_metric c) _ (near_score X ys gap h) (answers_judged P X Hr b idx ys Hl gap h HA) (included a) (sa_repeat a) e {| p_log := p_log s1; p_rng := e |} s2 fi eq_refl E2) as (base & vf & Hb & -> & Hk).
    apply near_data in Hb; [|exact HX]. destruct Hb as (x0 & -> & K0).
    apply (Permutation_in _ (proj1 (sort_values_ok xR srt false _ _ Hs xR_ord))) in Hin. apply in_map_iff in Hin as (f' & E & Hf'). pose proof (f_equal fst E) as Ea. pose proof (f_equal snd E) as Eb. cbn [fst snd] in Ea, Eb. subst f' v. clear E.
    apply (proj1 (dedup_In f (included a))) in Hf'. pose proof (Hcol f Hf') as Hfc. rewrite <- Hcols in Hfc. apply In_nth_error in Hf' as (k & Hk0). apply In_nth_error in Hfc as (p & Hp).
    exists (Fin (loss c h X ys (Rmean (map (fun j => shuffled_score Rg c h X ys e [p] (j * length (included a) + k)) (seq 0 (sa_repeat a)))))). split; [exists k, p; auto|].
    destruct (means_near (shuffles (included a) (sa_repeat a) f) (shuffled_score Rg c h X ys e [p]) vf gap) as (z & Ez & Hz & _).
    - rewrite (shuffles_seq _ _ _ _ Hd Hk0). destruct (sa_repeat a); [lia|discriminate].
    - intros i Hi. destruct (Hk f i Hi) as (p' & Hp' & Hsc). rewrite (nth_once _ _ _ _ (proj1 HX) Hp Hp'). apply near_shuffled in Hsc; [exact Hsc|exact HX].
    - rewrite Ez. rewrite (shuffles_seq _ _ _ _ Hd Hk0), map_map in Hz. eexists _, (match c with ByAccuracy => - (z - x0) | _ => z - x0 end)%R. split; [reflexivity|]. split; [unfold neg_if_class; destruct c; reflexivity|].
      set (q := Rmean _) in *. unfold loss. apply bounds in K0, Hz. apply Rabs_le. destruct c; lra.
  Qed.

  (** a feature that [h] ignores has an importance of at most twice the gap *)
  Theorem C147_unused e (s : Perm.sstate C (ext R) G) (a : sargs C (ext R)) P h X ys g gap s' log fi f p v : noisy_input Rg c s a P h X ys g gap ->
    sj_fit xR Rg srt (scoring_metric c) e s a = (s', Ok tt, log) -> sj_fi s' = Some fi -> In (f, v) fi ->
    nth_error (f_cols X) p = Some f -> unaffected (length (f_cols X)) (fun r => Fin (h r)) p -> within 0 (2 * gap) v.
  Proof.
    intros Hi H Ht Hin Hp U. destruct (C147_importance e s a P h X ys g gap s' log fi f v Hi H Ht Hin) as (v0 & (k & p' & Hk & Hp' & ->) & x & x' & E1 & -> & D). injection E1 as <-.
    pose proof Hi as [Hf (b & idx & Hsmp) Hl Hr _ _ Hrep _ _ _]. destruct (sample_both_frame Rg HR _ _ _ _ _ _ _ Hf Hsmp) as (_ & HX & Hcols).
    rewrite <- (nth_once _ _ _ _ (proj1 HX) Hp Hp') in D. exists x'. split; [reflexivity|].
    assert (E : forall i, shuffled_score Rg c h X ys e [p] i = score_on c h ys (f_rows X)).
    { intros i. unfold shuffled_score. apply (score_unaffected (scoring_metric c) X (fin_target b idx ys) (fun r => Fin (h r)) (score_on c h ys) [p]); [exact HX|apply scores_scoring; assumption|apply nth_perm_ok, HR|]. intros q [<-|[]]. exact U. }
    rewrite (map_ext _ (fun _ => score_on c h ys (f_rows X))) in D by (intros j; apply E). rewrite Rmean_map_const in D by (destruct (sa_repeat a); [lia|discriminate]).
    replace (loss c h X ys (score_on c h ys (f_rows X))) with 0%R in D by (unfold loss; destruct c; lra). exact D.
  Qed.

  (** two pairs whose statistics are further apart than eight times the gap are listed in the right order *)
  Theorem C147_order e (s : Perm.sstate C (ext R) G) (a : sargs C (ext R)) P h X ys g gap s' log t f1 f2 g1 g2 x y w w' i j : noisy_input Rg c s a P h X ys g gap ->
    sj_fit xR Rg srt (scoring_metric c) e s a = (s', Ok tt, log) -> sj_ovo s' = Some t ->
    oh_pair Rg c h X ys (sa_repeat a) (included a) g f1 f2 (Fin x) -> oh_pair Rg c h X ys (sa_repeat a) (included a) g g1 g2 (Fin y) -> (y + 8 * gap < x)%R ->
    nth_error t i = Some (f1, f2, w) -> nth_error t j = Some (g1, g2, w') -> i < j.
  Proof.
    intros Hi H Ht Of Og Hxy Ei Ej.
    pose proof Hi as [Hf (b & idx & Hsmp) Hl Hr HP HA Hrep Hd Hcol H2]. destruct (sample_both_frame Rg HR _ _ _ _ _ _ _ Hf Hsmp) as (_ & HX & Hcols).
    destruct (pairs_near e s a P h X ys g gap s' log t f1 f2 w Hi H Ht (nth_error_In _ _ Ei)) as (u & Ou & z & x' & -> & -> & D1 & _).
    destruct (pairs_near e s a P h X ys g gap s' log t g1 g2 w' Hi H Ht (nth_error_In _ _ Ej)) as (u & Ou' & z' & y' & -> & -> & D2 & Hy').
    pose proof (oh_pair_unique _ _ _ _ _ _ _ _ _ _ _ _ (proj1 HX) Hd Of Ou) as E1. injection E1 as <-. pose proof (oh_pair_unique _ _ _ _ _ _ _ _ _ _ _ _ (proj1 HX) Hd Og Ou') as E1. injection E1 as <-.
    apply bounds in D1, D2. assert (Hlt : (y' < x')%R) by lra.
    destruct (sj_fit_inv xR Rg srt (scoring_metric c) e s a s' log X _ g Hsmp H) as (s1 & s2 & t' & fi & E0 & _ & Ht' & _). rewrite Ht in Ht'. injection Ht' as <-.
    assert (Hst : exists raw, t = sort_values xR srt false (fun r : string * string * ext R => n_abs xR (snd r)) raw).
    { unfold perf_based_ovo in E0. apply andthen_inv in E0 as (q & r0 & _ & E0). apply andthen_inv in E0 as (q' & raw & _ & E0). exists raw. unfold ret in E0. congruence. }
    destruct Hst as (raw & Hst). destruct (sort_values_ok xR srt false (fun r : string * string * ext R => n_abs xR (snd r)) raw Hs xR_ord) as [_ Hst']. rewrite <- Hst in Hst'. clear Hst.
    assert (Hij : i <> j) by (intros ->; rewrite Ei in Ej; injection Ej as _ _ E; lra).
    destruct (Nat.lt_trichotomy i j) as [L|[L|L]]; [exact L|congruence|exfalso].
    clear - Hst' Ei Ej Hlt L Hy'. revert i j Ei Ej L. induction Hst' as [|r t Hd IH Hr]; intros i j Ei Ej L; [destruct i; discriminate|].
    destruct i as [|i]; [lia|]. destruct j as [|j]; [|apply (IH i j Ei Ej); lia]. injection Ej as ->. cbn [nth_error] in Ei. rewrite Forall_forall in Hr. specialize (Hr _ (nth_error_In _ _ Ei)). cbn [snd] in Hr.
    rewrite !xR_abs_fin, !Rabs_pos_eq in Hr by lra. cbn in Hr. apply negb_true_iff, Rltb_false in Hr. lra.
  Qed.

  (** two fits that ask the generator for the same draws: the values of a pair differ by at most eight times the gap *)
  Theorem C147_repeated e1 e2 (s1 s2 : Perm.sstate C (ext R) G) (a1 a2 : sargs C (ext R)) P1 P2 h X ys g gap s1' s2' l1 l2 t1 t2 f1 f2 v1 v2 :
    noisy_input Rg c s1 a1 P1 h X ys g gap -> noisy_input Rg c s2 a2 P2 h X ys g gap -> sa_repeat a2 = sa_repeat a1 -> included a2 = included a1 ->
    sj_fit xR Rg srt (scoring_metric c) e1 s1 a1 = (s1', Ok tt, l1) -> sj_fit xR Rg srt (scoring_metric c) e2 s2 a2 = (s2', Ok tt, l2) ->
    sj_ovo s1' = Some t1 -> sj_ovo s2' = Some t2 -> In (f1, f2, v1) t1 -> In (f1, f2, v2) t2 -> values_close (8 * gap) v1 v2.
  Proof.
    intros I1 I2 Er Ef F1 F2 T1 T2 H1 H2. destruct (C147_pairs _ _ _ _ _ _ _ _ _ _ _ _ _ _ _ I1 F1 T1 H1) as (u & Ou & z & x & -> & -> & D1). destruct (C147_pairs _ _ _ _ _ _ _ _ _ _ _ _ _ _ _ I2 F2 T2 H2) as (u & Ou' & z' & x' & -> & -> & D2).
    rewrite Er, Ef in Ou'. pose proof I1 as [Hf (b & idx & Hsmp) _ _ _ _ _ Hd _ _]. destruct (sample_both_frame Rg HR _ _ _ _ _ _ _ Hf Hsmp) as (_ & HX & _).
    pose proof (oh_pair_unique _ _ _ _ _ _ _ _ _ _ _ _ (proj1 HX) Hd Ou Ou') as E1. injection E1 as <-. eexists _, _. split; [reflexivity|]. split; [reflexivity|]. apply bounds in D1, D2. apply Rabs_le. lra.
  Qed.
End Values.

(** ** Example: the product of two columns, answered 1/5 too high and 1/5 too low in turn *)
Definition wavering (n : nat) (rows : list (list Z)) : result (list (ext R)) := Ok (map (fun r => Fin (times_r r + (if Nat.even n then 1 / 5 else - (1 / 5))))%R rows).
Definition wavering_args : sargs Z (ext R) :=
  {| sa_model := {| md_id := 0; md_proba1 := None; md_predict := Some wavering |}; sa_X := ex_X; sa_y := fin_target false [] oh_ys; sa_n := None; sa_repeat := 2; sa_features := None |}.
Lemma wavering_noisy : noisy wavering times_r (1 / 5).
Proof.
  intros n rs zs E. injection E as <-. induction rs as [|r t IH]; constructor; [|exact IH]. eexists. split; [reflexivity|].
  destruct (Nat.even n); apply Rabs_le; lra.
Qed.
Lemma wavering_input : noisy_input rotR ByMSE (sj_init (r_seed rotR 1)) wavering_args wavering times_r ex_X oh_ys (r_seed rotR 1) (1 / 5 * (2 * 100 + 1 / 5)).
Proof.
  constructor; [exact ex_X_wf|exists false, []; reflexivity|reflexivity|discriminate|reflexivity| |cbn; lia|apply ex_X_wf|intros f Hf; exact Hf|cbn; lia].
  apply C147_mse; [discriminate|reflexivity|apply wavering_noisy|apply times_misses].
Qed.
Example C147_example : exists s' log t r v, sj_fit xR rotR isort (scoring_metric ByMSE) 7 (sj_init (r_seed rotR 1)) wavering_args = (s', Ok tt, log) /\ sj_ovo s' = Some t
  /\ In r t /\ Props_Split.about "a" "b" r /\ snd r = Fin v /\ (367 < v < 689)%R.
Proof.
  destruct (C147_returns rotR rotR_ok isort ByMSE 7 _ _ _ _ _ _ _ _ wavering_input ltac:(intros n rs; eexists; reflexivity)) as (s' & log & F).
  destruct (sj_tables xR rotR isort isort_ok xR_ord (scoring_metric ByMSE) 7 _ _ s' log F) as (t & fi & Et & _ & HL & _).
  destruct (lists_pairs_all _ t "a" "b" HL (or_introl eq_refl) (or_intror (or_introl eq_refl)) ltac:(discriminate)) as ([[f1 f2] v] & HV & Hab).
  destruct (C147_pairs rotR rotR_ok isort isort_ok ByMSE 7 _ _ _ _ _ _ _ _ _ _ _ _ _ _ wavering_input F Et HV) as (v0 & O0 & x & x' & -> & -> & D).
  assert (O1 : oh_pair rotR ByMSE times_r ex_X oh_ys 2 ["a"; "b"] (r_seed rotR 1) f1 f2 (Fin (2639 / 5)%R)).
  { exists 0, "a", "b", 0, 1. split; [reflexivity|]. split; [destruct Hab as [[A B]|[A B]]; cbn [fst snd] in A, B; auto|]. split; [reflexivity|]. split; [reflexivity|]. rewrite oh_ex. reflexivity. }
  assert (E : Fin (2639 / 5)%R = Fin x) by exact (oh_pair_unique rotR ByMSE times_r ex_X oh_ys 2 ["a"; "b"] (r_seed rotR 1) f1 f2 _ _ (proj1 ex_X_wf) (proj1 ex_X_wf) O1 O0). injection E as <-.
  exists s', log, t, (f1, f2, Fin x'), x'. split; [exact F|]. split; [exact Et|]. split; [exact HV|]. split; [exact Hab|]. split; [reflexivity|]. revert D. unfold Rabs. destruct (Rcase_abs _); lra.
Qed.
(** a model that uses only the first column, with the same noise: the importance of the second *)
Definition first_r (r : list Z) : R := IZR (nth 0 r 0%Z).
Definition wavering_first (n : nat) (rows : list (list Z)) : result (list (ext R)) := Ok (map (fun r => Fin (first_r r + (if Nat.even n then 1 / 5 else - (1 / 5))))%R rows).
Definition wavering_first_args : sargs Z (ext R) :=
  {| sa_model := {| md_id := 0; md_proba1 := None; md_predict := Some wavering_first |}; sa_X := ex_X; sa_y := fin_target false [] oh_ys; sa_n := None; sa_repeat := 3; sa_features := None |}.
Example C147_unused_example : exists s' log fi v, sj_fit xR rotR isort (scoring_metric ByRMSE) 7 (sj_init (r_seed rotR 1)) wavering_first_args = (s', Ok tt, log) /\ sj_fi s' = Some fi
  /\ In ("b", v) fi /\ within 0 (2 * (1 / 5)) v.
Proof.
  assert (Hi : noisy_input rotR ByRMSE (sj_init (r_seed rotR 1)) wavering_first_args wavering_first first_r ex_X oh_ys (r_seed rotR 1) (1 / 5)).
  { constructor; [exact ex_X_wf|exists false, []; reflexivity|reflexivity|discriminate|reflexivity| |cbn; lia|apply ex_X_wf|intros f Hf; exact Hf|cbn; lia].
    apply C147_rmse; [discriminate|reflexivity|lra|]. intros n rs zs E. injection E as <-. induction rs as [|r t IH]; constructor; [|exact IH]. eexists. split; [reflexivity|].
    destruct (Nat.even n); apply Rabs_le; lra. }
  destruct (C147_returns rotR rotR_ok isort ByRMSE 7 _ _ _ _ _ _ _ _ Hi ltac:(intros n rs; eexists; reflexivity)) as (s' & log & F).
  destruct (sj_tables xR rotR isort isort_ok xR_ord (scoring_metric ByRMSE) 7 _ _ s' log F) as (t & fi & _ & Efi & _ & HPf).
  assert (Hb : In "b" (map fst fi)) by (apply (Permutation_in _ (Permutation_sym HPf)); right; left; reflexivity).
  apply in_map_iff in Hb as ([f v] & Ef & Hv). cbn [fst] in Ef. subst f. exists s', log, fi, v. split; [exact F|]. split; [exact Efi|]. split; [exact Hv|].
  apply (C147_unused rotR rotR_ok isort isort_ok ByRMSE 7 _ _ _ _ _ _ _ _ s' log fi "b" 1 v Hi F Efi Hv eq_refl).
  intros r z Hr. destruct r as [|x [|y [|]]]; try discriminate Hr. reflexivity.
Qed.

Print Assumptions C147_rmse.
Print Assumptions C147_mse.
Print Assumptions C147_returns.
Print Assumptions C147_pairs.
Print Assumptions C147_importance.
Print Assumptions C147_unused.
Print Assumptions C147_order.
Print Assumptions C147_repeated.
