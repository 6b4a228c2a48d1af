(** C56: plots of fitted methods.  C63: plot before fit.  C59: the summary. *)
From Verif Require Import Py Num NumR Sorting Frame Rng PdCalc PdMethods PdMethodFacts Perm PermRun CondDepth TreeFacts ForestFacts SplitScore SplitFacts SplitTables SplitImp
  Comparator Props_Perm Props_Methods2 Props_Forest Props_Split Props_Split2 Props_Compare Visual VisualFacts Props_Visual Props_Visual2.
From Coq Require Import Reals Lra QArith.
Open Scope string_scope.
Open Scope nat_scope.
Open Scope list_scope.

Notation fitted_features := PdMethodFacts.all_features.

(** the table lists, in either order, exactly the pairs of the features *)
Definition lists_pairs {V} (fs : list string) (t : list (string * string * V)) : Prop :=
  exists l, Permutation (map fst t) l /\ Forall2 (fun p q => q = p \/ q = (snd p, fst p)) (combinations2 fs) l.

Lemma lists_pairs_occurs {V} fs (t : list (string * string * V)) a b l : fs = a :: b :: l -> lists_pairs fs t -> forall f, occurs f t <-> In f fs.
Proof.
  intros Efs (k & HP & HF) f. split.
  - intros (r & Hr & Ho). apply (in_map fst) in Hr. apply (Permutation_in _ HP) in Hr. destruct (Forall2_In_r _ _ _ _ HF Hr) as (p & Hp & Hq).
    apply in_combine_l in Hp. apply combinations2_In in Hp as [H1 H2]. destruct Hq as [Hq|Hq]; rewrite Hq in Ho; cbn [fst snd] in Ho; destruct Ho as [<-|<-]; assumption.
  - intros Hf. assert (Hp : exists p, In p (combinations2 fs) /\ (fst p = f \/ snd p = f)).
    { rewrite Efs in Hf |- *. cbn [combinations2]. destruct Hf as [->|Hf]; [exists (f, b)|exists (a, f)]; (split; [apply in_or_app; left; apply in_map|cbn; auto]); [left; reflexivity|exact Hf]. }
    destruct Hp as (p & Hp & Ho). apply In_nth_error in Hp as (i & Hi). 
    assert (Hq : exists q, nth_error k i = Some q /\ (q = p \/ q = (snd p, fst p))).
    { clear -HF Hi. revert i Hi. induction HF as [|x y l1 l2 H HF IH]; intros [|i] Hi; try discriminate; [injection Hi as ->; exists y; auto|apply IH, Hi]. }
    destruct Hq as (q & Hq & Eq). apply nth_error_In in Hq. apply (Permutation_in _ (Permutation_sym HP)) in Hq. apply in_map_iff in Hq as (r & Er & Hr).
    exists r. split; [exact Hr|]. rewrite Er. destruct Eq as [->| ->]; cbn [fst snd]; tauto.
Qed.
Lemma lists_pairs_first {V} fs (t : list (string * string * V)) : NoDup fs -> 2 <= length fs -> lists_pairs fs t ->
  exists a b v, In (a, b, v) t /\ a <> b /\ exists x y l, fs = x :: y :: l.
Proof.
  intros Hnd Hl (k & HP & HF). destruct fs as [|a [|b l]]; cbn [length] in Hl; [lia|lia|]. cbn [combinations2 map app] in HF. inversion HF as [|p q ps qs Hq HF']; subst.
  assert (Hab : a <> b) by (inversion Hnd as [|? ? H _]; intros ->; apply H; left; reflexivity).
  assert (Hin : In q (map fst t)) by (apply (Permutation_in _ (Permutation_sym HP)); left; reflexivity). apply in_map_iff in Hin as ([[x y] v] & E & Hr). cbn [fst] in E. subst q.
  exists x, y, v. split; [exact Hr|]. split; [destruct Hq as [Hq|Hq]; cbn in Hq; congruence|]. eauto.
Qed.

(** ** The partial dependence methods *)
Section PdPlots.
  Context {C V G : Type} (O : cell_ops C) (N : num_ops V) (R : rng_ops G) (srt : sorter) (lower : string -> string).
  Hypothesis Hsrt : sorter_ok srt.
  Hypothesis HN : num_ord_ok N.
  Hypothesis H0 : n_isnan N (n_ofZ N 0) = false.
  Notation fit := (PdMethods.fit O N R srt).
  Notation plot := (pd_plot N srt lower).

  Lemma fit_obj k s a s' : fit k s a = (s', Ok tt) -> m_fi_obj s' = true.
  Proof.
    unfold PdMethods.fit. destruct (fit_base O N R srt k s a) as [s1 r1] eqn:Eb. destruct r1 as [u|]; [|discriminate].
    assert (E : m_fi_obj s1 = true).
    { unfold fit_base in Eb. destruct (sample_if_not_none _ _ _ _) as [[Xs rng']|e]; [|discriminate]. destruct (pick_calc _ _ _ _ _ _ _) as [c|e]; [|discriminate].
      destruct (ovo_of _ _ _ _ _ _ _ _) as [c1 [t|e]]; [|discriminate]. destruct (pd_importance _ _ _ _ _ _ _ _ _ _ _ _) as [c2 [fi|e]]; [|discriminate]. injection Eb as <- _. reflexivity. }
    destruct k; [|intros [= <-]; exact E]. destruct (a_ova a); [|intros [= <-]; exact E].
    destruct (m_calc s1), (m_X s1), (m_features s1), (m_predict s1); try discriminate. destruct (friedman_ova _ _ _ _ _ _ _ _) as [c' [t|e]]; [|discriminate]. intros [= <-]. exact E.
  Qed.

  (** names of the tables *)
  Lemma pd_tables k s a s' : fit k s a = (s', Ok tt) ->
    exists t fi, m_ovo s' = Some t /\ m_fi s' = Some fi /\ lists_pairs (fitted_features a) t /\ Permutation (map fst fi) (fitted_features a)
      /\ (forall f v, In (f, v) fi -> n_isnan N v = false)
      /\ ((exists norm, k = Friedman norm) -> a_ova a = true -> exists ova, m_ova s' = Some ova /\ Permutation (map fst ova) (fitted_features a)).
  Proof.
    intros H. apply fit_ok in H as (Xs & rng' & c & c1 & t & c2 & fi & _ & _ & Eo & Ei & _ & _ & Et & Ef & _ & Ek). exists t, fi. split; [exact Et|]. split; [exact Ef|].
    assert (Hkeys : forall A (F : A -> result (string * string * V)) (key : A -> string * string) l ys, (forall x y, In x l -> F x = Ok y -> fst y = key x) -> mapM F l = Ok ys -> map fst ys = map key l).
    { intros A F key l ys HF E. apply mapM_Ok_inv in E. induction E as [|x y l ys Hy E IH]; [reflexivity|]. cbn [map]. f_equal; [apply HF; [left; reflexivity|exact Hy]|apply IH; intros; apply HF; [right; assumption|assumption]]. }
    assert (Hkeys1 : forall (F : string -> result (string * V)) l ys, (forall x y, F x = Ok y -> fst y = x) -> mapM F l = Ok ys -> map fst ys = l).
    { intros F l ys HF E. apply mapM_Ok_inv in E. induction E as [|x y l ys Hy E IH]; [reflexivity|]. cbn [map]. f_equal; [apply HF; exact Hy|exact IH]. }
    split; [|split; [|split]].
    - destruct k as [norm|]; cbn [ovo_of] in Eo.
      + unfold friedman_ovo in Eo. destruct (calculate_pd_pairs _ _ _ _ _) as [d1 [u|e]]; [|discriminate]. destruct (calculate_pd_single _ _ _ _) as [d2 [u'|e]]; [|discriminate].
        destruct (mapM _ (combinations2 (fitted_features a))) as [l|] eqn:El; [|discriminate]. cbn [bind] in Eo. injection Eo as _ <-.
        apply (Hkeys _ _ (fun p => p)) in El.
        * exists (map fst l). split; [apply (table_keys N srt Hsrt HN)|]. rewrite El, map_id. clear. induction (combinations2 (fitted_features a)); constructor; auto.
        * intros p y _ E. destruct (column Xs (fst p)); [|discriminate]. cbn [bind] in E. destruct (get_pd_single _ _ _ _); [|discriminate]. cbn [bind] in E.
          destruct (column Xs (snd p)); [|discriminate]. cbn [bind] in E. destruct (get_pd_single _ _ _ _); [|discriminate]. cbn [bind] in E. destruct (get_pd_pairs _ _ _ _ _); [|discriminate]. cbn [bind] in E.
          injection E as <-. destruct p; reflexivity.
      + unfold greenwell_ovo in Eo. destruct (calculate_pd_pairs _ _ _ _ _) as [d1 [u|e]]; [|discriminate].
        destruct (mapM _ (combinations2 (fitted_features a))) as [l|] eqn:El; [|discriminate]. cbn [bind] in Eo. injection Eo as _ <-.
        apply (Hkeys _ _ (get_pair_key d1)) in El.
        * exists (map fst l). split; [apply (table_keys N srt Hsrt HN)|]. rewrite El. clear. induction (combinations2 (fitted_features a)) as [|p ps IH]; constructor; [|exact IH].
          unfold get_pair_key. destruct (assoc _ _ _); auto.
        * intros p y _ E. cbv zeta in E. destruct (dict_get _ _ _); [|discriminate]. cbn [bind] in E. destruct (get_pd_pairs_all _ _ _); [|discriminate]. cbn [bind] in E.
          destruct (greenwell_value _ _ _ _ _); [|discriminate]. cbn [bind] in E. injection E as <-. destruct (get_pair_key d1 p); reflexivity.
    - unfold pdp_importance in Ei. destruct (calculate_pd_single _ _ _ _) as [d1 [u|e]]; [|discriminate]. destruct (mapM _ (fitted_features a)) as [l|] eqn:El; [|discriminate]. cbn [bind] in Ei. injection Ei as _ <-.
      apply Hkeys1 in El; [rewrite <- El; apply (table_keys N srt Hsrt HN)|].
      intros f y E. destruct (get_pd_single _ _ _ _); [|discriminate]. cbn [bind] in E. destruct (calc_importance _ _ _); [|discriminate]. cbn [bind] in E. injection E as <-. reflexivity.
    - unfold pdp_importance in Ei. destruct (calculate_pd_single _ _ _ _) as [d1 [u|e]]; [|discriminate]. destruct (mapM _ (fitted_features a)) as [l|] eqn:El; [|discriminate]. cbn [bind] in Ei. injection Ei as _ <-.
      intros f v Hv. apply (table_no_nan N srt Hsrt HN l f v H0 Hv).
    - intros (norm & ->) Ha. rewrite Ha in Ek. destruct Ek as (c3 & ova & Ev & Eova & _). exists ova. split; [exact Eova|].
      unfold friedman_ova in Ev. destruct (calculate_pd_minus_single _ _ _) as [d1 [u|e]]; [|discriminate]. destruct (callable _ _ _) as [preds|]; [|discriminate]. cbn [bind] in Ev.
      destruct (mapM _ (fitted_features a)) as [l|] eqn:El; [|discriminate]. cbn [bind] in Ev. injection Ev as _ <-.
      apply Hkeys1 in El; [rewrite <- El; apply (table_keys N srt Hsrt HN)|].
      intros f y E. destruct (column Xs f); [|discriminate]. cbn [bind] in E. destruct (get_pd_single _ _ _ _); [|discriminate]. cbn [bind] in E. destruct (get_pd_minus_single _ _); [|discriminate]. cbn [bind] in E. destruct (hstat_np _ _ _ _ _); [|discriminate]. cbn [bind] in E.
      injection E as <-. reflexivity.
  Qed.

  Lemma pd_ready m k s a s' t fi ova : fit k s a = (s', Ok tt) -> NoDup (fitted_features a) -> 2 <= length (fitted_features a) -> m_ovo s' = Some t -> m_fi s' = Some fi ->
    (forall l, ova = Some l -> l <> []) -> (m = HStatistic -> ova <> None) -> m <> SplitScoreM -> m <> ConditionalDepth ->
    ready N m {| pd_ovo := t; pd_ova := ova; pd_fi := Some fi; pd_int_asc := false; pd_imp_asc := false; pd_directed := false; pd_full := None; pd_cond := [] |}.
  Proof.
    intros H Hnd Hl Et Ef Hova Hh Hm1 Hm2. destruct (pd_tables k s a s' H) as (t' & fi' & Et' & Ef' & HL & HP & Hnan & _).
    assert (t' = t) by congruence. assert (fi' = fi) by congruence. subst t' fi'.
    destruct (lists_pairs_first _ _ Hnd Hl HL) as (x & y & v & Hr & Hne & x' & y' & l & Efs). pose proof (lists_pairs_occurs _ t x' y' l Efs HL) as Hocc.
    constructor; cbn [pd_fi pd_ovo pd_directed pd_ova pd_full pd_cond]; try congruence; [|exact Hova|exact Hh].
    exists fi. split; [reflexivity|]. split; [|split].
    - intros f Hf. apply (Permutation_in _ (Permutation_sym HP)), Hocc, Hf.
    - exists x, y, v. split; [exact Hr|]. split; [exact Hne|]. left. exact Hnan.
    - intros f Hf. apply Hocc, (Permutation_in _ HP), Hf.
  Qed.

  Theorem C56_friedman_partial norm s a s' vis_type title k : fit (Friedman norm) s a = (s', Ok tt) -> NoDup (fitted_features a) -> 2 <= length (fitted_features a) -> a_ova a = true ->
    usable k -> In vis_type (accepted_visualizations HStatistic) -> exists f, plot (Friedman norm) s' vis_type title k = Ok f /\ snd f <> [].
  Proof.
    intros H Hnd Hl Ha Hu Hv. destruct (pd_tables _ s a s' H) as (t & fi & Et & Ef & HL & HP & Hnan & Hova). destruct (Hova (ex_intro _ norm eq_refl) Ha) as (ova & Eova & HPo).
    unfold pd_plot. rewrite Eova, (fit_obj _ _ _ _ H), Et, Ef. cbn [pop]. apply (C56_ready_partial N srt lower Hsrt HN); [|exact Hu|exact Hv].
    apply (pd_ready HStatistic _ s a s' t fi (Some ova) H Hnd Hl Et Ef); try discriminate. intros l [= <-] ->. apply Permutation_nil in HPo. rewrite HPo in Hl. cbn in Hl. lia.
  Qed.
  Theorem C56_greenwell_partial s a s' vis_type title k : fit Greenwell s a = (s', Ok tt) -> NoDup (fitted_features a) -> 2 <= length (fitted_features a) ->
    usable k -> In vis_type (accepted_visualizations VariableInteraction) -> exists f, plot Greenwell s' vis_type title k = Ok f /\ snd f <> [].
  Proof.
    intros H Hnd Hl Hu Hv. destruct (pd_tables _ s a s' H) as (t & fi & Et & Ef & HL & HP & Hnan & _).
    unfold pd_plot. rewrite (fit_obj _ _ _ _ H), Et, Ef. apply (C56_ready_partial N srt lower Hsrt HN); [|exact Hu|exact Hv].
    apply (pd_ready VariableInteraction _ s a s' t fi None H Hnd Hl Et Ef); discriminate.
  Qed.
  (** without one-vs-all values no plot at all can be drawn *)
  Theorem C56_friedman_no_ova_partial norm (l : list (fargs C V)) g0 vis_type title k : (forall a, In a l -> a_ova a = false) ->
    plot (Friedman norm) (Props_Methods2.refit O N R srt (Friedman norm) (m_init g0) l) vis_type title k = Err MethodNotFitted.
  Proof. intros Hl. unfold pd_plot. rewrite (C62_never_requested_partial O N R srt (Friedman norm) g0 l Hl). reflexivity. Qed.

  (** ** C63 *)
  Theorem C63_pd g0 kd vis_type title k f1 f2 :
    plot kd (m_init g0 : mstate C V G) vis_type title k = Err MethodNotFitted
    /\ interaction_value (compare_table N srt false (m_ovo (m_init g0 : mstate C V G))) f1 f2 = Err MethodNotFitted.
  Proof. destruct kd; split; reflexivity. Qed.
End PdPlots.

(** ** Sejong Oh *)
Section SejongPlots.
  Context {C V G : Type} (N : num_ops V) (R : rng_ops G) (srt : sorter) (lower : string -> string).
  Hypothesis Hsrt : sorter_ok srt.
  Hypothesis HN : num_ord_ok N.

  Lemma traverse_keys {A B K} (F : A -> act (C:=C) (G:=G) B) (key : B -> K) (kx : A -> K) l : (forall x s s' y, F x s = (s', Ok y) -> key y = kx x) ->
    forall s s' ys, traverse F l s = (s', Ok ys) -> map key ys = map kx l.
  Proof.
    intros HF. induction l as [|x l IH]; intros s s' ys E; cbn [traverse] in E; [injection E as _ <-; reflexivity|].
    unfold andthen at 1 in E. destruct (F x s) as [s1 [y|e]] eqn:E1; [|discriminate]. unfold andthen in E. destruct (traverse F l s1) as [s2 [zs|e]] eqn:E2; [|discriminate].
    unfold ret in E. injection E as _ <-. cbn [map]. f_equal; [apply (HF _ _ _ _ E1)|apply (IH _ _ _ E2)].
  Qed.

  Lemma sj_tables (m : metric V) e s (a : sargs C V) s' log : sj_fit N R srt m e s a = (s', Ok tt, log) ->
    exists t fi, sj_ovo s' = Some t /\ sj_fi s' = Some fi /\ lists_pairs (Props_Perm.included a) t /\ Permutation (map fst fi) (dedup (Props_Perm.included a)).
  Proof.
    unfold sj_fit. destruct (sample_both _ _ _ _ _) as [[[Xs ys] g1]|er]; [|intros H; discriminate (f_equal (fun x => snd (fst x)) H)]. fold (Props_Perm.included a). cbv zeta.
    destruct (perf_based_ovo _ _ _ _ _ _ _ _ _ _) as [s1 [t|er]] eqn:E1; [|intros H; discriminate (f_equal (fun x => snd (fst x)) H)].
    destruct (permutation_importance _ _ _ _ _ _ _ _ _ _) as [s2 [fi|er]] eqn:E2; [|intros H; discriminate (f_equal (fun x => snd (fst x)) H)].
    intros H. pose proof (f_equal (fun x => fst (fst x)) H) as Hs. cbn [fst] in Hs. subst s'. exists t, fi. split; [reflexivity|]. split; [reflexivity|]. split.
    - unfold perf_based_ovo in E1. unfold andthen at 1 in E1. destruct (score _ _ _ _ _) as [s3 [ref|er]]; [|discriminate]. unfold andthen at 1 in E1.
      match type of E1 with context [traverse ?F ?l ?s0] => destruct (traverse F l s0) as [s4 [rows|er]] eqn:E3; [|discriminate]; assert (Hk : map fst rows = map (fun p => p) l) end.
      { eapply (traverse_keys _ fst (fun p => p)); [|exact E3]. intros pr q q' y Hy. cbv beta in Hy. unfold andthen at 1 in Hy.
        destruct (traverse _ (seq 0 (sa_repeat a)) q) as [q1 [l0|er]]; [|discriminate]. unfold ret in Hy. injection Hy as _ <-. destruct pr; reflexivity. }
      unfold ret in E1. injection E1 as _ <-. exists (map fst rows). split.
      + apply Permutation_map. apply (sort_values_ok N srt false _ rows Hsrt HN).
      + rewrite Hk, map_id. clear. induction (combinations2 (Props_Perm.included a)); constructor; auto.
    - unfold permutation_importance in E2. unfold andthen at 1 in E2. destruct (score _ _ _ _ _) as [s3 [ref|er]]; [|discriminate]. unfold andthen at 1 in E2.
      destruct (corrupt_loop _ _ _ _ _ _ _ _) as [s4 [scores|er]]; [|discriminate]. cbv zeta in E2.
      match type of E2 with context [match ?l with [] => _ | _ :: _ => _ end] => set (rows := l) in E2 end.
      assert (Hk : map fst rows = dedup (Props_Perm.included a)) by (unfold rows; rewrite map_map; cbn [fst]; apply map_id).
      destruct rows as [|r0 rs] eqn:Er; [discriminate|]. rewrite <- Er in *. unfold ret in E2. injection E2 as _ <-. rewrite <- Hk. apply Permutation_map. apply (sort_values_ok N srt false _ rows Hsrt HN).
  Qed.

  (** unless the scores are undefined *)
  Theorem C56_sejong_partial (m : metric V) e s (a : sargs C V) s' log t fi vis_type title k : sj_fit N R srt m e s a = (s', Ok tt, log) ->
    NoDup (Props_Perm.included a) -> 2 <= length (Props_Perm.included a) -> sj_ovo s' = Some t -> sj_fi s' = Some fi ->
    (forall f v, In (f, v) fi -> n_isnan N v = false) \/ (exists r, In r t /\ n_isnan N (snd r) = false) ->
    usable k -> In vis_type (accepted_visualizations PerformanceBased) -> exists f, sj_plot N srt lower s' vis_type title k = Ok f /\ snd f <> [].
  Proof.
    intros H Hnd Hl Et Ef Hdef Hu Hv. destruct (sj_tables m e s a s' log H) as (t' & fi' & Et' & Ef' & HL & HP).
    assert (t' = t) by congruence. assert (fi' = fi) by congruence. subst t' fi'. rewrite (dedup_id _ Hnd) in HP.
    unfold sj_plot. rewrite Et, Ef. apply (C56_ready_partial N srt lower Hsrt HN); [|exact Hu|exact Hv].
    destruct (lists_pairs_first _ _ Hnd Hl HL) as (x & y & v & Hr & Hne & x' & y' & l & Efs). pose proof (lists_pairs_occurs _ t x' y' l Efs HL) as Hocc.
    constructor; cbn [pd_fi pd_ovo pd_directed pd_ova pd_full pd_cond]; try congruence.
    exists fi. split; [reflexivity|]. split; [|split].
    - intros f Hf. apply (Permutation_in _ (Permutation_sym HP)), Hocc, Hf.
    - destruct Hdef as [Hd|([[x0 y0] v0] & Hr0 & Hd)]; [exists x, y, v; auto|]. exists x0, y0, v0. cbn [snd] in Hd. split; [exact Hr0|]. split; [|auto].
      destruct HL as (k0 & HP0 & HF). apply (in_map fst) in Hr0. apply (Permutation_in _ HP0) in Hr0. destruct (Forall2_In_r _ _ _ _ HF Hr0) as ([p q] & Hp & Hq).
      apply in_combine_l, combinations2_irrefl in Hp; [|exact Hnd]. cbn [fst snd] in Hq. destruct Hq as [Hq|Hq]; cbn in Hq; congruence.
    - intros f Hf. apply Hocc, (Permutation_in _ HP), Hf.
  Qed.
  Theorem C63_sejong g0 vis_type title k f1 f2 : sj_plot N srt lower (sj_init g0 : Perm.sstate C V G) vis_type title k = Err MethodNotFitted
    /\ interaction_value (compare_table N srt false (sj_ovo (sj_init g0 : Perm.sstate C V G))) f1 f2 = Err MethodNotFitted.
  Proof. split; reflexivity. Qed.
End SejongPlots.

(** ** Conditional minimal depth, over the reals *)
Section ForestPlots.
  Context (srt : sorter) (lower : string -> string).
  Hypothesis Hsrt : sorter_ok srt.

  (** all features are used by some tree *)
  Theorem C56_forest_partial s m names ts vis_type title k :
    fo_names m = Some names -> NoDup names -> 2 <= length names -> Forall2 stored (fo_trees m) ts -> known_features (length names) ts ->
    (forall i, i < length names -> exists t, In t ts /\ feature_nodes i t <> []) ->
    usable k -> In vis_type (accepted_visualizations ConditionalDepth) ->
    exists f, cmd_plot xR srt lower (fst (cmd_fit xR srt s m)) vis_type title k = Ok f /\ snd f <> [].
  Proof.
    intros En Hnd Hl HF Hk Hall Hu Hv.
    assert (Hne : fo_trees m <> []). { intros E. rewrite E in HF. inversion HF; subst. destruct (Hall 0 ltac:(lia)) as (t & [] & _). }
    destruct (C38_summary xR srt xR_ord Hsrt s m names ts En Hnd HF Hne) as (ovo & Eo & HP & _ & _).
    destruct (C39_importance xR srt xR_ord Hsrt s m names ts En HF Hk) as (fi & Eok & Ef & HPf & _).
    { destruct (Hall 0 ltac:(lia)) as (t & Ht & H). eauto. }
    unfold cmd_plot. rewrite Eo, Ef. apply (C56_ready_partial xR srt lower Hsrt xR_ord); [|exact Hu|exact Hv].
    set (t := map (fun r => (cr_root r, cr_var r, cr_value r)) ovo).
    assert (Hin : forall a b, (exists v, In (a, b, v) t) <-> In a names /\ In b names /\ a <> b).
    { intros a b. assert (E : (exists v, In (a, b, v) t) <-> In (a, b) (map (fun r => (cr_root r, cr_var r)) ovo)).
      { unfold t. rewrite in_map_iff. setoid_rewrite in_map_iff. split; [intros (v & r & [= <- <- <-] & Hr); eauto|intros (r & [= <- <-] & Hr); exists (cr_value r), r; auto]. }
      rewrite E. transitivity (In (a, b) (filter (fun p => negb (String.eqb (fst p) (snd p))) (list_prod names names))).
      - split; apply Permutation_in; [exact HP|symmetry; exact HP].
      - rewrite filter_In, in_prod_iff, negb_true_iff, String.eqb_neq. cbn [fst snd]. tauto. }
    assert (Hocc : forall f, occurs f t <-> In f names).
    { intros f. split.
      - intros ([[a b] v] & Hr & Ho). destruct (proj1 (Hin a b) (ex_intro _ v Hr)) as (H1 & H2 & _). cbn [fst snd] in Ho. destruct Ho as [<-|<-]; assumption.
      - intros Hf. assert (Hg : exists g, In g names /\ f <> g).
        { destruct names as [|x [|y l]]; cbn [length] in Hl; [lia|lia|]. assert (x <> y) by (inversion Hnd as [|? ? H _]; intros ->; apply H; left; reflexivity).
          destruct (string_dec f x) as [->|]; [exists y; cbn; auto|exists x; cbn; auto]. }
        destruct Hg as (g & Hg & Hfg). destruct (proj2 (Hin f g) (conj Hf (conj Hg Hfg))) as (v & Hr). exists (f, g, v). cbn [fst snd]. auto. }
    assert (Hfi : forall f, In f (map fst fi) <-> In f names).
    { intros f. transitivity (In f (map fst (map (importance_row xR names ts) (filter (used_in ts) (seq 0 (length names)))))).
      - split; apply Permutation_in, Permutation_map; [exact HPf|symmetry; exact HPf].
      - rewrite map_map, in_map_iff. cbn [fst importance_row]. split.
        + intros (i & <- & Hi). apply filter_In in Hi as [Hi _]. apply in_seq in Hi. apply nth_In. lia.
        + intros Hf. apply (In_nth _ _ EmptyString) in Hf as (i & Hi & <-). exists i. split; [reflexivity|]. apply filter_In. split; [apply in_seq; lia|]. apply used_in_iff, Hall, Hi. }
    assert (Hnan : forall f v, In (f, v) fi -> n_isnan xR v = false).
    { intros f v H. apply (Permutation_in _ HPf), in_map_iff in H as (i & H & Hi). apply filter_In in Hi as [_ Hi]. apply (f_equal snd) in H. unfold importance_row in H. cbn [snd] in H. rewrite <- H.
      match goal with |- context [map ?g ?l] => replace (map g l) with (map Fin (map (fun d => IZR (Z.of_nat d)) l)) by (rewrite map_map; reflexivity) end. rewrite xR_mean_fin; [reflexivity|]. intros E. apply map_eq_nil in E.
      unfold used_in in Hi. apply existsb_exists in Hi as (t0 & Ht0 & H1). destruct (first_use i t0) as [d|] eqn:Ed; [|discriminate].
      assert (Hd : In d (somes (map (first_use i) ts))) by (apply somes_In; rewrite <- Ed; apply in_map, Ht0). rewrite E in Hd. destruct Hd. }
    constructor; cbn [pd_fi pd_ovo pd_directed pd_ova pd_full pd_cond]; try discriminate.
    - exists fi. split; [reflexivity|]. split; [|split].
      + intros f Hf. apply Hfi, Hocc, Hf.
      + destruct names as [|x [|y l]]; cbn [length] in Hl; [lia|lia|]. assert (Hxy : x <> y) by (inversion Hnd as [|? ? H _]; intros ->; apply H; left; reflexivity).
        destruct (proj2 (Hin x y)) as (v & Hr); [cbn; auto|]. exists x, y, v. auto.
      + intros f Hf. apply Hocc, Hfi, Hf.
    - intros _ ->. destruct names as [|x [|y l]]; cbn [length] in Hl; [lia|lia|]. assert (Hxy : x <> y) by (inversion Hnd as [|? ? H _]; intros ->; apply H; left; reflexivity).
      destruct (proj2 (Hin x y)) as (v & []); cbn; auto.
  Qed.

  (** a feature that no tree uses: no heatmap and no summary, although the fit succeeds *)
  Theorem C56_forest_unused_partial s m names ts title k i :
    fo_names m = Some names -> NoDup names -> 2 <= length names -> Forall2 stored (fo_trees m) ts -> known_features (length names) ts ->
    (exists t f, In t ts /\ feature_nodes f t <> []) -> i < length names -> (forall t, In t ts -> feature_nodes i t = []) ->
    snd (cmd_fit xR srt s m) = Ok tt
    /\ cmd_plot xR srt lower (fst (cmd_fit xR srt s m)) "heatmap" title k = Err IndexError
    /\ cmd_plot xR srt lower (fst (cmd_fit xR srt s m)) "summary" title k = Err IndexError.
  Proof.
    intros En Hnd Hl HF Hk Hex Hi Hun.
    assert (Hne : fo_trees m <> []). { intros E. rewrite E in HF. inversion HF; subst. destruct Hex as (t & f & [] & _). }
    destruct (C38_summary xR srt xR_ord Hsrt s m names ts En Hnd HF Hne) as (ovo & Eo & HP & _ & _).
    destruct (C39_importance xR srt xR_ord Hsrt s m names ts En HF Hk Hex) as (fi & Eok & Ef & HPf & _). split; [exact Eok|].
    unfold cmd_plot. rewrite Eo, Ef. apply (C56_no_importance_partial xR srt lower ConditionalDepth) with (fi := fi) (f := nth i names ""); [reflexivity| |].
    - assert (Hg : exists g, In g names /\ nth i names "" <> g).
      { destruct names as [|x [|y l]]; cbn [length] in Hl; [lia|lia|]. assert (x <> y) by (inversion Hnd as [|? ? H _]; intros ->; apply H; left; reflexivity).
        destruct (string_dec (nth i (x :: y :: l) "") x) as [->|]; [exists y; cbn; auto|exists x; cbn; auto]. }
      destruct Hg as (g & Hg & Hfg). assert (Hin : In (nth i names "", g) (map (fun r => (cr_root r, cr_var r)) ovo)).
      { apply (Permutation_in _ (Permutation_sym HP)). apply filter_In. split; [apply in_prod; [apply nth_In, Hi|exact Hg]|]. apply negb_true_iff, String.eqb_neq, Hfg. }
      apply in_map_iff in Hin as (r & Er & Hr). exists (cr_root r, cr_var r, cr_value r). cbn [pd_ovo fst snd]. split; [apply (in_map (fun r => (cr_root r, cr_var r, cr_value r))), Hr|]. left. congruence.
    - intros H. apply (Permutation_in _ (Permutation_map fst HPf)) in H. rewrite map_map, in_map_iff in H. destruct H as (j & Ej & Hj). cbn [fst importance_row] in Ej. apply filter_In in Hj as [Hj Hu]. apply in_seq in Hj.
      assert (j = i) as ->. { apply (proj1 (NoDup_nth names "") Hnd); [lia|exact Hi|exact Ej]. }
      apply used_in_iff in Hu as (t & Ht & Hf). apply Hf, Hun, Ht.
  Qed.
  Theorem C63_forest {V} (N : num_ops V) vis_type title k f1 f2 : cmd_plot N srt lower cs_init vis_type title k = Err MethodNotFitted
    /\ interaction_value (cmd_compare_ovo N srt cs_init) f1 f2 = Err MethodNotFitted.
  Proof. split; reflexivity. Qed.
End ForestPlots.

(** ** Split score *)
Section SplitPlots.
  Context {V : Type} (N : num_ops V) (srt : sorter) (lower : string -> string).
  Hypothesis Hsrt : sorter_ok srt.
  Hypothesis HN : num_ord_ok N.
  Notation fit := (ss_fit N srt).

  (** every splitting feature is in a listed pair, and some listed pair of two different features
      has a defined value (or all importances are defined) *)
  Theorem C56_split_partial s arg pk ts Ls im fm od v w vis_type title k : fitted_on arg pk ts Ls -> no_leaf_name ts -> pair_column N im v -> feature_column (V:=V) fm w ->
    metric_allowed pk im -> metric_allowed pk fm -> snd (fit s arg im fm od) = Ok tt ->
    (forall e f, In e (concat Ls) -> efeat e = Some f -> exists e' p, In e' (concat Ls) /\ chosen N od e' = true /\ epair e' = Some p /\ (fst p = f \/ snd p = f)) ->
    (forall t fi, ss_ovo (fst (fit s arg im fm od)) = Some t -> ss_fi (fst (fit s arg im fm od)) = Some fi -> something_to_show N false t fi) ->
    usable k -> In vis_type (accepted_visualizations SplitScoreM) -> exists f, ss_plot N srt lower (fst (fit s arg im fm od)) vis_type title k = Ok f /\ snd f <> [].
  Proof.
    intros Hf Hn Hc Hw Ha1 Ha2 Hok Hcov Hsome Hu Hv.
    destruct (fit_outcome N srt s arg pk ts Ls im fm od v Hf (fun _ => Hn) Hc Ha1 Ha2) as [[_ H]|(Hd & full & rows & fi' & Hun & HF & E & Efull & _ & _ & _ & E2 & E3)]; [congruence|].
    rewrite E2 in Hok. destruct fi' as [fi|]; [|discriminate]. destruct (E3 fi eq_refl) as [E4 _]. clear E2 E3.
    destruct (C44_order N srt Hsrt HN s arg pk ts Ls im fm od v Hf (fun _ => Hn) Hc Ha1 Ha2 Hd) as (fo & t & Efo & Et & HPt & _ & _).
    destruct (C43_tables N srt Hsrt HN s arg pk ts Ls im fm od v Hf (fun _ => Hn) Hc Ha1 Ha2 Hd) as (fo' & Efo' & _ & Hkeys & _). assert (fo' = fo) by congruence. subst fo'.
    destruct (C48_rows N srt Hsrt HN pk ts Ls rows None fm w fi Hun Hn ltac:(discriminate) Hw E) as (_ & Hfi & _ & _).
    specialize (Hsome t fi Et E4). unfold ss_plot. rewrite Et, E4. apply (C56_ready_partial N srt lower Hsrt HN); [|exact Hu|exact Hv].
    assert (Hin : forall p, (exists x, In (p, x) t) <-> exists e, In e (concat Ls) /\ chosen N od e = true /\ epair e = Some p).
    { intros p. rewrite <- Hkeys. split.
      - intros (x & Hx). apply (Permutation_in _ HPt), in_map_iff in Hx as (r & Er & Hr). injection Er as <- _. apply (in_map okey) in Hr. exact Hr.
      - intros H. apply in_map_iff in H as (r & <- & Hr). exists (v r). apply (Permutation_in _ (Permutation_sym HPt)), in_map_iff. exists r. split; [reflexivity|exact Hr]. }
    assert (Hlist : Forall2 listing ts Ls) by (destruct Hun as (zs & cs & _ & _ & H & _); exact H).
    constructor; cbn [pd_fi pd_ovo pd_directed pd_ova pd_full pd_cond]; try discriminate; [|congruence].
    exists fi. split; [reflexivity|]. split; [|split; [exact Hsome|]].
    - intros f ([p x] & Hr & Ho). cbn [fst] in Ho. destruct (proj1 (Hin p) (ex_intro _ x Hr)) as (e & He & _ & Ep). apply Hfi. split; [|exact I].
      unfold epair in Ep. destruct (e_parent e) as [[|i' f' g' c' lt' rt']|] eqn:Epar; try discriminate. destruct (e_node e) as [|i0 f0 g0 c0 l0 r0] eqn:En; [discriminate|]. injection Ep as <-. cbn [fst snd] in Ho.
      destruct Ho as [<-|<-]; [|exists e; split; [exact He|unfold efeat; rewrite En; reflexivity]].
      apply in_concat in He as (L & HL & He). destruct (Forall2_In_r _ _ _ _ Hlist HL) as (t0 & Ht0 & Hls). pose proof (Permutation_in _ (ls_perm t0 L Hls) He) as He'.
      destruct (entries_up t0 e _ He' Epar) as (e1 & i1 & f1 & g1 & c1 & l1 & r1 & H1 & H2 & _). exists e1. split; [|unfold efeat; rewrite H2; reflexivity].
      apply in_concat. exists L. split; [exact HL|]. apply (Permutation_in _ (Permutation_sym (ls_perm t0 L Hls)) H1).
    - intros f Hff. apply Hfi in Hff as [(e & He & Ef) _]. destruct (Hcov e f He Ef) as (e' & p & H1 & H2 & H3 & H4).
      destruct (proj2 (Hin p)) as (x & Hx); [exists e'; auto|]. exists (p, x). split; [exact Hx|exact H4].
  Qed.
  Theorem C63_split vis_type title k f1 f2 : ss_plot N srt lower ss_init vis_type title k = Err MethodNotFitted
    /\ interaction_value (ss_compare_ovo N srt ss_init) f1 f2 = Err MethodNotFitted.
  Proof. split; reflexivity. Qed.
End SplitPlots.

Print Assumptions C56_friedman_partial.
Print Assumptions C56_greenwell_partial.
Print Assumptions C56_friedman_no_ova_partial.
Print Assumptions C63_pd.
Print Assumptions C56_sejong_partial.
Print Assumptions C63_sejong.
Print Assumptions C56_forest_partial.
Print Assumptions C56_forest_unused_partial.
Print Assumptions C63_forest.
Print Assumptions C56_split_partial.
Print Assumptions C63_split.
