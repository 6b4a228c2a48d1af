(** C142: the messages of the library's errors name their cause. *)
From Verif Require Import Py Num Sorting Frame Rng PdCalc PdMethods Perm CondDepth SplitScore GbHandler Visual Messages.
From Coq Require Import QArith.
Open Scope string_scope.
Open Scope nat_scope.
Open Scope list_scope.

(** ** Specification *)

Fixpoint chars (s : string) : list Ascii.ascii := match s with EmptyString => [] | String c t => c :: chars t end.
Definition space : Ascii.ascii := Ascii.ascii_of_nat 32.
(** a name of a class: no line break, no blank *)
Definition plain (c : string) : Prop := ~ In newline (chars c) /\ ~ In space (chars c).
(** everything the library raises by itself *)
Inductive raised : report -> Prop :=
| by_model c r : plain c -> model_report (type_text c) = Some r -> raised r
| by_metric p im fm r : metric_report p im fm = Some r -> raised r
| by_plot m fitted v r : plot_report m fitted v = Some r -> raised r
| by_config n r : config_report n = Some r -> raised r
| by_comparison m1 m2 b1 b2 r : comparison_report m1 m2 b1 b2 = Some r -> raised r
| by_depth b r : depth_report b = Some r -> raised r.

(** ** Strings *)
Lemma app_assoc_s (a b c : string) : ((a ++ b) ++ c = a ++ (b ++ c))%string.
Proof. induction a as [|x a IH]; [reflexivity|]. cbn. rewrite IH. reflexivity. Qed.
Lemma app_cancel_l (a x y : string) : (a ++ x = a ++ y)%string -> x = y.
Proof. induction a as [|c a IH]; cbn; [auto|]. intros H. injection H as H. auto. Qed.
Lemma length_app_s (a b : string) : String.length (a ++ b) = String.length a + String.length b.
Proof. induction a as [|x a IH]; [reflexivity|]. cbn. rewrite IH. reflexivity. Qed.
Lemma app_suffix (x y a b : string) : (x ++ a = y ++ b)%string -> String.length a = String.length b -> x = y /\ a = b.
Proof.
  revert y. induction x as [|c x IH]; intros [|d y] H L; cbn in H.
  - auto.
  - apply (f_equal String.length) in H. cbn in H. rewrite length_app_s in H. lia.
  - apply (f_equal String.length) in H. cbn in H. rewrite length_app_s in H. lia.
  - injection H as <- H. destruct (IH y H L) as [-> ->]. auto.
Qed.
Lemma app_tail (x y a b1 b2 : string) : (x ++ a = y ++ (b1 ++ b2))%string -> String.length a = String.length b2 -> a = b2.
Proof. intros H L. rewrite <- app_assoc_s in H. apply (app_suffix _ _ _ _ H L). Qed.
Lemma app_until (c : Ascii.ascii) (a b x y : string) : ~ In c (chars a) -> ~ In c (chars b) -> (a ++ String c x = b ++ String c y)%string -> a = b.
Proof.
  revert b. induction a as [|p a IH]; intros [|q b] Ha Hb H; cbn in H, Ha, Hb; [reflexivity|injection H as <- _; exfalso; tauto|injection H as -> _; exfalso; tauto|]. injection H as -> H. f_equal. apply IH; tauto.
Qed.
(** a is not the end of b *)
Definition no_end (a b : string) : bool := (String.length a <=? String.length b) && negb (String.eqb a (substring (String.length b - String.length a) (String.length a) b)).
Lemma split_at n (b : string) : b = (substring 0 n b ++ substring n (String.length b - n) b)%string.
Proof.
  revert n. induction b as [|c b IH]; intros [|n]; cbn; try reflexivity.
  - f_equal. clear IH. induction b as [|d b IH]; cbn; [reflexivity|]. f_equal. exact IH.
  - f_equal. apply IH.
Qed.
Lemma substring_length n k (b : string) : n + k <= String.length b -> String.length (substring n k b) = k.
Proof. revert n k. induction b as [|c b IH]; intros [|n] [|k] H; cbn in *; try lia; [rewrite (IH 0 k); lia|apply (IH n 0); lia|apply IH; lia]. Qed.
Lemma no_end_ok x y a b : no_end a b = true -> (x ++ a)%string <> (y ++ b)%string.
Proof.
  unfold no_end. intros H E. apply andb_prop in H as [L H]. apply Nat.leb_le in L. apply negb_true_iff, String.eqb_neq in H. apply H.
  rewrite (split_at (String.length b - String.length a) b) in E. replace (String.length b - (String.length b - String.length a)) with (String.length a) in E by lia.
  apply (app_tail _ _ _ _ _ E). rewrite substring_length; lia.
Qed.

(** ** The class of the model *)
Lemma greedy_class c : ~ In newline (chars c) -> greedy (c ++ "'>") = Some c.
Proof.
  induction c as [|x c IH]; intros H; [reflexivity|]. cbn [append greedy]. cbn in H. destruct (Ascii.eqb_spec x newline) as [->|N]; [exfalso; tauto|]. rewrite IH by tauto. reflexivity.
Qed.
Theorem C142_class c : ~ In newline (chars c) -> class_in (type_text c) = Some c.
Proof.
  intros H. unfold type_text. change ("<class '" ++ c ++ "'>")%string with (String "<" ("class '" ++ (c ++ "'>"))). cbn [class_in]. change (after_prefix "<class '" (String "<" ("class '" ++ c ++ "'>"))) with (Some (c ++ "'>")%string). cbv iota beta. rewrite (greedy_class c H). reflexivity.
Qed.

(** the package is the part before the first dot *)
Lemma before_dot_spec c : ~ In "."%char (chars (before_dot c)) /\ (before_dot c = c \/ exists rest, c = (before_dot c ++ String "." rest)%string).
Proof.
  induction c as [|x c [IH1 IH2]]; [cbn; auto|]. cbn [before_dot]. destruct (Ascii.eqb_spec x "."%char) as [->|N]; [cbn; split; [tauto|right; exists c; reflexivity]|]. cbn [chars In]. split; [intros [E|E]; auto|]. destruct IH2 as [E|(rest & E)]; [left; rewrite E; reflexivity|right; exists rest]. cbn. rewrite <- E. reflexivity.
Qed.

(** ** Each message belongs to one error *)
Lemma raised_cases r : raised r ->
  match r with
  | UnsupportedChart m v => (exists k, m = method_name k /\ ~ In v (accepted_visualizations k))
  | UnsupportedMethod m => forall k, m <> method_name k
  | NotFitted m => exists k, m = method_name k
  | UnsupportedModel p c => plain c /\ p = before_dot c /\ p <> "xgboost" /\ p <> "lightgbm"
  | UnsupportedMetric p m => p = "lightgbm" /\ (m = "mean_cover" \/ m = "sum_cover")
  | WithoutInteraction a b => a = "Minimal Depth Based Importance" /\ b = method_name ConditionalDepth
  end.
Proof.
  intros [c r' Hc E|p im fm r' E|m f v r' E|n r' E|m1 m2 b1 b2 r' E|b r' E].
  - unfold model_report in E. rewrite C142_class in E by apply Hc. destruct (String.eqb_spec (before_dot c) "xgboost"); [discriminate|]. destruct (String.eqb_spec (before_dot c) "lightgbm"); [discriminate|]. injection E as <-. auto.
  - unfold metric_report in E. destruct (String.eqb_spec p "lightgbm") as [->|]; [|discriminate].
    assert (L : forall x, lgbm_unsupported x = true -> x = "mean_cover" \/ x = "sum_cover") by (intros x H; unfold lgbm_unsupported in H; apply orb_prop in H as [H|H]; apply String.eqb_eq in H; auto).
    destruct (lgbm_unsupported im) eqn:E1; [injection E as <-; auto|]. destruct (lgbm_unsupported fm) eqn:E2; [injection E as <-; auto|discriminate].
  - unfold plot_report in E. destruct f; [|injection E as <-; eauto]. destruct (str_in v (accepted_visualizations m)) eqn:A; [discriminate|]. injection E as <-. exists m. split; [reflexivity|]. intros H. apply str_in_In in H. congruence.
  - unfold config_report in E. destruct (str_in n _) eqn:A; [discriminate|]. injection E as <-. intros k ->. assert (Hin : In (method_name k) (map method_name [HStatistic; VariableInteraction; PerformanceBased; SplitScoreM; ConditionalDepth])) by (apply in_map; destruct k; cbn; tauto). apply str_in_In in Hin. congruence.
  - unfold comparison_report in E. destruct b1, b2; try discriminate; injection E as <-; eauto.
  - unfold depth_report in E. destruct b; [discriminate|]. injection E as <-. auto.
Qed.

Theorem C142_distinct r1 r2 : raised r1 -> raised r2 -> message r1 = message r2 -> r1 = r2.
Proof.
  intros H1 H2. apply raised_cases in H1, H2.
  destruct r1 as [m1 v1|m1|m1|p1 c1|p1 m1|a1 b1], r2 as [m2 v2|m2|m2|p2 c2|p2 m2|a2 b2]; intros E; try (exfalso; cbn in E; discriminate E); unfold message in E.
  - destruct H1 as (k1 & -> & _), H2 as (k2 & -> & _). apply (app_cancel_l "Visualization type: ") in E.
    destruct k1, k2; try (apply app_suffix in E as [-> _]; reflexivity); exfalso;
      (revert E; apply no_end_ok; vm_compute; reflexivity) || (symmetry in E; revert E; apply no_end_ok; vm_compute; reflexivity).
  - apply (app_cancel_l "Method: ") in E. apply app_suffix in E as [-> _]; reflexivity.
  - exfalso. apply (app_cancel_l "Method: ") in E. revert E. apply no_end_ok. vm_compute. reflexivity.
  - exfalso. apply (app_cancel_l "Method: ") in E. symmetry in E. revert E. apply no_end_ok. vm_compute. reflexivity.
  - apply (app_cancel_l "Method: ") in E. apply app_suffix in E as [-> _]; reflexivity.
  - destruct H1 as ((_ & N1) & -> & _), H2 as ((_ & N2) & -> & _). apply (app_cancel_l "Model of class ") in E. apply (app_until space) in E; [subst; reflexivity|exact N1|exact N2].
  - destruct H1 as [-> _], H2 as [-> _]. apply (app_cancel_l "Metric ") in E. apply app_suffix in E as [-> _]; reflexivity.
  - destruct H1 as [-> ->], H2 as [-> ->]. reflexivity.
Qed.

(** ** The error classes of the model are those of the reports *)
Theorem C142_plots {C V G} (N : num_ops V) srt lower vis title (k : all_kwargs) :
  (forall (s : mstate C V G) norm r, m_fi_obj s = true -> plot_report HStatistic (match m_ova s with Some _ => true | None => false end) vis = Some r -> pd_plot N srt lower (Friedman norm) s vis title k = Err (report_kind r))
  /\ (forall (s : mstate C V G) r, m_fi_obj s = true -> plot_report VariableInteraction (match m_ovo s with Some _ => true | None => false end) vis = Some r -> pd_plot N srt lower Greenwell s vis title k = Err (report_kind r))
  /\ (forall (s : Perm.sstate C V G) r, plot_report PerformanceBased (match sj_ovo s with Some _ => true | None => false end) vis = Some r -> sj_plot N srt lower s vis title k = Err (report_kind r))
  /\ (forall s r, plot_report ConditionalDepth (match cs_ovo s with Some _ => true | None => false end) vis = Some r -> cmd_plot N srt lower s vis title k = Err (report_kind r))
  /\ (forall s r, plot_report SplitScoreM (match ss_ovo s with Some _ => true | None => false end) vis = Some r -> ss_plot N srt lower s vis title k = Err (report_kind r)).
Proof.
  assert (A : forall m d r, plot_report m true vis = Some r -> visualize N srt lower m d vis title k = Err (report_kind r)).
  { intros m d r. unfold plot_report, visualize. destruct (str_in vis (accepted_visualizations m)); [discriminate|]. intros E. injection E as <-. reflexivity. }
  split; [intros s norm r Ho; cbn; destruct (m_ova s); [rewrite Ho; apply A|intros E; injection E as <-; reflexivity]|].
  split; [intros s r Ho; cbn; destruct (m_ovo s); [rewrite Ho; apply A|intros E; injection E as <-; reflexivity]|].
  split; [intros s r; unfold sj_plot; destruct (sj_ovo s); [apply A|intros E; injection E as <-; reflexivity]|].
  split; [intros s r; unfold cmd_plot; destruct (cs_ovo s); [apply A|intros E; injection E as <-; reflexivity]|].
  intros s r; unfold ss_plot; destruct (ss_ovo s); [apply A|intros E; injection E as <-; reflexivity].
Qed.
(** the metric that is reported is the one LightGBM does not have *)
Theorem C142_metrics p im fm : check_package p im fm = match metric_report p im fm with Some r => Err (report_kind r) | None => Ok tt end
  /\ (forall r, metric_report p im fm = Some r -> r = UnsupportedMetric p im \/ r = UnsupportedMetric p fm /\ lgbm_unsupported im = false).
Proof.
  unfold check_package, metric_report. destruct (String.eqb p "lightgbm"); [|split; [reflexivity|discriminate]]. destruct (lgbm_unsupported im); [split; [reflexivity|intros r E; injection E as <-; auto]|]. destruct (lgbm_unsupported fm); (split; [reflexivity|]); [intros r E; injection E as <-; auto|discriminate].
Qed.
(** an unsupported model is reported with its class and the package the class comes from *)
Theorem C142_models {V} (h : hobject V) (m : hmodel V) : ~ In newline (chars (hm_class m)) ->
  (snd (unify_again h m) = Err ModelNotSupported /\ model_report (type_text (hm_class m)) = Some (UnsupportedModel (before_dot (hm_class m)) (hm_class m)))
  \/ (model_report (type_text (hm_class m)) = None /\ (before_dot (hm_class m) = "xgboost" \/ before_dot (hm_class m) = "lightgbm")).
Proof.
  intros H. unfold model_report, unify_again. rewrite C142_class by exact H. cbv zeta. destruct (String.eqb_spec (before_dot (hm_class m)) "xgboost"); [right; auto|]. destruct (String.eqb_spec (before_dot (hm_class m)) "lightgbm"); [right; auto|]. left. auto.
Qed.

Example C142_example : class_in "<class 'sklearn.ensemble._forest.RandomForestRegressor'>" = Some "sklearn.ensemble._forest.RandomForestRegressor"
  /\ option_map message (model_report (type_text "sklearn.svm.SVR")) = Some "Model of class sklearn.svm.SVR from the sklearn package is not supported"
  /\ model_report (type_text "xgboost.sklearn.XGBRegressor") = None
  /\ option_map message (metric_report "lightgbm" "mean_gain" "sum_cover") = Some "Metric sum_cover is not supported for model from the lightgbm package"
  /\ option_map message (plot_report VariableInteraction true "lollipop") = Some "Visualization type: lollipop is not supported for Greenwell Variable Interaction Measure"
  /\ option_map message (plot_report SplitScoreM false "lollipop") = Some "Method: Split Score Interaction Measure is was not fitted. Execute fit() first.".
Proof. repeat split; vm_compute; reflexivity. Qed.

Print Assumptions C142_class.
Print Assumptions C142_distinct.
Print Assumptions C142_plots.
Print Assumptions C142_metrics.
Print Assumptions C142_models.
