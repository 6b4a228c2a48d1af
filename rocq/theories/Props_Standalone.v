(** Split score importance called on its own (C88, C89). *)
From Verif Require Import Py Num NumR Sorting Frame CondDepth TreeFacts ForestFacts SplitScore SplitFacts SplitTables SplitImp Props_Split Props_Split2.
From Coq Require Import QArith.
Open Scope string_scope.
Open Scope nat_scope.
Open Scope list_scope.

Section Restrict.
  Context {V : Type} (N : num_ops V) (srt : sorter) (Hsrt : sorter_ok srt) (HN : num_ord_ok N).

  Definition row_of (rows : list (urow V)) (f : string) : result irow :=
    let g := filter (on_feature f) rows in
    do wd <- np_average N g;
    Ok {| i_feature := f; i_mean_gain := mean_skip N (map u_gain g); i_sum_gain := sum_skip N (map u_gain g);
          i_mean_cover := mean_skip N (covers g); i_sum_cover := sum_skip N (covers g); i_mean_depth := mean_skip N (depths N g);
          i_root := fst (root_metrics N rows f); i_wroot := snd (root_metrics N rows f); i_wdepth := wd |}.
  Definition split_on (rows : list (urow V)) : list string := dedup_by String.eqb (somes (map u_feat rows)).

  Lemma all_feature_rows features rows full : all_feature_importance N features rows = Ok full ->
    Forall2 (fun f r => row_of (importance_rows features rows) f = Ok r) (split_on (importance_rows features rows)) full.
  Proof.
    unfold all_feature_importance. fold (split_on (importance_rows features rows)).
    destruct (split_on (importance_rows features rows)) as [|f fs]; [discriminate|]. apply mapM_Ok_inv.
  Qed.
  Lemma rows_all_feature features rows full : split_on (importance_rows features rows) <> [] ->
    Forall2 (fun f r => row_of (importance_rows features rows) f = Ok r) (split_on (importance_rows features rows)) full ->
    all_feature_importance N features rows = Ok full.
  Proof.
    unfold all_feature_importance. fold (split_on (importance_rows features rows)).
    destruct (split_on (importance_rows features rows)) as [|f fs]; [congruence|]. intros _. apply mapM_Ok_intro.
  Qed.

  Lemma split_on_In rows f : In f (split_on rows) <-> exists r, In r rows /\ u_feat r = Some f.
  Proof. unfold split_on. rewrite (proj2 (dedup_string _)), somes_In, in_map_iff. split; intros (r & H1 & H2); eauto. Qed.

  Lemma on_feature_restrict (rows : list (urow V)) fs f : In f fs -> f <> "Leaf" ->
    filter (on_feature f) (importance_rows (Some fs) rows) = filter (on_feature f) (importance_rows None rows).
  Proof.
    intros Hf Hl. unfold importance_rows. rewrite !filter_filter. apply filter_ext. intros r. unfold on_feature.
    destruct (u_feat r) as [h|]; [|reflexivity]. destruct (String.eqb_spec h f) as [->|]; [|rewrite !andb_false_r; reflexivity]. rewrite !andb_true_r.
    transitivity true; [apply existsb_exists; exists f; split; [exact Hf|apply String.eqb_refl]|]. symmetry. apply negb_true_iff, String.eqb_neq. exact Hl.
  Qed.

  Lemma row_of_restrict (rows : list (urow V)) fs f : In f fs -> f <> "Leaf" ->
    match row_of (importance_rows (Some fs) rows) f, row_of (importance_rows None rows) f with
    | Ok a, Ok b => forall metric k, metric <> "weighted_root_frequency" -> importance_metric metric = Some k -> k a = k b
    | Err e, Err e' => e = e'
    | _, _ => False
    end.
  Proof.
    intros Hf Hl. pose proof (on_feature_restrict rows fs f Hf Hl) as E. unfold row_of. rewrite E.
    destruct (np_average N _) as [wd|e]; cbn [bind]; [|reflexivity]. intros metric k Hm Hk. unfold importance_metric in Hk.
    repeat (match type of Hk with (if ?b then _ else _) = _ => destruct b eqn:?Eb end; [try (injection Hk as <-; reflexivity)|]); [| |discriminate].
    - injection Hk as <-. cbn [i_root]. unfold root_metrics. rewrite (filter_comm (on_feature f) at_root), E, <- (filter_comm (on_feature f) at_root).
      destruct (length (filter (on_feature f) (filter at_root (importance_rows None rows)))); reflexivity.
    - apply String.eqb_eq in Eb6. congruence.
  Qed.

  Lemma row_of_feature rows f r : row_of rows f = Ok r -> i_feature r = f.
  Proof. unfold row_of. destruct (np_average N _); cbn [bind]; intros H; [injection H as <-; reflexivity|discriminate]. Qed.

  Lemma Forall2_in_l {A B} (P : A -> B -> Prop) l k x : Forall2 P l k -> In x l -> exists y, In y k /\ P x y.
  Proof. induction 1 as [|a b l k H HF IH]; [intros []|]. intros [<-|Hx]; [exists b; split; [left; reflexivity|exact H]|]. destruct (IH Hx) as (y & Hy & Hp). exists y. split; [right; exact Hy|exact Hp]. Qed.
  Lemma Forall2_in_r {A B} (P : A -> B -> Prop) l k y : Forall2 P l k -> In y k -> exists x, In x l /\ P x y.
  Proof. induction 1 as [|a b l k H HF IH]; [intros []|]. intros [<-|Hx]; [exists a; split; [left; reflexivity|exact H]|]. destruct (IH Hx) as (x & Hy & Hp). exists x. split; [right; exact Hy|exact Hp]. Qed.

  Lemma select_In full metric k t : importance_metric metric = Some k -> select_metric N srt full metric = Ok t ->
    forall f v, In (f, v) t <-> exists r, In r full /\ i_feature r = f /\ k r = v.
  Proof.
    intros Hk. unfold select_metric. rewrite Hk. intros H f v. injection H as <-.
    destruct (sort_values_ok N srt false (fun r : string * V => snd r) (map (fun r => (i_feature r, k r)) (sort_values N srt false k full)) Hsrt HN) as [P _].
    destruct (sort_values_ok N srt false k full Hsrt HN) as [P2 _].
    split.
    - intros H. apply (Permutation_in _ P) in H. apply in_map_iff in H as (r & E & Hr). injection E as <- <-. exists r. split; [apply (Permutation_in _ P2); exact Hr|auto].
    - intros (r & Hr & <- & <-). apply (Permutation_in _ (Permutation_sym P)). apply in_map_iff. exists r. split; [reflexivity|]. apply (Permutation_in _ (Permutation_sym P2)), Hr.
  Qed.

  (** C88: restricting the call to a list of features selects the rows of the full table *)
  Theorem C88_restriction_partial fs metric rows full part : ~ In "Leaf" fs -> metric <> "weighted_root_frequency" ->
    split_importance N srt None metric rows = Ok full -> split_importance N srt (Some fs) metric rows = Ok part ->
    forall f v, In (f, v) part <-> In (f, v) full /\ In f fs.
  Proof.
    intros Hl Hm Hfull Hpart. unfold split_importance in *.
    destruct (if existsb _ rows then _ else _) as [rows'|e]; cbn [bind] in *; [|discriminate].
    destruct (all_feature_importance N None rows') as [A|] eqn:EA; cbn [bind] in Hfull; [|discriminate].
    destruct (all_feature_importance N (Some fs) rows') as [B|] eqn:EB; cbn [bind] in Hpart; [|discriminate].
    destruct (importance_metric (V := V) metric) as [k|] eqn:Ek; [|unfold select_metric in Hfull; rewrite Ek in Hfull; discriminate].
    apply all_feature_rows in EA, EB. intros f v. rewrite (select_In A metric k full Ek Hfull), (select_In B metric k part Ek Hpart). split.
    - intros (r & Hr & <- & <-). destruct (Forall2_in_r _ _ _ _ EB Hr) as (f & Hf & Er). rewrite (row_of_feature _ _ _ Er).
      apply split_on_In in Hf as (u & Hu & Euf). apply filter_In in Hu as [Hu Hin]. rewrite Euf in Hin. apply existsb_exists in Hin as (f' & Hin & Ef'). apply String.eqb_eq in Ef'. subst f'.
      assert (Hne : f <> "Leaf") by (intros ->; auto).
      pose proof (row_of_restrict rows' fs f Hin Hne) as Hrr. rewrite Er in Hrr. destruct (row_of (importance_rows None rows') f) as [r'|] eqn:Er'; [|destruct Hrr].
      split; [|exact Hin]. assert (Hf' : In f (split_on (importance_rows None rows'))).
      { apply split_on_In. exists u. split; [|exact Euf]. apply filter_In. split; [exact Hu|]. rewrite Euf. apply negb_true_iff, String.eqb_neq, Hne. }
      destruct (Forall2_in_l _ _ _ _ EA Hf') as (r2 & Hr2 & E2). assert (r2 = r') by congruence. subst r2. exists r'. split; [exact Hr2|]. split; [apply (row_of_feature _ _ _ Er')|symmetry; eauto].
    - intros [(r & Hr & <- & <-) Hin]. destruct (Forall2_in_r _ _ _ _ EA Hr) as (f & Hf & Er). rewrite (row_of_feature _ _ _ Er) in *.
      assert (Hne : f <> "Leaf") by (intros ->; auto).
      pose proof (row_of_restrict rows' fs f Hin Hne) as Hrr. rewrite Er in Hrr. destruct (row_of (importance_rows (Some fs) rows') f) as [r'|] eqn:Er'; [|destruct Hrr].
      apply split_on_In in Hf as (u & Hu & Euf). apply filter_In in Hu as [Hu _].
      assert (Hf' : In f (split_on (importance_rows (Some fs) rows'))).
      { apply split_on_In. exists u. split; [|exact Euf]. apply filter_In. split; [exact Hu|]. rewrite Euf. apply existsb_exists. exists f. split; [exact Hin|apply String.eqb_refl]. }
      destruct (Forall2_in_l _ _ _ _ EB Hf') as (r2 & Hr2 & E2). assert (r2 = r') by congruence. subst r2. exists r'. split; [exact Hr2|]. split; [apply (row_of_feature _ _ _ Er')|eauto].
  Qed.

  (** and it works whenever one of the features is used by the model *)
  Theorem C88_restriction_works fs metric rows full : ~ In "Leaf" fs -> split_importance N srt None metric rows = Ok full ->
    (exists f, In f fs /\ In f (map fst full)) -> exists part, split_importance N srt (Some fs) metric rows = Ok part.
  Proof.
    intros Hl Hfull (f0 & Hf0 & Hin0). unfold split_importance in *.
    destruct (if existsb _ rows then _ else _) as [rows'|e]; cbn [bind] in *; [|discriminate].
    destruct (all_feature_importance N None rows') as [A|] eqn:EA; cbn [bind] in Hfull; [|discriminate].
    destruct (importance_metric (V := V) metric) as [k|] eqn:Ek; [|unfold select_metric in Hfull; rewrite Ek in Hfull; discriminate].
    apply all_feature_rows in EA.
    assert (Hall : forall f, In f (split_on (importance_rows (Some fs) rows')) -> exists r, row_of (importance_rows (Some fs) rows') f = Ok r).
    { intros f Hf. apply split_on_In in Hf as (u & Hu & Euf). apply filter_In in Hu as [Hu Hin]. rewrite Euf in Hin. apply existsb_exists in Hin as (f' & Hin & Ef'). apply String.eqb_eq in Ef'. subst f'.
      assert (Hne : f <> "Leaf") by (intros ->; auto).
      assert (Hf' : In f (split_on (importance_rows None rows'))).
      { apply split_on_In. exists u. split; [|exact Euf]. apply filter_In. split; [exact Hu|]. rewrite Euf. apply negb_true_iff, String.eqb_neq, Hne. }
      destruct (Forall2_in_l _ _ _ _ EA Hf') as (r2 & _ & E2). pose proof (row_of_restrict rows' fs f Hin Hne) as Hrr. rewrite E2 in Hrr.
      destruct (row_of (importance_rows (Some fs) rows') f) as [r'|]; [eauto|destruct Hrr]. }
    assert (HB : exists B, Forall2 (fun f r => row_of (importance_rows (Some fs) rows') f = Ok r) (split_on (importance_rows (Some fs) rows')) B).
    { revert Hall. generalize (split_on (importance_rows (Some fs) rows')) as l. induction l as [|f l IH]; intros H; [exists []; constructor|].
      destruct (H f (or_introl eq_refl)) as (r & Er). destruct IH as (B & HB); [intros; apply H; right; assumption|]. exists (r :: B). constructor; assumption. }
    destruct HB as (B & HB). rewrite (rows_all_feature (Some fs) rows' B); [|intros E|exact HB].
    - cbn [bind]. unfold select_metric. rewrite Ek. eauto.
    - apply in_map_iff in Hin0 as ([f v] & Ef & Hin0). cbn in Ef. subst f0. pose proof (proj1 (select_In A metric k full Ek Hfull f v) Hin0) as (r & Hr & Ef & _).
      destruct (Forall2_in_r _ _ _ _ EA Hr) as (f' & Hf' & Er). rewrite (row_of_feature _ _ _ Er) in Ef. subst f'. apply split_on_In in Hf' as (u & Hu & Euf). apply filter_In in Hu as [Hu _].
      assert (Hf' : In f (split_on (importance_rows (Some fs) rows'))).
      { apply split_on_In. exists u. split; [|exact Euf]. apply filter_In. split; [exact Hu|]. rewrite Euf. apply existsb_exists. exists f. split; [exact Hf0|apply String.eqb_refl]. }
      rewrite E in Hf'. destruct Hf'.
  Qed.

  (** C89: a direct call on a handler gives what fitting the method on it reports *)
  Theorem C89_handler_partial s h im fm od s' : ss_fit N srt s (Handler h) im fm od = (s', Ok tt) ->
    Some (importance_call N srt (Handler h) None (Some fm) None) = option_map Ok (ss_fi s')
    /\ forall m, unify_structure m = Ok h -> exists s2, ss_fit N srt s (Model m) im fm od = (s2, Ok tt) /\ ss_fi s2 = ss_fi s'.
  Proof.
    intros H. assert (Hm : forall m, unify_structure m = Ok h -> ss_fit N srt s (Model m) im fm od = (s', Ok tt)) by (intros m Em; unfold ss_fit in *; rewrite Em; exact H).
    split; [|intros m Em; exists s'; auto]. unfold ss_fit in H. destruct (check_metrics _ im fm); [|discriminate]. destruct (full_result N _ _); [|discriminate].
    destruct (get_ovo N srt _ _ im); [|discriminate]. unfold importance_call. cbn [bind].
    destruct (split_importance N srt None fm (h_trees h)); [|discriminate]. injection H as <-. reflexivity.
  Qed.
End Restrict.

(** ** Examples and refuted expectations *)

Definition ex_h : handler (ext Q) := match unify_structure (xgb_of ex_ts) with Ok h => h | Err _ => {| h_package := Xgboost; h_trees := [] |} end.

(** C88: the tables of two trees for all features and for one of them *)
Example C88_example : split_importance xQ isort None "sum_gain" (h_trees ex_h) = Ok [("b", q 8); ("a", q 7)]
  /\ split_importance xQ isort (Some ["a"; "z"]) "sum_gain" (h_trees ex_h) = Ok [("a", q 7)].
Proof. vm_compute. split; reflexivity. Qed.

(** C88: the weighted root frequency of a feature changes with the features asked for *)
Theorem C88_weighted_root_refuted : exists m ts Ls fs full part f v v', trained m Xgboost ts Ls /\ no_leaf_name ts /\
  exists h, unify_structure m = Ok h
  /\ importance_call xQ isort (Handler h) None (Some "weighted_root_frequency") None = Ok full
  /\ importance_call xQ isort (Handler h) (Some fs) (Some "weighted_root_frequency") None = Ok part
  /\ In f fs /\ In (f, v) full /\ In (f, v') part /\ n_eqb xQ v v' = false.
Proof.
  exists (xgb_of ex_ts), ex_ts, (map bfs_list ex_ts), ["a"], [("a", Fin (4 # 7)%Q); ("b", Fin (3 # 7)%Q)], [("a", q 1)], "a", (Fin (4 # 7)%Q), (q 1).
  split; [xgb_tac|]. split; [leaf_tac|]. exists ex_h. split; [vm_compute; reflexivity|]. split; [vm_compute; reflexivity|]. split; [vm_compute; reflexivity|].
  split; [left; reflexivity|]. split; [left; reflexivity|]. split; [left; reflexivity|]. vm_compute. reflexivity.
Qed.

(** C89: on the model itself the call fails *)
Theorem C89_model_refuted : exists m ts Ls, trained m Xgboost ts Ls /\ no_leaf_name ts
  /\ importance_call xQ isort (Model m) None (Some "mean_gain") None = Err AttributeError
  /\ snd (ss_fit xQ isort ss_init (Model m) "mean_gain" "mean_gain" true) = Ok tt.
Proof. exists (xgb_of ex_ts), ex_ts, (map bfs_list ex_ts). split; [xgb_tac|]. split; [leaf_tac|]. split; vm_compute; reflexivity. Qed.

(** C89: without a metric the call reports sums of gains, not the documented means *)
Theorem C89_default_metric_refuted : exists m ts Ls h, trained m Xgboost ts Ls /\ no_leaf_name ts /\ unify_structure m = Ok h
  /\ importance_call xQ isort (Handler h) None None None <> importance_call xQ isort (Handler h) None (Some "mean_gain") None
  /\ importance_call xQ isort (Handler h) None None None = importance_call xQ isort (Handler h) None (Some "sum_gain") None.
Proof. exists (xgb_of ex_ts), ex_ts, (map bfs_list ex_ts), ex_h. split; [xgb_tac|]. split; [leaf_tac|]. split; [vm_compute; reflexivity|]. split; [vm_compute; discriminate|reflexivity]. Qed.

Example C89_example : exists s', ss_fit xQ isort ss_init (Handler ex_h) "mean_gain" "mean_gain" true = (s', Ok tt) /\ unify_structure (xgb_of ex_ts) = Ok ex_h.
Proof. eexists. split; [vm_compute; reflexivity|reflexivity]. Qed.

Print Assumptions C88_restriction_partial.
Print Assumptions C88_restriction_works.
Print Assumptions C89_handler_partial.
Print Assumptions C88_weighted_root_refuted.
Print Assumptions C89_model_refuted.
Print Assumptions C89_default_metric_refuted.
