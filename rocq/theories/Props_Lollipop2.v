(** C104, continued: XGBoost ensembles in which some trees consist of a single leaf. *)
From Verif Require PdMethodReal.
From Verif Require Import Py Num NumR Sorting Frame CondDepth TreeFacts ForestFacts SplitScore SplitFacts SplitTables SplitImp
  Comparator Props_Compare Props_Split Props_Split2 Visual VisualFacts Props_Visual Props_Visual2 Props_Visual3 Props_Visual4 Props_Visual5 Props_Visual6 Props_Visual7 Props_Lollipop.
From Coq Require Import Reals Lra QArith.
Open Scope string_scope.
Open Scope nat_scope.
Open Scope list_scope.

Notation entry := SplitFacts.entry.

Section Labels.
  Context {V : Type} (N : num_ops V) (srt : sorter) (lower : string -> string).
  Notation entry := (SplitFacts.entry V).
  Notation node := (Z * entry)%type.
  Notation fit := (ss_fit N srt).
  Notation plot := (ss_plot N srt lower).

    (** a tree that is a single leaf has no annotation and does not count for the share of the trees *)
  Theorem C104_roots_xgboost zs s arg ts Ls im fm od s' title k fig :
    num_ord_ok N -> fitted_at zs arg Xgboost ts Ls -> no_leaf_name ts -> fit s arg im fm od = (s', Ok tt) -> plot s' "lollipop" title k = Ok fig ->
    (forall x, In x (tagged zs Ls) -> gsplit (e_node (snd x)) = true -> n_isnan N (egain N (snd x)) = false) ->
    k_labels (k_own k) <> Some false ->
    let share := pop (k_max_trees (k_own k)) (n_div N (n_ofZ N 1) (n_ofZ N 5)) in
    let lt := pop (k_label_threshold (k_own k)) (n_div N (n_ofZ N 1) (n_ofZ N 10)) in
    let shown := in_share N share (fun x => root_of (tagged zs Ls) x /\ gsplit (e_node (snd x)) = true) in
    exists t roots points nl rl, fig = (None, [PLollipop t roots points nl rl])
      /\ exists sel, NoDup sel /\ rl = map (fun x => (feature_label x, at_point N x)) sel
           /\ ((sel = [] /\ forall x, ~ shown x)
               \/ exists top, shown top /\ (forall x, shown x -> n_ltb N (egain N (snd top)) (egain N (snd x)) = false)
                   /\ forall x, In x sel <-> shown x /\ n_ltb N (egain N (snd x)) (n_mul N lt (egain N (snd top))) = false).
  Proof.
    intros HN Hf Hn Hfit Hp Hga Hlab share lt shown. destruct (C42_tree_numbers N srt zs s arg Xgboost ts Ls im fm od s' Hf (fun _ => Hn) Hfit) as (full & Ef & HF).
    assert (Htr : StronglySorted Z.lt zs /\ length zs = length Ls /\ Forall2 listing ts Ls) by (destruct Hf as (m & (H1 & H2 & H3 & _) & _); auto). destruct Htr as (Hs & Hl & HL).
    apply (rows_placed N zs Xgboost ts Ls full Hl HL) in HF. pose proof (tagged_nodup zs ts Ls Hs Hl HL) as HD.
    destruct (lollipop_figure N srt lower s' title k fig full Hp Ef) as (t & ->). fold share lt. do 5 eexists. split; [reflexivity|].
    replace (pop (k_labels (k_own k)) true) with true by (destruct (k_labels (k_own k)) as [[]|]; cbn; congruence).
    set (T := filter (fun x : node => (e_depth (snd x) =? 0) && gsplit (e_node (snd x))) (tagged zs Ls)).
    assert (HT : Forall2 (row_of N Xgboost) T (filter (at_depth 0) full)).
    { apply Forall2_filter_r; [exact HF|]. intros x r Hx Hr. destruct (gsplit (e_node (snd x))) eqn:Eg; [rewrite andb_true_r; symmetry; apply (row_depth N Xgboost x r 0 Hr Eg)|].
      rewrite andb_false_r. destruct Hr as (_ & _ & _ & H). unfold at_depth. destruct (e_node (snd x)); [|discriminate]. destruct H as (_ & _ & _ & _ & ->). reflexivity. }
    assert (HTP : forall x, In x T <-> root_of (tagged zs Ls) x /\ gsplit (e_node (snd x)) = true) by (intros x; unfold T, root_of; rewrite filter_In, andb_true_iff, Nat.eqb_eq; tauto).
    destruct (share_rows N Xgboost share T _ _ HT HTP (NoDup_filter' _ _ HD)) as (S & HS & HSn & HSP). fold shown in HSP.
    assert (Hsp : forall x, In x S -> gsplit (e_node (snd x)) = true) by (intros x Hx; apply HSP in Hx as ((_ & H) & _); exact H).
    assert (Hg : forall x r, In x S -> row_of N Xgboost x r -> u_gain r = egain N (snd x)).
    { intros x r Hx Hr. pose proof (f_equal snd (row_point N Xgboost x r Hr (Hsp x Hx))) as E. unfold at_point, point in E. cbn [snd] in E. symmetry. exact E. }
    set (rows := early_trees N share (filter (at_depth 0) full)) in *.
    assert (Hgs : map u_gain rows = map (fun x => egain N (snd x)) S) by (symmetry; apply (Forall2_map_eq (row_of N Xgboost) _ _ _ _ HS); intros x r Hx Hr; symmetry; apply Hg; assumption).
    rewrite Hgs. destruct S as [|x0 S0] eqn:ES.
    { inversion HS as [E|]. exists []. split; [constructor|]. split; [reflexivity|]. left. split; [reflexivity|]. intros x Hx. apply HSP in Hx. destruct Hx. }
    assert (Hne : S <> []) by (intros E; rewrite E in ES; discriminate). rewrite <- ES in *. clear ES.
    assert (Hnn : forall x, In x S -> n_isnan N (egain N (snd x)) = false) by (intros x Hx; apply Hga; [apply HSP in Hx as (((H & _) & _) & _); exact H|apply Hsp, Hx]).
    destruct (series_max_top N (map (fun x => egain N (snd x)) S) HN) as (HM & HMax).
    { intros E. apply map_eq_nil in E. contradiction. }
    { intros v Hv. apply in_map_iff in Hv as (x & <- & Hx). apply Hnn, Hx. }
    apply in_map_iff in HM as (top & Etop & Htop). rewrite <- Etop in *.
    exists (filter (fun x => negb (n_ltb N (egain N (snd x)) (n_mul N lt (egain N (snd top))))) S). split; [apply NoDup_filter', HSn|]. split.
    - symmetry. apply (Forall2_map_eq (row_of N Xgboost)).
      + apply Forall2_filter_r; [exact HS|]. intros x r Hx Hr. rewrite (Hg x r Hx Hr), (Hnn x Hx). reflexivity.
      + intros x r Hx Hr. apply filter_In in Hx as [Hx _]. rewrite (row_point N Xgboost x r Hr (Hsp x Hx)). f_equal. pose proof (Hsp x Hx) as Hgx. destruct Hr as (_ & _ & _ & H).
        unfold feature_label, efeat. destruct (e_node (snd x)); [discriminate|]. destruct H as (_ & -> & _). reflexivity.
    - right. exists top. split; [apply HSP, Htop|]. split.
      + intros x Hx. apply HMax, in_map_iff. exists x. split; [reflexivity|apply HSP, Hx].
      + intros x. rewrite filter_In, negb_true_iff, HSP. reflexivity.
  Qed.
End Labels.

(** ** A case meeting the hypotheses: the last of three trees is a single leaf *)
Definition leaf_ts := [ex_g1; ex_g2; GLeaf 0].
Lemma leaf_trained_at : trained_at [0; 1; 2]%Z (xgb_of leaf_ts) Xgboost leaf_ts (map bfs_list leaf_ts).
Proof.
  apply (xgb_trained_at leaf_ts); [intros t Ht; in_cases Ht; (split; [reflexivity|listing_tac])|intros t e Ht He; in_cases Ht; vm_compute in He; in_cases He; cbn; congruence].
Qed.
Example C104_leaf_example : exists s',
  fitted_at [0; 1; 2]%Z (Model (xgb_of leaf_ts)) Xgboost leaf_ts (map bfs_list leaf_ts) /\ no_leaf_name leaf_ts /\ num_ord_ok xQ
  /\ splitQ leaf_ts true = (s', Ok tt)
  /\ (forall x, In x (tagged [0; 1; 2]%Z (map bfs_list leaf_ts)) -> gsplit (e_node (snd x)) = true -> n_isnan xQ (egain xQ (snd x)) = false)
  /\ ss_plot xQ isort same s' "lollipop" "default" (own (with_share (q 1)))
     = Ok (None, [PLollipop "Lollipop boosting model summary" [(1%Z, q 4)] [[(1%Z, q 5); (1%Z, q 2)]] [("a:b", (1%Z, q 5))] [("a", (1%Z, q 4))]]).
Proof.
  eexists. split; [exists (xgb_of leaf_ts); split; [exact leaf_trained_at|left; reflexivity]|]. split; [leaf_tac|]. split; [exact xQ_ord|]. split; [vm_compute; reflexivity|].
  split; [|vm_compute; reflexivity].
  intros x Hx. vm_compute in Hx. in_cases Hx; intros H; try discriminate H; vm_compute; reflexivity.
Qed.

Print Assumptions C104_roots_xgboost.
