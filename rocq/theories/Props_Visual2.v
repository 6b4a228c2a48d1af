(** C56: accepted plots can be drawn.  C46: other plots are rejected.  C63: plot before fit. *)
From Verif Require Import Py Num Sorting Frame Rng PdCalc PdMethods PdMethodFacts PermRun Perm CondDepth TreeFacts ForestFacts SplitScore SplitFacts SplitTables SplitImp
  Comparator Props_Forest Props_Split Props_Compare Visual VisualFacts Props_Visual.
Open Scope string_scope.
Open Scope nat_scope.
Open Scope list_scope.

Section Draw.
  Context {V : Type} (N : num_ops V) (srt : sorter) (lower : string -> string).
  Hypothesis Hsrt : sorter_ok srt.
  Hypothesis HN : num_ord_ok N.
  Notation table := (list (string * string * V)).

  (** undirected matrices are square whatever is missing *)
  Lemma square_undirected (ovo : table) fi rows : all_pairs ovo (Some fi) false = Ok rows -> pivot_index N rows = pivot_columns N rows.
  Proof.
    intros E. pose proof (all_pairs_In ovo fi false rows E) as Hin. unfold pivot_index, pivot_columns. apply np_unique_same. intros f.
    rewrite <- (np_unique_In Scell Scell_ok (map Visual.f1 (defined N rows)) f (Snan f)), <- (np_unique_In Scell Scell_ok (map Visual.f2 (defined N rows)) f (Snan f)).
    fold (pivot_index N rows) (pivot_columns N rows). rewrite pivot_index_In, pivot_columns_In.
    split; intros (c & v & H & Hv); exists c, v; (split; [|exact Hv]); apply Hin; apply Hin in H as [H|[[_ H]|(-> & H)]]; auto.
  Qed.

  (** ** What the tables must satisfy *)

  (** every feature of a listed pair has an importance *)
  Definition importances_known (ovo : table) (fi : list (string * V)) : Prop := forall f, occurs f ovo -> In f (map fst fi).
  (** a pair of two different features is listed, and either all importances are defined or, in
      undirected tables, the interaction of the pair is *)
  Definition something_to_show (directed : bool) (ovo : table) (fi : list (string * V)) : Prop :=
    exists a b v, In (a, b, v) ovo /\ a <> b /\ ((forall f w, In (f, w) fi -> n_isnan N w = false) \/ (directed = false /\ n_isnan N v = false)).
  (** every feature with an importance is in a listed pair *)
  Definition nodes_known (ovo : table) (fi : list (string * V)) : Prop := forall f, In f (map fst fi) -> occurs f ovo.

  Lemma heatmap_drawn (ovo : table) fi title ia fa directed k : importances_known ovo fi -> something_to_show directed ovo fi ->
    exists p, plot_heatmap N srt lower ovo (Some fi) title ia fa directed k = Ok p.
  Proof.
    intros Hk (a & b & v & Hab & Hne & Hdef). unfold plot_heatmap.
    destruct (all_pairs ovo (Some fi) directed) as [rows|] eqn:E.
    2: { unfold all_pairs in E. destruct (diag_total N ovo fi Hk) as (d & Ed). rewrite Ed in E. discriminate. }
    cbn [bind]. pose proof (all_pairs_In ovo fi directed rows E) as Hin.
    assert (Hsq : pivot_index N rows = pivot_columns N rows /\ In a (pivot_index N rows) /\ In b (pivot_index N rows)).
    { destruct Hdef as [Hd|[-> Hv]].
      - destruct (square N ovo fi directed rows E Hd) as [H1 H2]. split; [exact H1|]. rewrite !H2. split; exists (a, b, v); cbn [fst snd]; auto.
      - split; [apply (square_undirected ovo fi rows E)|]. rewrite !pivot_index_In. split; [exists b, v|exists a, v]; (split; [|exact Hv]); apply Hin; auto. }
    destruct Hsq as (Hsq & Ha & Hb). rewrite <- Hsq.
    destruct (order_total N srt lower Hsrt HN (pivot_index N rows) (cell N rows) ia) as (ind & -> & Hi).
    { apply (np_unique_NoDup Scell Scell_ok). }
    { exists a, b. auto. }
    cbn [bind]. destruct ind; [congruence|]. eexists; reflexivity.
  Qed.

  Lemma edgelist_keys directed (t : table) e : In e (edgelist directed t) -> In (fst e) (map fst t).
  Proof.
    unfold edgelist. assert (G : forall l, In e (fold_left (fun l r => set_edge directed r l) t l) -> In (fst e) (map fst l) \/ In (fst e) (map fst t)).
    { induction t as [|r t IH]; intros l H; cbn [fold_left] in H; [left; apply in_map, H|]. apply IH in H as [H|H]; [|right; right; exact H].
      assert (G : In (fst e) (map fst l) \/ fst e = fst r).
      { clear -H. induction l as [|x l IHl]; cbn [set_edge] in H; [cbn in H; destruct H as [H|[]]; auto|].
        destruct (same_edge directed (fst x) (fst r)).
        - cbn [map fst] in H. left. exact H.
        - cbn [map] in H. destruct H as [H|H]; [left; left; exact H|]. apply IHl in H as [H|H]; [left; right; exact H|right; exact H]. }
      destruct G as [G|G]; [left; exact G|right; left; symmetry; exact G]. }
    intros H. apply G in H as [[]|H]. exact H.
  Qed.

  Lemma graph_drawn cfg (ovo : table) fi title ia directed k : nodes_known ovo fi -> (directed = true -> importances_known ovo fi) ->
    exists p, plot_graph N srt cfg ovo (Some fi) title ia directed k = Ok p.
  Proof.
    intros Hn Hk. unfold plot_graph. cbv zeta.
    assert (E1 : forallb (fun r => str_in (fst r) (all_features ovo)) fi = true).
    { apply forallb_forall. intros r Hr. apply str_in_In, all_features_In, Hn, in_map, Hr. }
    rewrite E1. cbn [negb]. destruct directed; [|cbn [andb]; eexists; reflexivity]. cbn [andb].
    match goal with |- context [forallb ?q ?l] => assert (E2 : forallb q l = true) end.
    { apply forallb_forall. intros e He. apply edgelist_keys in He. unfold edge_widths, map_to_width, reverse_scale, scale_to_unit, filter_insignificant in He.
      assert (Hf : In (fst e) (map fst ovo)).
      { clear -He. assert (G : forall f (t : table), map fst (on_values f t) = map fst t) by (intros f t; unfold on_values; rewrite map_map; reflexivity).
        destruct ia; rewrite !G in He; exact He. }
      apply in_map_iff in Hf as (r & Er & Hr). unfold Visual.f1, Visual.f2. rewrite <- Er.
      apply andb_true_iff. split; apply str_in_In; apply (Hk eq_refl); exists r; auto. }
    rewrite E2. cbn [negb]. eexists; reflexivity.
  Qed.

  Lemma bars_drawn name (ovo : table) title k : ovo <> [] -> k_top k <> Some 0 -> exists p, plot_bars_ovo name ovo title k = Ok p.
  Proof.
    intros Ho Hk. unfold plot_bars_ovo, barh. destruct ovo as [|r t]; [congruence|]. cbn [map].
    destruct (k_top k) as [[|n]|]; [congruence|cbn [pop firstn]|cbn [pop firstn]]; eexists; reflexivity.
  Qed.
  Lemma bars_ova_drawn name (ova : list (string * V)) title k : ova <> [] -> k_top k <> Some 0 -> exists p, plot_bars_ova name (Some ova) title k = Ok p.
  Proof.
    intros Ho Hk. unfold plot_bars_ova, barh. destruct ova as [|r t]; [congruence|].
    destruct (k_top k) as [[|n]|]; [congruence|cbn [pop firstn]|cbn [pop firstn]]; eexists; reflexivity.
  Qed.

  (** arguments asking for at least one bar and no more levels than there are colours *)
  Definition usable (k : all_kwargs (V:=V)) : Prop :=
    k_top (k_own k) <> Some 0 /\ (forall n, k_max_depth (k_own k) = Some n -> n < 6)
    /\ (forall o, k_ovo k = Some o -> k_top o <> Some 0) /\ (forall o, k_ova k = Some o -> k_top o <> Some 0).

  (** the tables of a method, complete enough for all its plots *)
  Record ready (m : imethod) (d : plot_data (V:=V)) : Prop := {
    rd_fi : exists fi, pd_fi d = Some fi /\ importances_known (pd_ovo d) fi /\ something_to_show (pd_directed d) (pd_ovo d) fi /\ nodes_known (pd_ovo d) fi;
    rd_ova : forall ova, pd_ova d = Some ova -> ova <> [];
    rd_ova_h : m = HStatistic -> pd_ova d <> None;
    rd_full : m = SplitScoreM -> pd_full d <> None;
    rd_cond : m = ConditionalDepth -> pd_cond d <> [] }.

  Theorem C56_ready_partial m d vis_type title k : ready m d -> usable k -> In vis_type (accepted_visualizations m) ->
    exists f, visualize N srt lower m d vis_type title k = Ok f /\ snd f <> [].
  Proof.
    intros [(fi & Efi & Hk & Hs & Hn) Hova Hovah Hfull Hcond] (U1 & U2 & U3 & U4) Hin. unfold visualize. apply str_in_In in Hin as Hb. rewrite Hb. cbn [negb].
    assert (Hne : pd_ovo d <> []) by (destruct Hs as (a & b & v & H & _); intros E; rewrite E in H; destruct H).
    assert (Hh : forall title ia fa k, exists p, plot_heatmap N srt lower (pd_ovo d) (pd_fi d) title ia fa (pd_directed d) k = Ok p).
    { intros. rewrite Efi. apply heatmap_drawn; assumption. }
    assert (Hg : forall title ia k, exists p, plot_graph N srt (graph_config_of N m) (pd_ovo d) (pd_fi d) title ia (pd_directed d) k = Ok p).
    { intros. rewrite Efi. apply graph_drawn; auto. }
    assert (Ho : exists p, plot_bars_ovo (method_name m) (pd_ovo d) title (k_own k) = Ok p) by (apply bars_drawn; assumption).
    destruct (String.eqb_spec vis_type "summary") as [->|N1].
    { unfold plot_summary. cbv zeta.
      match goal with |- context [plot_heatmap N srt lower _ _ ?t ?a ?b _ ?kk] => destruct (Hh t a b kk) as (h & ->) end. cbn [bind].
      match goal with |- context [plot_graph N srt _ _ _ ?t ?a _ ?kk] => destruct (Hg t a kk) as (g & ->) end. cbn [bind].
      match goal with |- context [plot_bars_ovo _ _ ?t ?kk] => destruct (bars_drawn (method_name m) (pd_ovo d) t kk Hne) as (b & ->) end.
      { destruct (k_ovo k) as [o|]; cbn [pop]; [apply U3; reflexivity|discriminate]. }
      cbn [bind]. destruct (pd_ova d) as [ova|]; [|cbn [bind]; eexists; split; [reflexivity|discriminate]].
      match goal with |- context [plot_bars_ova _ _ ?t ?kk] => destruct (bars_ova_drawn (method_name m) ova t kk (Hova ova eq_refl)) as (a & ->) end.
      { destruct (k_ova k) as [o|]; cbn [pop]; [apply U4; reflexivity|discriminate]. }
      cbn [bind]. eexists; split; [reflexivity|discriminate]. }
    destruct (String.eqb_spec vis_type "graph") as [->|N2].
    { match goal with |- context [plot_graph N srt _ _ _ ?t ?a _ ?kk] => destruct (Hg t a kk) as (g & ->) end. cbn [bind]. eexists; split; [reflexivity|discriminate]. }
    destruct (String.eqb_spec vis_type "bar_chart_ova") as [->|N3].
    { assert (m = HStatistic) as ->. { destruct m; [reflexivity| | | |]; cbn in Hb; discriminate. }
      destruct (pd_ova d) as [ova|] eqn:Eo; [|exfalso; apply (Hovah eq_refl); reflexivity].
      destruct (bars_ova_drawn (method_name HStatistic) ova "default" (k_own k) (Hova ova eq_refl) U1) as (a & ->). cbn [bind]. eexists; split; [reflexivity|discriminate]. }
    destruct (String.eqb_spec vis_type "heatmap") as [->|N4].
    { match goal with |- context [plot_heatmap N srt lower _ _ ?t ?a ?b _ ?kk] => destruct (Hh t a b kk) as (h & ->) end. cbn [bind]. eexists; split; [reflexivity|discriminate]. }
    destruct (String.eqb_spec vis_type "bar_chart") as [->|N5].
    { destruct Ho as (b & ->). cbn [bind]. eexists; split; [reflexivity|discriminate]. }
    destruct (String.eqb_spec vis_type "lollipop") as [->|N6].
    { assert (m = SplitScoreM) as ->. { destruct m; [| | |reflexivity|]; cbn in Hb; discriminate. }
      destruct (pd_full d) as [full|]; [|exfalso; apply (Hfull eq_refl); reflexivity]. unfold plot_lollipop. cbv zeta.
      assert (E6 : (6 <=? pop (k_max_depth (k_own k)) 1) = false).
      { apply Nat.leb_gt. destruct (k_max_depth (k_own k)) as [n|]; cbn [pop]; [apply U2; reflexivity|lia]. }
      rewrite E6. cbn [bind]. eexists; split; [reflexivity|discriminate]. }
    destruct (String.eqb_spec vis_type "bar_chart_conditional") as [->|N7].
    { assert (m = ConditionalDepth) as ->. { destruct m; [| | | |reflexivity]; cbn in Hb; discriminate. }
      rewrite Efi. unfold plot_bars_conditional. specialize (Hcond eq_refl). destruct (pd_cond d) as [|r t]; [congruence|].
      destruct (k_top (k_own k)) as [[|n]|]; [congruence|cbn [pop firstn]|cbn [pop firstn]]; cbn [bind]; eexists; (split; [reflexivity|discriminate]). }
    exfalso. clear -Hin N1 N2 N3 N4 N5 N6 N7. destruct m; cbn in Hin; intuition congruence.
  Qed.

  (** a listed feature without importance: no heatmap and no summary *)
  Theorem C56_no_importance_partial m d title k fi f : pd_fi d = Some fi -> occurs f (pd_ovo d) -> ~ In f (map fst fi) ->
    visualize N srt lower m d "heatmap" title k = Err IndexError /\ visualize N srt lower m d "summary" title k = Err IndexError.
  Proof.
    intros Efi Ho Hf.
    assert (Hh : forall title ia fa k, plot_heatmap N srt lower (pd_ovo d) (pd_fi d) title ia fa (pd_directed d) k = Err IndexError).
    { intros. unfold plot_heatmap, all_pairs. rewrite Efi, (diag_missing (pd_ovo d) fi f Ho Hf). reflexivity. }
    unfold visualize, plot_summary. destruct m; cbn [accepted_visualizations str_in existsb String.eqb negb Ascii.eqb Bool.eqb andb orb]; cbv zeta; rewrite !Hh; split; reflexivity.
  Qed.
  (** a feature with importance but in no listed pair: no graph and no summary *)
  Theorem C56_isolated_node_partial m d title k fi f : pd_fi d = Some fi -> In f (map fst fi) -> ~ occurs f (pd_ovo d) ->
    visualize N srt lower m d "graph" title k = Err NetworkXError /\ forall fig, visualize N srt lower m d "summary" title k <> Ok fig.
  Proof.
    intros Efi Hf Ho.
    assert (Hg : forall cfg title ia k, plot_graph N srt cfg (pd_ovo d) (pd_fi d) title ia (pd_directed d) k = Err NetworkXError).
    { intros. unfold plot_graph. cbv zeta. rewrite Efi.
      assert (E1 : forallb (fun r => str_in (fst r) (all_features (pd_ovo d))) fi = false).
      { apply not_true_iff_false. intros H. apply in_map_iff in Hf as (r & <- & Hr). rewrite forallb_forall in H. apply H in Hr. apply str_in_In, all_features_In in Hr. contradiction. }
      rewrite E1. reflexivity. }
    unfold visualize, plot_summary. destruct m; cbn [accepted_visualizations str_in existsb String.eqb negb Ascii.eqb Bool.eqb andb orb]; cbv zeta; rewrite !Hg;
      (split; [reflexivity|]); intros fig; (destruct (plot_heatmap _ _ _ _ _ _ _ _ _ _); discriminate).
  Qed.

  (** ** C46 *)
  Theorem C46_visualizations m d vis_type title k : visualize N srt lower m d vis_type title k = Err VisualizationNotSupported <-> ~ In vis_type (accepted_visualizations m).
  Proof.
    split.
    - intros H Hin. revert H. unfold visualize. apply str_in_In in Hin. rewrite Hin. cbn [negb].
      assert (G : forall A (r : result A) (g : A -> result (figure (V:=V))), r <> Err VisualizationNotSupported -> (forall a, g a <> Err VisualizationNotSupported) ->
                  (do x <- r; g x) <> Err VisualizationNotSupported) by (intros A [a|e] g H1 H2; cbn [bind]; [apply H2|congruence]).
      assert (Hh : forall (ovo : table) fi t a b dd kk, plot_heatmap N srt lower ovo fi t a b dd kk <> Err VisualizationNotSupported).
      { intros. unfold plot_heatmap. assert (H0 : forall r, all_pairs ovo fi dd = Err r -> r = IndexError).
        { intros r. unfold all_pairs. destruct fi as [fi|]; [|discriminate]. destruct (importance_diag ovo fi) as [x|e] eqn:E; [discriminate|]. cbn [bind]. intros [= <-].
          unfold importance_diag in E. apply mapM_err in E as (g & _ & Eg). pose proof (importance_of_spec fi g) as Hs. destruct (importance_of fi g); [discriminate|]. destruct Hs. cbn [bind] in Eg. congruence. }
        destruct (all_pairs ovo fi dd) as [rows|e]; [|rewrite (H0 e eq_refl); discriminate]. cbn [bind].
        assert (H1 : forall idx cols mm asc r, order_heatmap N srt lower idx cols mm asc = Err r -> r <> VisualizationNotSupported).
        { intros idx cols mm asc r. unfold order_heatmap. destruct (_ <? _); [intros [= <-]; discriminate|]. destruct (mapM _ idx) as [x|e] eqn:E; [discriminate|]. cbn [bind]. intros [= <-].
          apply mapM_err in E as (g & _ & Eg). unfold heatmap_score in Eg. destruct (str_in g cols); cbn [bind] in Eg; [|congruence]. unfold py_max in Eg. destruct (map _ (remove1 g idx)); cbn [bind] in Eg; congruence. }
        destruct (order_heatmap _ _ _ _ _ _ _) as [ind|e] eqn:E; [|cbn [bind]; intros [= ->]; apply (H1 _ _ _ _ _ E); reflexivity]. cbn [bind]. destruct ind; discriminate. }
      assert (Hg : forall cfg (ovo : table) fi t a dd kk, plot_graph N srt cfg ovo fi t a dd kk <> Err VisualizationNotSupported).
      { intros. unfold plot_graph. cbv zeta. destruct fi as [fi|]; [|discriminate]. destruct (negb _); [discriminate|]. destruct (dd && _); discriminate. }
      assert (Hb : forall t a (l : list (string * V)), barh t a l <> Err VisualizationNotSupported) by (intros t a [|x l]; discriminate).
      assert (Ho : forall n (ovo : table) t kk, plot_bars_ovo n ovo t kk <> Err VisualizationNotSupported) by (intros; apply Hb).
      assert (Ha : forall n (ova : option (list (string * V))) t kk, plot_bars_ova n ova t kk <> Err VisualizationNotSupported) by (intros n [ova|] t kk; [apply Hb|discriminate]).
      destruct (String.eqb vis_type "summary").
      { unfold plot_summary. cbv zeta. apply G; [apply Hh|]. intros h. apply G; [apply Hg|]. intros g. apply G; [apply Ho|]. intros b.
        destruct (pd_ova d) as [ova|]; [|discriminate]. destruct (plot_bars_ova _ _ _ _) as [x|e] eqn:E; [discriminate|]. cbn [bind]. intros [= ->]. apply (Ha _ _ _ _ E). }
      destruct (String.eqb vis_type "graph"); [apply G; [apply Hg|discriminate]|]. destruct (String.eqb vis_type "bar_chart_ova"); [apply G; [apply Ha|discriminate]|].
      destruct (String.eqb vis_type "heatmap"); [apply G; [apply Hh|discriminate]|]. destruct (String.eqb vis_type "bar_chart"); [apply G; [apply Ho|discriminate]|].
      destruct (String.eqb vis_type "lollipop"); [apply G; [|discriminate]; unfold plot_lollipop; destruct (pd_full d); [cbv zeta; destruct (6 <=? _); discriminate|discriminate]|].
      destruct (String.eqb vis_type "bar_chart_conditional"); [|discriminate]. apply G; [|discriminate]. unfold plot_bars_conditional. destruct (pd_fi d); [|discriminate]. destruct (firstn _ _); discriminate.
    - intros H. unfold visualize. destruct (str_in vis_type (accepted_visualizations m)) eqn:E; [apply str_in_In in E; contradiction|reflexivity].
  Qed.
  (** the accepted types are the documented ones *)
  Theorem C46_accepted_types m v : In v (accepted_visualizations m) <->
    In v ["summary"; "graph"; "bar_chart"; "heatmap"] \/ (m = HStatistic /\ v = "bar_chart_ova") \/ (m = ConditionalDepth /\ v = "bar_chart_conditional") \/ (m = SplitScoreM /\ v = "lollipop").
  Proof. destruct m; cbn; intuition congruence. Qed.
End Draw.

Print Assumptions C56_ready_partial.
Print Assumptions C56_no_importance_partial.
Print Assumptions C56_isolated_node_partial.
Print Assumptions C46_visualizations.
Print Assumptions C46_accepted_types.
