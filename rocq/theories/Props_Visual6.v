(** Examples for the plots, and expectations that fail. *)
From Verif Require Import Py Num NumR Sorting Frame Rng PdSpec PdCalc PdMethods PdMethodFacts Perm PermRun CondDepth TreeFacts ForestFacts SplitScore SplitFacts SplitTables SplitImp
  Comparator Props_Pd Props_Perm Props_Methods2 Props_Forest Props_Split Props_Split2 Props_Compare Visual VisualFacts Props_Visual Props_Visual2 Props_Visual3 Props_Visual4 Props_Visual5.
From Coq Require Import Reals Lra QArith.
Open Scope string_scope.
Open Scope nat_scope.
Open Scope list_scope.

Definition same (s : string) : string := s.
Definition none := no_all_kwargs (V := ext Q).
Definition own (k : kwargs (V := ext Q)) : all_kwargs (V := ext Q) := {| k_own := k; k_heatmap := None; k_graph := None; k_ovo := None; k_ova := None |}.
Definition with_threshold (v : ext Q) : kwargs (V := ext Q) := {| k_title := None; k_top := None; k_width := None; k_threshold := Some v; k_nlabels := None;
    k_icmap := None; k_fcmap := None; k_max_trees := None; k_max_depth := None; k_label_threshold := None; k_labels := None |}.
Definition with_share (v : ext Q) : kwargs (V := ext Q) := {| k_title := None; k_top := None; k_width := None; k_threshold := None; k_nlabels := None;
    k_icmap := None; k_fcmap := None; k_max_trees := Some v; k_max_depth := None; k_label_threshold := None; k_labels := None |}.
Example usable_none : usable none.
Proof. repeat split; discriminate. Qed.

(** a fitted split score method, a forest *)
Definition splitQ ts od := ss_fit xQ isort ss_init (Model (xgb_of ts)) "sum_gain" "sum_gain" od.
Definition split_plot ts od := ss_plot xQ isort same (fst (splitQ ts od)).
Definition forestQ m := cmd_fit xQ isort cs_init m.
Definition forest_plot m := cmd_plot xQ isort same (fst (forestQ m)).
Definition big_forest : forest := {| fo_names := Some ["x"; "y"; "z"; "w"]; fo_trees := [ex_arrays; ex_arrays_bf] |}.
Lemma big_stored : Forall2 stored (fo_trees big_forest) [ex_tree; ex_tree_bf].
Proof. apply Forall2_cons; [exact ex_stored|]. apply Forall2_cons; [exact ex_stored_bf|]. apply Forall2_nil. Qed.

(** ** C55 *)
Example C55_example :
  split_plot ex_ts true "heatmap" "default" none = Ok (None, [PHeatmap "Interaction matrix" "Purples" "Greens" ["b"; "a"] [[Some (q 8); None]; [None; Some (q 7)]] [[None; Some (q 5)]; [Some (q 5); None]]])
  /\ good_pairs false [("a", "b", q 5)] /\ ss_ovo (fst (splitQ ex_ts true)) = Some [("a", "b", q 5)].
Proof.
  split; [vm_compute; reflexivity|]. split; [|vm_compute; reflexivity]. split.
  - intros x [<-|[]]. discriminate.
  - intros x y r c [<-|[]] [<-|[]] _ _. reflexivity.
Qed.
(** the split score lists a pair in both orders, and a feature with itself: the matrix is not
    symmetric, and the diagonal does not show the importance (7 for a) *)
Theorem C55_split_refuted : exists ts, trained (xgb_of ts) Xgboost ts (map bfs_list ts) /\ snd (splitQ ts false) = Ok tt
  /\ In ("a", q 7) (match ss_fi (fst (splitQ ts false)) with Some fi => fi | None => [] end)
  /\ split_plot ts false "heatmap" "default" none
     = Ok (None, [PHeatmap "Interaction matrix" "Purples" "Greens" ["b"; "a"] [[Some (q 8); None]; [None; Some (q 2)]] [[None; Some (q 1)]; [Some (q 5); None]]]).
Proof. exists ex_ts. split; [exact ex_trained|]. split; [vm_compute; reflexivity|]. split; [vm_compute; auto|]. vm_compute. reflexivity. Qed.
Print Assumptions C55_split_refuted.

(** ** C56 *)
Example C56_friedman_example :
  let r := fitQ (Friedman true) init0 (mkargs exP exX None true None) in
  snd r = Ok tt /\ NoDup (fitted_features (mkargs exP exX None true None)) /\ 2 <= length (fitted_features (mkargs exP exX None true None)) /\ usable none /\ n_isnan xQ (n_ofZ xQ 0) = false
  /\ pd_plot xQ isort same (Friedman true) (fst r) "bar_chart_ova" "default" none
     = Ok (None, [PBars "Interaction with all other features" "Friedman H-statistic Interaction Measure" [("a", Fin (1 # 21)); ("b", Fin (1 # 21))]]).
Proof.
  cbv zeta. split; [vm_compute; reflexivity|]. split; [repeat constructor; cbn; intuition congruence|]. split; [cbn; lia|]. split; [exact usable_none|]. split; [reflexivity|]. vm_compute. reflexivity.
Qed.
Example C56_greenwell_example :
  let r := fitQ Greenwell init0 (mkargs exP exX None true None) in
  snd r = Ok tt /\ exists h g b, pd_plot xQ isort same Greenwell (fst r) "summary" "My plot" none = Ok (Some "My plot", [h; g; b]).
Proof. cbv zeta. split; [vm_compute; reflexivity|]. do 3 eexists. vm_compute. reflexivity. Qed.
Example C56_sejong_example :
  let '(s, o, log) := ex_fit (MSE xQ) 5 (sj_init (r_seed rotR 1)) (ex_args times (ex_y [0; 0; 3; 35; 40]%Z) None 2) in
  o = Ok tt /\ NoDup (Props_Perm.included (ex_args times (ex_y [0; 0; 3; 35; 40]%Z) None 2)) /\ (exists r, In r (match sj_ovo s with Some t => t | None => [] end) /\ n_isnan xQ (snd r) = false)
  /\ sj_plot xQ isort same s "bar_chart" "default" none = Ok (None, [PBars "Pair interactions" "Sejong Oh Performance Based Interaction Measure" [("a:b", Fin (2639 # 5))]]).
Proof.
  vm_compute. split; [reflexivity|]. split; [repeat constructor; cbn; intuition congruence|]. split; [|reflexivity]. eexists. split; [left; reflexivity|reflexivity].
Qed.
Example C56_forest_example : fo_names ex_forest = Some ["x"; "y"] /\ Forall2 stored (fo_trees ex_forest) [ex_tree; ex_tree] /\ known_features 2 [ex_tree; ex_tree]
  /\ (forall i, i < 2 -> exists t, In t [ex_tree; ex_tree] /\ feature_nodes i t <> []).
Proof.
  split; [reflexivity|]. split; [apply C38_example|]. split.
  - intros f t Ht Hf. destruct f as [|[|f]]; [lia|lia|]. exfalso. apply Hf. destruct Ht as [<-|[<-|[]]]; reflexivity.
  - intros [|[|i]] Hi; [| |lia]; exists ex_tree; (split; [left; reflexivity|discriminate]).
Qed.
Example C56_split_example : trained (xgb_of ex_ts) Xgboost ex_ts (map bfs_list ex_ts) /\ no_leaf_name ex_ts /\ snd (splitQ ex_ts true) = Ok tt
  /\ (forall e f, In e (concat (map bfs_list ex_ts)) -> efeat e = Some f -> exists e' p, In e' (concat (map bfs_list ex_ts)) /\ chosen xQ true e' = true /\ epair e' = Some p /\ (fst p = f \/ snd p = f))
  /\ (forall t fi, ss_ovo (fst (splitQ ex_ts true)) = Some t -> ss_fi (fst (splitQ ex_ts true)) = Some fi -> something_to_show xQ false t fi)
  /\ exists h g b, split_plot ex_ts true "summary" "default" none = Ok (Some "Split Score Interaction Measure summary", [h; g; b]).
Proof.
  split; [exact ex_trained|]. split; [exact ex_noleaf|]. split; [vm_compute; reflexivity|]. split; [|split].
  - intros e f He Hf. set (e1 := nth 1 (concat (map bfs_list ex_ts)) e). exists e1, ("a", "b"). split; [vm_compute; auto|]. split; [vm_compute; reflexivity|]. split; [vm_compute; reflexivity|].
    vm_compute in He. in_cases He; vm_compute in Hf; try discriminate; injection Hf as <-; cbn; auto.
  - intros t fi Et Ef. assert (t = [("a", "b", q 5)]) as -> by (vm_compute in Et; congruence). exists "a", "b", (q 5). split; [left; reflexivity|]. split; [discriminate|]. right. split; reflexivity.
  - do 3 eexists. vm_compute. reflexivity.
Qed.
(** a fit without one-vs-all values succeeds, but nothing can be plotted *)
Theorem C56_friedman_refuted : exists a : fargs Z (ext Q), snd (fitQ (Friedman true) init0 a) = Ok tt /\ m_ovo (fst (fitQ (Friedman true) init0 a)) <> None
  /\ pd_plot xQ isort same (Friedman true) (fst (fitQ (Friedman true) init0 a)) "heatmap" "default" none = Err MethodNotFitted.
Proof. exists (mkargs exP exX None false None). vm_compute. repeat split. discriminate. Qed.
Print Assumptions C56_friedman_refuted.
(** a forest that does not use one of its features *)
Theorem C56_forest_refuted : exists m ts, Forall2 stored (fo_trees m) ts /\ snd (forestQ m) = Ok tt
  /\ forest_plot m "heatmap" "default" none = Err IndexError /\ forest_plot m "summary" "default" none = Err IndexError.
Proof.
  exists {| fo_names := Some ["x"; "y"; "z"]; fo_trees := [ex_arrays; ex_arrays] |}, [ex_tree; ex_tree]. split; [apply C38_example|]. vm_compute. auto.
Qed.
Print Assumptions C56_forest_refuted.
(** a booster with a feature that is in no listed pair *)
Definition lone_ts := [ex_g1; GSplit 0 "c" (q 3) (Some (q 10)) (GLeaf 1) (GLeaf 2)].
Theorem C56_split_refuted : exists ts, trained (xgb_of ts) Xgboost ts (map bfs_list ts) /\ snd (splitQ ts true) = Ok tt
  /\ split_plot ts true "graph" "default" none = Err NetworkXError /\ split_plot ts true "summary" "default" none = Err NetworkXError.
Proof. exists lone_ts. split; [xgb_tac|]. vm_compute. auto. Qed.
Print Assumptions C56_split_refuted.

(** ** C57, C58 *)
Definition ex_t : list (string * string * option R) := [("a", "b", Some 3%R); ("a", "c", Some 1%R); ("b", "c", None)].
Lemma ex_listed x : listed ex_t x <-> x = 3%R \/ x = 1%R.
Proof.
  split; [intros (p & [H|[H|[H|[]]]]); [injection H as _ <-; auto|injection H as _ <-; auto|discriminate]|].
  intros [->| ->]; [exists ("a", "b")|exists ("a", "c")]; cbn; auto.
Qed.
Lemma ex_one directed : one_edge_each directed ex_t.
Proof.
  assert (H : forall a b c d : string, (a, b) <> (c, d) -> (a, b) <> (d, c) -> ~ same_pair directed (a, b) (c, d)) by (intros a b c d H1 H2 [H|[_ H]]; [exact (H1 H)|exact (H2 H)]).
  repeat constructor; apply H; discriminate.
Qed.
Example C57_example : exists edges labels, plot_graph xR isort (graph_config_of xR HStatistic) (with_values ex_t) None "default" false false no_kwargs = Ok (PGraph "Interaction graph" false edges None labels)
  /\ g_threshold (graph_config_of xR HStatistic) = Fin (5 / 100)%R /\ g_width (graph_config_of xR HStatistic) = Fin 20%R /\ one_edge_each false ex_t
  /\ listed ex_t 3%R /\ relevant false (5 / 100) 3 /\ listed ex_t 1%R.
Proof.
  do 2 eexists. split; [reflexivity|]. split; [apply xR_div_fin; lra|]. split; [reflexivity|]. split; [apply ex_one|]. rewrite !ex_listed. unfold relevant. repeat split; auto; lra.
Qed.
Example C58_example : exists k edges, k_threshold k = Some (Fin 2%R) /\ plot_graph xR isort (graph_config_of xR ConditionalDepth) (with_values ex_t) None "default" true true k = Ok (PGraph "Interaction graph" true edges None [])
  /\ g_width (graph_config_of xR ConditionalDepth) = Fin 3%R /\ one_edge_each true ex_t
  /\ (forall z, listed ex_t z -> 0 < z)%R /\ listed ex_t 1%R /\ relevant true 2 1 /\ listed ex_t 3%R /\ ~ relevant true 2 3.
Proof.
  exists {| k_title := None; k_top := None; k_width := None; k_threshold := Some (Fin 2%R); k_nlabels := None; k_icmap := None; k_fcmap := None; k_max_trees := None; k_max_depth := None;
            k_label_threshold := None; k_labels := None |}. eexists. split; [reflexivity|]. split; [reflexivity|]. split; [reflexivity|]. split; [apply ex_one|]. split; [intros z Hz; apply ex_listed in Hz; lra|].
  rewrite !ex_listed. unfold relevant. repeat split; auto; lra.
Qed.
(** interactions below the threshold: no width at all, although the values differ *)
Theorem C57_all_irrelevant_refuted : exists (ovo : list (string * string * ext Q)) edges nodes labels, map snd ovo = [Fin (2 # 100); Fin (1 # 100)]
  /\ plot_graph xQ isort (graph_config_of xQ HStatistic) ovo None "default" false false no_kwargs = Ok (PGraph "Interaction graph" false edges nodes labels) /\ map snd edges = [NaN; NaN].
Proof. exists [("a", "b", Fin (2 # 100)); ("a", "c", Fin (1 # 100))]. do 3 eexists. split; [reflexivity|]. split; vm_compute; reflexivity. Qed.
Print Assumptions C57_all_irrelevant_refuted.
(** the split score lists the strongest pair twice: it is drawn with width 0, a weaker one with width 5 *)
Theorem C57_split_refuted : exists ts edges labels, trained (xgb_of ts) Xgboost ts (map bfs_list ts)
  /\ ss_ovo (fst (splitQ ts false)) = Some [("a", "b", q 5); ("a", "a", q 2); ("b", "a", q 1)]
  /\ split_plot ts false "graph" "default" none = Ok (None, [PGraph "Interaction graph" false edges (Some [("b", q 8); ("a", q 7)]) labels])
  /\ edges = [("a", "b", q 0); ("a", "a", q 5)].
Proof. exists ex_ts. do 2 eexists. split; [exact ex_trained|]. split; [vm_compute; reflexivity|]. split; [vm_compute; reflexivity|reflexivity]. Qed.
Print Assumptions C57_split_refuted.
(** the strongest interactions (smallest conditional depth) of a fitted forest are drawn thinner than a weaker one *)
Theorem C58_refuted : exists m ts edges nodes labels, Forall2 stored (fo_trees m) ts /\ snd (forestQ m) = Ok tt
  /\ forest_plot m "graph" "default" (own (with_threshold (q 2))) = Ok (None, [PGraph "Interaction graph" true edges nodes labels])
  /\ In {| cr_root := "x"; cr_var := "y"; cr_value := q 0; cr_occ := 2 |} (match cs_ovo (fst (forestQ m)) with Some t => t | None => [] end)
  /\ In {| cr_root := "x"; cr_var := "w"; cr_value := q 1; cr_occ := 1 |} (match cs_ovo (fst (forestQ m)) with Some t => t | None => [] end)
  /\ In ("x", "y", q 0) edges /\ In ("x", "w", Fin (3 # 2)) edges.
Proof.
  exists big_forest, [ex_tree; ex_tree_bf]. do 3 eexists. split; [exact big_stored|]. split; [vm_compute; reflexivity|]. split; [vm_compute; reflexivity|].
  split; [vm_compute; auto|]. split; [vm_compute; auto|]. split; vm_compute; auto.
Qed.
Print Assumptions C58_refuted.

(** ** C59, C76 *)
Example C59_example : exists h g b, split_plot ex_ts true "summary" "default" none = Ok (Some "Split Score Interaction Measure summary", [h; g; b])
  /\ split_plot ex_ts true "graph" "default" none = Ok (None, [g]) /\ split_plot ex_ts true "heatmap" "default" none = Ok (None, [h]) /\ split_plot ex_ts true "bar_chart" "default" none = Ok (None, [b]).
Proof. do 3 eexists. split; [vm_compute; reflexivity|]. split; [vm_compute; reflexivity|]. split; vm_compute; reflexivity. Qed.
(** for a forest the summary draws another graph, with the weakest interaction widest, and other colours of importance *)
Theorem C59_refuted : exists m ts h g b g', Forall2 stored (fo_trees m) ts
  /\ forest_plot m "summary" "default" none = Ok (Some "Conditional Minimal Depth Measure summary", [h; g; b]) /\ forest_plot m "graph" "default" none = Ok (None, [g']) /\ g <> g'
  /\ exists t d e n l, g = PGraph t d e n l /\ In ("x", "y", q 0) e /\ In ("x", "z", q 3) e.
Proof.
  exists big_forest, [ex_tree; ex_tree_bf]. do 4 eexists. split; [exact big_stored|]. split; [vm_compute; reflexivity|]. split; [vm_compute; reflexivity|]. split; [discriminate|].
  do 5 eexists. split; [reflexivity|]. split; vm_compute; auto.
Qed.
Print Assumptions C59_refuted.
Theorem C76_refuted : exists m ts h g b h', Forall2 stored (fo_trees m) ts
  /\ forest_plot m "summary" "default" none = Ok (Some "Conditional Minimal Depth Measure summary", [h; g; b]) /\ forest_plot m "heatmap" "default" none = Ok (None, [h']) /\ h <> h'.
Proof.
  exists big_forest, [ex_tree; ex_tree_bf]. do 4 eexists. split; [exact big_stored|]. split; [vm_compute; reflexivity|]. split; [vm_compute; reflexivity|]. discriminate.
Qed.
Print Assumptions C76_refuted.

(** ** C71 *)
Example C71_example : split_plot ex_ts true "lollipop" "default" (own (with_share (q 1)))
  = Ok (None, [PLollipop "Lollipop boosting model summary" [(1%Z, q 4)] [[(1%Z, q 5); (1%Z, q 2)]] [("a:b", (1%Z, q 5))] [("a", (1%Z, q 4))]]).
Proof. vm_compute. reflexivity. Qed.
(** asked for all trees, the chart leaves out the last one; of a model with one tree nothing is shown *)
Theorem C71_refuted : exists ts t nodes nl rl, trained (xgb_of ts) Xgboost ts (map bfs_list ts) /\ length ts = 2
  /\ split_plot ts true "lollipop" "default" (own (with_share (q 1))) = Ok (None, [PLollipop t [(1%Z, q 4)] nodes nl rl])
  /\ trained (xgb_of [ex_g1]) Xgboost [ex_g1] (map bfs_list [ex_g1])
  /\ split_plot [ex_g1] true "lollipop" "default" (own (with_share (q 1))) = Ok (None, [PLollipop t [] [[]] [] []]).
Proof.
  exists ex_ts. do 4 eexists. split; [exact ex_trained|]. split; [reflexivity|]. split; [vm_compute; reflexivity|]. split; [xgb_tac|]. vm_compute. reflexivity.
Qed.
Print Assumptions C71_refuted.
(** roots and other nodes are cut at different trees: of three trees the first two roots are shown, but the nodes of the first only *)
Theorem C71_cut_refuted : exists ts t nl rl, trained (xgb_of ts) Xgboost ts (map bfs_list ts)
  /\ split_plot ts true "lollipop" "default" (own (with_share (q 1))) = Ok (None, [PLollipop t [(1%Z, q 4); (2%Z, q 3)] [[(1%Z, q 5); (1%Z, q 2)]] nl rl])
  /\ In "b" (map fst rl).
Proof. exists [ex_g1; ex_g2; GSplit 0 "c" (q 3) (Some (q 10)) (GLeaf 1) (GLeaf 2)]. do 3 eexists. split; [xgb_tac|]. split; [vm_compute; reflexivity|]. right. left. reflexivity. Qed.
Print Assumptions C71_cut_refuted.

(** ** C72 *)
Example C72_example : forall p, split_plot ex_ts true "heatmap" "Mine" none = Ok (None, [p]) -> panel_title p = "Mine".
Proof. intros p H. vm_compute in H. injection H as <-. reflexivity. Qed.
Theorem C72_refuted : exists (a : fargs Z (ext Q)) bars, snd (fitQ (Friedman true) init0 a) = Ok tt
  /\ pd_plot xQ isort same (Friedman true) (fst (fitQ (Friedman true) init0 a)) "bar_chart_ova" "Mine" none = Ok (None, [PBars "Interaction with all other features" "Friedman H-statistic Interaction Measure" bars]).
Proof. exists (mkargs exP exX None true None). eexists. split; vm_compute; reflexivity. Qed.
Print Assumptions C72_refuted.

(** ** C73, C74, C75 *)
Example C73_example : split_plot ex_ts false "bar_chart" "default" (own {| k_title := None; k_top := Some 2; k_width := None; k_threshold := None; k_nlabels := None;
    k_icmap := None; k_fcmap := None; k_max_trees := None; k_max_depth := None; k_label_threshold := None; k_labels := None |})
  = Ok (None, [PBars "Pair interactions" "Split Score Interaction Measure" [("a:b", q 5); ("a:a", q 2)]]).
Proof. vm_compute. reflexivity. Qed.
Example C74_example : plot_graph xQ isort (graph_config_of xQ HStatistic) [("a", "b", Fin (9 # 10)); ("b", "c", Fin (2 # 100)); ("a", "c", Fin (1 # 2))] None "default" false false
    {| k_title := None; k_top := None; k_width := None; k_threshold := None; k_nlabels := Some 4; k_icmap := None; k_fcmap := None; k_max_trees := None; k_max_depth := None; k_label_threshold := None; k_labels := None |}
  = Ok (PGraph "Interaction graph" false [("a", "b", Fin (20 # 1)); ("b", "c", Fin (0 # 1)); ("a", "c", Fin (100 # 9))] None [("a", "b", Fin (9 # 10)); ("a", "c", Fin (1 # 2))]).
Proof. vm_compute. reflexivity. Qed.
Example C75_example : forest_plot big_forest "bar_chart_conditional" "default" (own {| k_title := None; k_top := Some 3; k_width := None; k_threshold := None; k_nlabels := None;
    k_icmap := None; k_fcmap := None; k_max_trees := None; k_max_depth := None; k_label_threshold := None; k_labels := None |})
  = Ok (None, [PDepthBars "Random forest model summary" [("x:y", q 0, 2, Some (q 1)); ("y:x", q 0, 1, Some (q 0)); ("x:w", q 1, 1, Some (q 2))]]).
Proof. vm_compute. reflexivity. Qed.
