(** Model of artemis/visualizer/_visualizer.py and _configuration.py, and of the [plot] methods
    of the interaction methods.

    A call of [plot] yields the list of panels it draws.  A panel holds the data handed to
    matplotlib, seaborn and networkx: titles, labels, values, edge widths, colour maps.  Sizes,
    fonts, fixed colours and positions are left out. *)
From Verif Require Import Py Num Sorting Frame Rng PdCalc PdMethods Perm CondDepth SplitScore Comparator.
Open Scope string_scope.
Open Scope nat_scope.
Open Scope list_scope.

(** domain.py:4-9 [InteractionMethod] *)
Inductive imethod := HStatistic | VariableInteraction | PerformanceBased | SplitScoreM | ConditionalDepth.
Definition method_name (m : imethod) : string :=
  match m with
  | HStatistic => "Friedman H-statistic Interaction Measure"
  | VariableInteraction => "Greenwell Variable Interaction Measure"
  | PerformanceBased => "Sejong Oh Performance Based Interaction Measure"
  | SplitScoreM => "Split Score Interaction Measure"
  | ConditionalDepth => "Conditional Minimal Depth Measure"
  end.

(** _configuration.py:70-104 [accepted_visualizations] *)
Definition accepted_visualizations (m : imethod) : list string :=
  match m with
  | HStatistic => ["summary"; "graph"; "bar_chart_ova"; "bar_chart"; "heatmap"]
  | PerformanceBased => ["summary"; "graph"; "bar_chart"; "heatmap"]
  | VariableInteraction => ["summary"; "graph"; "bar_chart"; "heatmap"]
  | ConditionalDepth => ["summary"; "graph"; "bar_chart"; "heatmap"; "bar_chart_conditional"]
  | SplitScoreM => ["summary"; "graph"; "bar_chart"; "heatmap"; "lollipop"]
  end.

(** [title = config.TITLE if title == "default" else title] *)
Definition pick_title (title dflt : string) : string := if String.eqb title "default" then dflt else title.

Section Visual.
  Context {V : Type} (N : num_ops V) (srt : sorter) (lower : string -> string).
  Notation table := (list (string * string * V)).
  Notation fi_table := (list (string * V)).
  Notation zero := (n_ofZ N 0).
  Definition f1 (r : string * string * V) : string := fst (fst r).
  Definition f2 (r : string * string * V) : string := snd (fst r).
  Definition value (r : string * string * V) : V := snd r.

  (** the keyword arguments that are modelled; None when not given.  [k_title] is only used in
      the dictionaries given to 'summary'. *)
  Record kwargs := {
    k_title : option string; k_top : option nat; k_width : option V; k_threshold : option V; k_nlabels : option nat;
    k_icmap : option string; k_fcmap : option string;
    k_max_trees : option V; k_max_depth : option nat; k_label_threshold : option V; k_labels : option bool }.
  Definition no_kwargs : kwargs := {| k_title := None; k_top := None; k_width := None; k_threshold := None; k_nlabels := None;
    k_icmap := None; k_fcmap := None; k_max_trees := None; k_max_depth := None; k_label_threshold := None; k_labels := None |}.
  (** with the dictionaries for the panels of 'summary' *)
  Record all_kwargs := { k_own : kwargs; k_heatmap : option kwargs; k_graph : option kwargs; k_ovo : option kwargs; k_ova : option kwargs }.
  Definition no_all_kwargs : all_kwargs := {| k_own := no_kwargs; k_heatmap := None; k_graph := None; k_ovo := None; k_ova := None |}.
  Definition pop {A} (o : option A) (d : A) : A := match o with Some a => a | None => d end.

  Inductive panel :=
  (* title, interaction and importance colour maps, row and column labels; the two layers, with
     None for cells left out (masked or missing) *)
  | PHeatmap (title icmap fcmap : string) (labels : list string) (importance interactions : list (list (option V)))
  (* title, whether directed, edges with their widths, drawn nodes with their importance, edge labels *)
  | PGraph (title : string) (directed : bool) (edges : table) (nodes : option fi_table) (labels : table)
  (* title, label of the value axis, bars from top to bottom *)
  | PBars (title axis : string) (bars : list (string * V))
  (* title, bars with their height, number of occurences and unconditional value *)
  | PDepthBars (title : string) (bars : list (string * V * nat * option V))
  (* title, points of the roots, points of the nodes at depth 1, 2, ..., labels of the nodes and of the roots *)
  | PLollipop (title : string) (roots : list (Z * V)) (nodes : list (list (Z * V))) (node_labels root_labels : list (string * (Z * V))).

  (** a figure: its own title (only 'summary' sets one) and the panels *)
  Definition figure := (option string * list panel)%type.

  (** Series.max / Series.min: skip NaN; NaN when nothing is left *)
  Definition series_max (l : list V) : V :=
    match filter (fun x => negb (n_isnan N x)) l with [] => n_nan N | x :: t => fold_left (vmax2 N) t x end.
  Definition series_min (l : list V) : V :=
    match filter (fun x => negb (n_isnan N x)) l with [] => n_nan N | x :: t => fold_left (vmin2 N) t x end.
  (** the built-in [max]: keeps the first of the values that are not smaller than a later one *)
  Definition py_max (l : list V) : result V :=
    match l with [] => Err ValueError | x :: t => Ok (fold_left (fun m y => if n_ltb N m y then y else m) t x) end.

  (** *** Heatmap *)

  (** lines 583-596 [_feature_importance_diag].  [values[0]] of an empty array raises IndexError. *)
  Definition importance_of (fi : fi_table) (f : string) : result V :=
    match filter (fun r => String.eqb (fst r) f) fi with [] => Err IndexError | r :: _ => Ok (snd r) end.
  Definition all_features (ovo : table) : list string := dedup_by String.eqb (map f1 ovo ++ map f2 ovo).
  Definition importance_diag (ovo : table) (fi : fi_table) : result table :=
    mapM (fun f => do v <- importance_of fi f; Ok (f, f, v)) (all_features ovo).

  (** lines 200-202: [pivot_table(..., aggfunc="first")].  Missing values are dropped before the
      rows and columns are formed; both are sorted; a cell holds the first value of its pair. *)
  Definition defined (rows : table) : table := filter (fun r => negb (n_isnan N (value r))) rows.
  Definition pivot_index (rows : table) : list string := np_unique Scell (map f1 (defined rows)).
  Definition pivot_columns (rows : table) : list string := np_unique Scell (map f2 (defined rows)).
  Definition cell (rows : table) (r c : string) : V :=
    match filter (fun x => String.eqb (f1 x) r && String.eqb (f2 x) c) (defined rows) with x :: _ => value x | [] => n_nan N end.

  (** list.remove: drops the first occurrence *)
  Fixpoint remove1 (f : string) (l : list string) : list string :=
    match l with [] => [] | x :: t => if String.eqb x f then t else x :: remove1 f t end.

  (** lines 622-639 [order_heatmap]: the new order of the rows and columns.  [index] and [columns]
      label the matrix.  The Series of line 624 cannot be built when there are fewer columns than
      rows; [matrix[f]] needs a column f. *)
  Definition heatmap_score (index columns : list string) (m : string -> string -> V) (f : string) : result V :=
    let diag := map (fun rc => m (fst rc) (snd rc)) (combine index columns) in
    let l1 := series_max diag in
    let l2 := series_max (flat_map (fun r => map (m r) columns) index) in
    let own := match assoc String.eqb f (combine index diag) with Some v => v | None => n_nan N end in
    if str_in f columns
    then do mx <- py_max (map (fun r => m r f) (remove1 f index));
         Ok (n_add N (n_div N (n_mul N own (n_ofZ N 1)) l1) (n_div N (n_mul N mx (n_ofZ N 1)) l2))
    else Err KeyError.
  Definition order_heatmap (index columns : list string) (m : string -> string -> V) (asc : bool) : result (list string) :=
    if length columns <? length index then Err ValueError
    else
      do scores <- mapM (fun f => do s <- heatmap_score index columns m f; Ok (lower f, s)) index;
      let key f := match assoc String.eqb (lower f) (rev scores) with Some s => s | None => n_nan N end in
      Ok (sort_values N srt asc key index).

  (** lines 150-231 [plot_heatmap].  seaborn cannot draw a matrix without cells. *)
  Definition all_pairs (ovo : table) (fi : option fi_table) (directed : bool) : result table :=
    let both := if directed then ovo else ovo ++ map (fun r => (f2 r, f1 r, value r)) ovo in
    match fi with None => Ok both | Some fi => do d <- importance_diag ovo fi; Ok (both ++ d) end.
  Definition show (v : V) : option V := if n_isnan N v then None else Some v.
  Definition plot_heatmap (ovo : table) (fi : option fi_table) (title : string) (int_asc imp_asc : bool) (directed : bool) (k : kwargs) : result panel :=
    do rows <- all_pairs ovo fi directed;
    let m := cell rows in
    do ind <- order_heatmap (pivot_index rows) (pivot_columns rows) m int_asc;
    match ind with
    | [] => Err ValueError
    | _ => Ok (PHeatmap (pick_title title "Interaction matrix")
                 (pop (k_icmap k) (if negb int_asc then "Purples" else "Purples_r"))
                 (pop (k_fcmap k) (if negb imp_asc then "Greens" else "Greens_r"))
                 ind
                 (map (fun r => map (fun c => if String.eqb r c then show (m r c) else None) ind) ind)
                 (map (fun r => map (fun c => if String.eqb r c then None else show (m r c)) ind) ind))
    end.

  (** *** Interaction graph *)

  Record graph_config := { g_width : V; g_nlabels : nat; g_threshold : V }.
  (** _configuration.py:8-19, 121-172 *)
  Definition graph_config_of (m : imethod) : graph_config :=
    match m with
    | HStatistic | VariableInteraction => {| g_width := n_ofZ N 20; g_nlabels := 5; g_threshold := n_div N (n_ofZ N 5) (n_ofZ N 100) |}
    | PerformanceBased | SplitScoreM => {| g_width := n_ofZ N 20; g_nlabels := 5; g_threshold := n_div N (n_ofZ N 1) (n_ofZ N 10) |}
    | ConditionalDepth => {| g_width := n_ofZ N 3; g_nlabels := 5; g_threshold := n_div N (n_ofZ N 6) (n_ofZ N 10) |}
    end.

  Definition on_values (f : V -> V) (t : table) : table := map (fun r => (fst r, f (value r))) t.
  (** lines 598-607 [_filter_insignificant_interactions] *)
  Definition filter_insignificant (asc : bool) (threshold : V) (t : table) : table :=
    on_values (fun v => if (if asc then n_ltb N threshold v else n_ltb N v threshold) then zero else v) t.
  (** lines 609-612 [_scale_to_unit_interval] *)
  Definition scale_to_unit (t : table) : table :=
    let m := series_min (map value t) in
    let M := series_max (map value t) in
    on_values (fun v => n_div N (n_sub N v m) (n_sub N M m)) t.
  (** lines 614-617 [_reverse_scale_for_ascending] *)
  Definition reverse_scale (asc : bool) (t : table) : table :=
    if asc then on_values (fun v => if n_ltb N zero v then n_sub N (n_ofZ N 1) v else v) t else t.
  (** lines 619-620 [_map_to_width] *)
  Definition map_to_width (width : V) (t : table) : table := on_values (fun v => n_mul N v width) t.
  (** lines 322-332 [_interactions_to_edge_widths] *)
  Definition edge_widths (asc : bool) (width : V) (t : table) : table := map_to_width width (reverse_scale asc (scale_to_unit t)).

  (** [nx.from_pandas_edgelist]: a later row for the same edge replaces the value.  The order of
      the edges is that of their first row (networkx may draw them in another order). *)
  Definition same_edge (directed : bool) (a b : string * string) : bool :=
    (String.eqb (fst a) (fst b) && String.eqb (snd a) (snd b))
    || (negb directed && String.eqb (fst a) (snd b) && String.eqb (snd a) (fst b)).
  Fixpoint set_edge (directed : bool) (r : string * string * V) (l : table) : table :=
    match l with
    | [] => [r]
    | x :: t => if same_edge directed (fst x) (fst r) then (fst x, snd r) :: t else x :: set_edge directed r t
    end.
  Definition edgelist (directed : bool) (t : table) : table := fold_left (fun l r => set_edge directed r l) t [].

  (** lines 562-574 [_edge_labels]; the values are rounded to two digits when drawn *)
  Definition edge_labels (n : nat) (t : table) : table :=
    firstn n (filter (fun r => n_ltb N zero (value r)) (sort_values N srt false value t)).

  (** lines 233-320 [plot_interaction_graph].  networkx raises NetworkXError for a node to draw
      that is not in the graph; in directed graphs it looks up the size of both ends of each edge
      in the list of drawn nodes ([list.index]). *)
  Definition plot_graph (cfg : graph_config) (ovo : table) (fi : option fi_table) (title : string) (int_asc directed : bool) (k : kwargs) : result panel :=
    let width := pop (k_width k) (g_width cfg) in
    let n := pop (k_nlabels k) (g_nlabels cfg) in
    let threshold := pop (k_threshold k) (g_threshold cfg) in
    let relevant := filter_insignificant int_asc threshold ovo in
    let edges := edgelist directed (edge_widths int_asc width relevant) in
    let panel := PGraph (pick_title title "Interaction graph") directed edges fi (if int_asc then [] else edge_labels n relevant) in
    match fi with
    | None => Ok panel
    | Some fi =>
        if negb (forallb (fun r => str_in (fst r) (all_features ovo)) fi) then Err NetworkXError
        else if directed && negb (forallb (fun e => str_in (f1 e) (map fst fi) && str_in (f2 e) (map fst fi)) edges) then Err ValueError
        else Ok panel
    end.

  (** *** Bar charts *)

  (** [DataFrame.plot.barh] fails without rows *)
  Definition barh (title axis : string) (bars : list (string * V)) : result panel :=
    match bars with [] => Err IndexError | _ => Ok (PBars title axis bars) end.
  (** lines 334-367 [plot_barchart_ovo] *)
  Definition plot_bars_ovo (name : string) (ovo : table) (title : string) (k : kwargs) : result panel :=
    barh (pick_title title "Pair interactions") name
         (firstn (pop (k_top k) 10) (map (fun r => (String.append (f1 r) (String.append ":" (f2 r)), value r)) ovo)).
  (** lines 369-398 [plot_barchart_ova]; None has no attribute head *)
  Definition plot_bars_ova (name : string) (ova : option fi_table) (title : string) (k : kwargs) : result panel :=
    match ova with
    | None => Err AttributeError
    | Some ova => barh (pick_title title "Interaction with all other features") name (firstn (pop (k_top k) 10) ova)
    end.

  (** lines 108-148 [plot_barchart_conditional]; without rows the drawing fails *)
  Definition plot_bars_conditional (rows : list (cmd_row V)) (fi : option fi_table) (title : string) (k : kwargs) : result panel :=
    match fi with
    | None => Err AttributeError
    | Some fi =>
        match firstn (pop (k_top k) 15) rows with
        | [] => Err ValueError
        | shown => Ok (PDepthBars (pick_title title "Random forest model summary")
                         (map (fun r => (String.append (cr_root r) (String.append ":" (cr_var r)), cr_value r, cr_occ r, assoc String.eqb (cr_var r) fi)) shown))
        end
    end.

  (** *** Lollipop *)

  (** lines 470-554 [plot_lollipop]; there are six colours *)
  Definition max_tree (rows : list (urow V)) : option Z :=
    match rows with [] => None | r :: t => Some (fold_left Z.max (map u_tree t) (u_tree r)) end.
  Definition early_trees (share : V) (rows : list (urow V)) : list (urow V) :=
    match max_tree rows with
    | None => []
    | Some mx => filter (fun r => n_ltb N (n_ofZ N (u_tree r)) (n_mul N share (n_ofZ N mx))) rows
    end.
  Definition point (r : urow V) : Z * V := ((u_tree r + 1)%Z, u_gain r).
  Definition at_depth (d : nat) (r : urow V) : bool := match u_depth r with Some d' => d' =? d | None => false end.
  Definition oname (o : option string) : string := match o with Some s => s | None => "nan" end.
  Definition pair_name (r : urow V) : string :=
    String.append (match u_parent r with Some (p, _, _) => oname p | None => "nan" end) (String.append ":" (oname (u_feat r))).
  Definition is_inter (r : urow V) : bool := match u_inter r with Some b => b | None => false end.
  Definition plot_lollipop (full : option (list (urow V))) (title : string) (k : kwargs) : result panel :=
    match full with
    | None => Err AttributeError
    | Some rows =>
        let share := pop (k_max_trees k) (n_div N (n_ofZ N 1) (n_ofZ N 5)) in
        let depth := pop (k_max_depth k) 1 in
        let labels := pop (k_labels k) true in
        let lt := pop (k_label_threshold k) (n_div N (n_ofZ N 1) (n_ofZ N 10)) in
        let roots := early_trees share (filter (at_depth 0) rows) in
        let nodes := early_trees share (filter (fun r => negb (u_leaf r) && existsb (fun d => at_depth d r) (seq 1 depth)) rows) in
        if 6 <=? depth then Err IndexError
        else Ok (PLollipop (pick_title title "Lollipop boosting model summary")
                   (map point roots)
                   (map (fun d => map point (filter (at_depth d) nodes)) (seq 1 depth))
                   (if labels then map (fun r => (pair_name r, point r)) (flat_map (fun d => filter is_inter (filter (at_depth d) nodes)) (seq 1 depth)) else [])
                   (if labels then map (fun r => (oname (u_feat r), point r))
                      (filter (fun r => negb (n_isnan N (u_gain r)) && negb (n_ltb N (u_gain r) (n_mul N lt (series_max (map u_gain roots))))) roots) else []))
    end.

  (** *** The visualizer *)

  (** what a method hands to the visualizer *)
  Record plot_data := {
    pd_ovo : table; pd_ova : option fi_table; pd_fi : option fi_table;
    pd_int_asc : bool; pd_imp_asc : bool; pd_directed : bool;
    pd_full : option (list (urow V)); pd_cond : list (cmd_row V) }.

  (** lines 400-468 [plot_summary] *)
  Definition plot_summary (m : imethod) (d : plot_data) (title : string) (k : all_kwargs) : result figure :=
    let sub o := pop o no_kwargs in
    let ttl o := pop (k_title (sub o)) "default" in
    do h <- plot_heatmap (pd_ovo d) (pd_fi d) (ttl (k_heatmap k)) (pd_int_asc d) false (pd_directed d) (sub (k_heatmap k));
    do g <- plot_graph (graph_config_of m) (pd_ovo d) (pd_fi d) (ttl (k_graph k)) false (pd_directed d) (sub (k_graph k));
    do b <- plot_bars_ovo (method_name m) (pd_ovo d) (ttl (k_ovo k)) (sub (k_ovo k));
    do a <- match pd_ova d with
            | None => Ok []
            | Some ova => do p <- plot_bars_ova (method_name m) (Some ova) (ttl (k_ova k)) (sub (k_ova k)); Ok [p]
            end;
    Ok (Some (if String.eqb title "default" then String.append (method_name m) " summary" else title), h :: g :: b :: a).

  (** lines 23-24 [accepts], 26-106 [plot] *)
  Definition visualize (m : imethod) (d : plot_data) (vis_type title : string) (k : all_kwargs) : result figure :=
    let one p := do p <- p; Ok (None, [p]) in
    if negb (str_in vis_type (accepted_visualizations m)) then Err VisualizationNotSupported
    else if String.eqb vis_type "summary" then plot_summary m d title k
    else if String.eqb vis_type "graph" then one (plot_graph (graph_config_of m) (pd_ovo d) (pd_fi d) title (pd_int_asc d) (pd_directed d) (k_own k))
    else if String.eqb vis_type "bar_chart_ova" then one (plot_bars_ova (method_name m) (pd_ova d) "default" (k_own k))
    else if String.eqb vis_type "heatmap" then one (plot_heatmap (pd_ovo d) (pd_fi d) title (pd_int_asc d) (pd_imp_asc d) (pd_directed d) (k_own k))
    else if String.eqb vis_type "bar_chart" then one (plot_bars_ovo (method_name m) (pd_ovo d) title (k_own k))
    else if String.eqb vis_type "lollipop" then one (plot_lollipop (pd_full d) title (k_own k))
    else if String.eqb vis_type "bar_chart_conditional" then one (plot_bars_conditional (pd_cond d) (pd_fi d) title (k_own k))
    else Ok (None, []).

  (** *** The plot methods *)

  Section Methods.
    Context {C G : Type}.

    (** _friedman_h_statistic.py:179-190, and _method.py:141-151 for Greenwell.  PD importance is
        never ascending (importance_methods/model_agnostic/_pdp.py).  Without importance object the
        attribute lookup fails. *)
    Definition pd_plot (kd : kind) (s : mstate C V G) (vis_type title : string) (k : all_kwargs) : result figure :=
      match kd with
      | Friedman _ =>
          match m_ova s with
          | None => Err MethodNotFitted
          | Some ova =>
              if m_fi_obj s
              then visualize HStatistic {| pd_ovo := pop (m_ovo s) []; pd_ova := Some ova; pd_fi := m_fi s; pd_int_asc := false; pd_imp_asc := false;
                                           pd_directed := false; pd_full := None; pd_cond := [] |} vis_type title k
              else Err AttributeError
          end
      | Greenwell =>
          match m_ovo s with
          | None => Err MethodNotFitted
          | Some ovo =>
              if m_fi_obj s
              then visualize VariableInteraction {| pd_ovo := ovo; pd_ova := None; pd_fi := m_fi s; pd_int_asc := false; pd_imp_asc := false;
                                                    pd_directed := false; pd_full := None; pd_cond := [] |} vis_type title k
              else Err AttributeError
          end
      end.

    (** _method.py:141-151 for SejongOhMethod; an importance object exists whenever ovo does
        (_sejong_oh.py:104-107) *)
    Definition sj_plot (s : Perm.sstate C V G) (vis_type title : string) (k : all_kwargs) : result figure :=
      match sj_ovo s with
      | None => Err MethodNotFitted
      | Some ovo => visualize PerformanceBased {| pd_ovo := ovo; pd_ova := None; pd_fi := sj_fi s; pd_int_asc := false; pd_imp_asc := false;
                                                  pd_directed := false; pd_full := None; pd_cond := [] |} vis_type title k
      end.
  End Methods.

  (** _conditional_minimal_depth.py:161-174; both orders are ascending (lines 49-51 and
      importance_methods/model_specific/_minimal_depth.py) *)
  Definition cmd_plot (s : cstate V) (vis_type title : string) (k : all_kwargs) : result figure :=
    match cs_ovo s with
    | None => Err MethodNotFitted
    | Some ovo => visualize ConditionalDepth {| pd_ovo := map (fun r => (cr_root r, cr_var r, cr_value r)) ovo; pd_ova := None; pd_fi := cs_fi s;
                                                pd_int_asc := true; pd_imp_asc := true; pd_directed := true; pd_full := None; pd_cond := ovo |} vis_type title k
    end.

  (** gb_trees/_split_score.py:187-197 *)
  Definition ss_plot (s : @SplitScore.sstate V) (vis_type title : string) (k : all_kwargs) : result figure :=
    match ss_ovo s with
    | None => Err MethodNotFitted
    | Some ovo => visualize SplitScoreM {| pd_ovo := ovo; pd_ova := None; pd_fi := ss_fi s; pd_int_asc := ss_ascending s;
                                           pd_imp_asc := importance_ascending (ss_fi_metric s); pd_directed := false;
                                           pd_full := ss_full_result s; pd_cond := [] |} vis_type title k
    end.
End Visual.
