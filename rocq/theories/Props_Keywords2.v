(** C114: what each keyword of a chart changes, and that the others change nothing. *)
From Verif Require Import Py Num NumR Sorting Frame Rng PdCalc PdMethods Perm CondDepth SplitScore SplitFacts SplitTables Comparator Visual VisualFacts
  Props_Split Props_Split2 Props_Visual2 Props_Visual5 Props_Visual6 Keywords Props_Keywords.
From Coq Require Import QArith.
Open Scope string_scope.
Open Scope nat_scope.
Open Scope list_scope.

Section Keywords.
  Context {V : Type} (N : num_ops V) (srt : sorter) (lower : string -> string).
  Notation plot_kw := (plot_kw N srt lower).
  Notation dict := (list (string * kwval V)).

  (** ** Specification: the keywords of each chart (docstrings of the plot methods) *)
  Definition keywords (vis_type : string) : list string :=
    if String.eqb vis_type "heatmap" then ["interaction_color_map"; "importance_color_map"]
    else if String.eqb vis_type "graph" then ["max_edge_width"; "threshold_relevant_interaction"; "n_highest_with_labels"]
    else if String.eqb vis_type "lollipop" then ["max_trees"; "max_depth"; "label_threshold"; "labels"]
    else if String.eqb vis_type "summary" then ["heatmap"; "graph"; "bar_chart_ovo"; "bar_chart_ova"]
    else ["top_k"].
  Definition str_of (d : dict) (name default : string) : string := match assoc String.eqb name d with Some (KStr s) => s | _ => default end.

  Lemma chart_fields d k : chart_kwargs N d = Some k ->
    read as_int "top_k" d = Some (k_top k) /\ read (as_num N) "max_edge_width" d = Some (k_width k) /\ read (as_num N) "threshold_relevant_interaction" d = Some (k_threshold k)
    /\ read as_int "n_highest_with_labels" d = Some (k_nlabels k) /\ read as_str "interaction_color_map" d = Some (k_icmap k) /\ read as_str "importance_color_map" d = Some (k_fcmap k)
    /\ read (as_num N) "max_trees" d = Some (k_max_trees k) /\ read as_int "max_depth" d = Some (k_max_depth k) /\ read (as_num N) "label_threshold" d = Some (k_label_threshold k)
    /\ read as_bool "labels" d = Some (k_labels k).
  Proof.
    unfold chart_kwargs. intros H.
    repeat match type of H with context [match read ?c ?n d with _ => _ end] => destruct (read c n d) eqn:?; [|discriminate] end. injection H as <-. cbn. auto 12.
  Qed.
  Lemma single_inv m data vis title d r : String.eqb vis "summary" = false -> plot_kw m data vis title d = Some r ->
    exists k, chart_kwargs N d = Some k /\ r = visualize N srt lower m data vis title (sub_call (Some k)).
  Proof. unfold Keywords.plot_kw, plot_kwargs. intros ->. destruct (chart_kwargs N d) as [k|]; [|discriminate]. intros H. injection H as <-. exists k. split; reflexivity. Qed.
  Lemma read_str d name o default : read as_str name d = Some o -> pop o default = str_of d name default.
  Proof. unfold read, str_of. destruct (assoc String.eqb name d) as [[]|]; cbn; intros H; try discriminate; injection H as <-; reflexivity. Qed.
  Lemma read_agree {A} (conv : kwval V -> option A) name (d d' : dict) : assoc String.eqb name d = assoc String.eqb name d' -> read conv name d = read conv name d'.
  Proof. unfold read. intros ->. reflexivity. Qed.

  (** ** C114 *)
  (** a chart depends on its own keywords only *)
  Theorem C114_unrelated m data vis_type title d d' r r' : (forall name, In name (keywords vis_type) -> assoc String.eqb name d = assoc String.eqb name d') ->
    plot_kw m data vis_type title d = Some r -> plot_kw m data vis_type title d' = Some r' -> r = r'.
  Proof.
    intros Hag. destruct (String.eqb vis_type "summary") eqn:Es.
    - apply String.eqb_eq in Es. subst vis_type. unfold Keywords.plot_kw, plot_kwargs. cbn [String.eqb Ascii.eqb Bool.eqb].
      rewrite !(read_agree (as_chart N) _ d d') by (apply Hag; cbn; auto).
      repeat match goal with |- context [match read ?c ?n d' with _ => _ end] => destruct (read c n d'); [|discriminate] end. congruence.
    - intros H H'. apply (single_inv _ _ _ _ _ _ Es) in H as (k & Ek & ->). apply (single_inv _ _ _ _ _ _ Es) in H' as (k' & Ek' & ->).
      apply chart_fields in Ek as (A1 & A2 & A3 & A4 & A5 & A6 & A7 & A8 & A9 & A10). apply chart_fields in Ek' as (B1 & B2 & B3 & B4 & B5 & B6 & B7 & B8 & B9 & B10).
      unfold visualize. destruct (str_in vis_type (accepted_visualizations m)) eqn:Ea; [|reflexivity]. cbn [negb]. rewrite Es. change (k_own (sub_call (Some k))) with k. change (k_own (sub_call (Some k'))) with k'.
      destruct (String.eqb_spec vis_type "graph") as [->|Hg].
      { assert (E1 : k_width k = k_width k') by (rewrite (read_agree _ _ d d') in A2 by (apply Hag; cbn; auto); congruence).
        assert (E2 : k_threshold k = k_threshold k') by (rewrite (read_agree _ _ d d') in A3 by (apply Hag; cbn; auto); congruence).
        assert (E3 : k_nlabels k = k_nlabels k') by (rewrite (read_agree _ _ d d') in A4 by (apply Hag; cbn; auto); congruence).
        unfold plot_graph. rewrite E1, E2, E3. reflexivity. }
      destruct (String.eqb_spec vis_type "heatmap") as [->|Hh].
      { assert (E1 : k_icmap k = k_icmap k') by (rewrite (read_agree _ _ d d') in A5 by (apply Hag; cbn; auto); congruence).
        assert (E2 : k_fcmap k = k_fcmap k') by (rewrite (read_agree _ _ d d') in A6 by (apply Hag; cbn; auto); congruence).
        cbn [String.eqb Ascii.eqb Bool.eqb]. unfold plot_heatmap. rewrite E1, E2. reflexivity. }
      destruct (String.eqb_spec vis_type "lollipop") as [->|Hl].
      { assert (E1 : k_max_trees k = k_max_trees k') by (rewrite (read_agree _ _ d d') in A7 by (apply Hag; cbn; auto); congruence).
        assert (E2 : k_max_depth k = k_max_depth k') by (rewrite (read_agree _ _ d d') in A8 by (apply Hag; cbn; auto); congruence).
        assert (E3 : k_label_threshold k = k_label_threshold k') by (rewrite (read_agree _ _ d d') in A9 by (apply Hag; cbn; auto); congruence).
        assert (E4 : k_labels k = k_labels k') by (rewrite (read_agree _ _ d d') in A10 by (apply Hag; cbn; tauto); congruence).
        cbn [String.eqb Ascii.eqb Bool.eqb]. unfold plot_lollipop. rewrite E1, E2, E3, E4. reflexivity. }
      assert (E1 : k_top k = k_top k').
      { assert (Hk : keywords vis_type = ["top_k"]) by (unfold keywords; rewrite Es; destruct (String.eqb_spec vis_type "heatmap"), (String.eqb_spec vis_type "graph"), (String.eqb_spec vis_type "lollipop"); congruence).
        rewrite (read_agree _ _ d d') in A1 by (apply Hag; rewrite Hk; cbn; auto). congruence. }
      unfold plot_bars_ova, plot_bars_ovo, plot_bars_conditional. rewrite E1. reflexivity.
  Qed.
  (** in particular a misspelt keyword is ignored silently, here also if its value is not modelled *)

  (** the colour maps of the heatmap, each under its own name; the cells do not depend on them *)
  Theorem C114_heatmap m data title d fig : plot_kw m data "heatmap" title d = Some (Ok fig) ->
    exists t labels importance interaction,
      fig = (None, [PHeatmap t (str_of d "interaction_color_map" (if pd_int_asc data then "Purples_r" else "Purples"))
                              (str_of d "importance_color_map" (if pd_imp_asc data then "Greens_r" else "Greens")) labels importance interaction])
      /\ plot_kw m data "heatmap" title []
         = Some (Ok (None, [PHeatmap t (if pd_int_asc data then "Purples_r" else "Purples") (if pd_imp_asc data then "Greens_r" else "Greens") labels importance interaction])).
  Proof.
    intros H. apply (single_inv _ _ "heatmap" _ _ _ eq_refl) in H as (k & Ek & E). apply chart_fields in Ek as (_ & _ & _ & _ & A5 & A6 & _).
    assert (Ev : forall k, visualize N srt lower m data "heatmap" title (sub_call (Some k))
      = (do p <- plot_heatmap N srt lower (pd_ovo data) (pd_fi data) title (pd_int_asc data) (pd_imp_asc data) (pd_directed data) k; Ok (None, [p]))) by (intros k'; destruct m; reflexivity).
    rewrite Ev in E. unfold Keywords.plot_kw, plot_kwargs. change (chart_kwargs N []) with (Some (no_kwargs (V := V))). cbn [String.eqb Ascii.eqb Bool.eqb].
    change {| k_own := no_kwargs; k_heatmap := None; k_graph := None; k_ovo := None; k_ova := None |} with (sub_call (Some (no_kwargs (V := V)))). rewrite Ev.
    unfold plot_heatmap in *. destruct (all_pairs _ _ _) as [rows|]; [|discriminate]. cbn [bind] in *.
    destruct (order_heatmap N srt lower _ _ _ _) as [[|x l]|]; try discriminate. cbn [bind] in *. injection E as ->.
    do 4 eexists. rewrite (read_str _ _ _ _ A5), (read_str _ _ _ _ A6). destruct (pd_int_asc data), (pd_imp_asc data); split; reflexivity.
  Qed.

  Definition has {A} (d : dict) (name : string) (k : A -> kwval V) (x : A) : Prop := assoc String.eqb name d = Some (k x).

  (** top_k: the number of bars *)
  Theorem C114_bars m data title d fig n : plot_kw m data "bar_chart" title d = Some (Ok fig) -> has d "top_k" KInt n ->
    exists t, fig = (None, [PBars t (method_name m) (firstn n (map (fun r => (fst (fst r) ++ ":" ++ snd (fst r), snd r)%string) (pd_ovo data)))]).
  Proof.
    intros H Hn. apply (single_inv _ _ "bar_chart" _ _ _ eq_refl) in H as (k & Ek & E). apply chart_fields in Ek as (A1 & _).
    assert (Ev : visualize N srt lower m data "bar_chart" title (sub_call (Some k)) = (do p <- plot_bars_ovo (method_name m) (pd_ovo data) title k; Ok (None, [p]))) by (destruct m; reflexivity).
    rewrite Ev in E. unfold plot_bars_ovo, barh in E. unfold read in A1. rewrite Hn in A1. cbn in A1. injection A1 as A1. rewrite <- A1 in E. cbn [pop] in E.
    destruct (firstn n _) as [|b l] eqn:Eb; [discriminate|]. cbn [bind] in E. injection E as ->. rewrite <- Eb. eexists. reflexivity.
  Qed.

  Lemma in_firstn {A} n (l : list A) x : In x (firstn n l) -> In x l.
  Proof. intros H. rewrite <- (firstn_skipn n l). apply in_or_app. left. exact H. Qed.
  (** the graph: n_highest_with_labels bounds the labels; only values from the threshold on are
      labelled; max_edge_width scales the widths and changes nothing else *)
  Lemma graph_kw m data title d fig : plot_kw m data "graph" title d = Some (Ok fig) ->
    exists k, chart_kwargs N d = Some k /\ (do p <- plot_graph N srt (graph_config_of N m) (pd_ovo data) (pd_fi data) title (pd_int_asc data) (pd_directed data) k; Ok (None, [p])) = Ok fig.
  Proof. intros H. apply (single_inv _ _ "graph" _ _ _ eq_refl) in H as (k & Ek & E). exists k. split; [exact Ek|]. rewrite E. destruct m; reflexivity. Qed.
  Lemma graph_panel cfg ovo fi title asc directed k p : plot_graph N srt cfg ovo fi title asc directed k = Ok p ->
    p = PGraph (pick_title title "Interaction graph") directed
          (edgelist directed (edge_widths N asc (pop (k_width k) (g_width cfg)) (filter_insignificant N asc (pop (k_threshold k) (g_threshold cfg)) ovo))) fi
          (if asc then [] else edge_labels N srt (pop (k_nlabels k) (g_nlabels cfg)) (filter_insignificant N asc (pop (k_threshold k) (g_threshold cfg)) ovo)).
  Proof. unfold plot_graph. destruct fi as [fi|]; [|intros H; injection H as <-; reflexivity]. destruct (negb _); [discriminate|]. destruct (_ && _); [discriminate|]. intros H; injection H as <-; reflexivity. Qed.
  Theorem C114_labels m data title d t dir edges nodes labels n thr : sorter_ok srt -> num_ord_ok N -> plot_kw m data "graph" title d = Some (Ok (None, [PGraph t dir edges nodes labels])) ->
    has d "n_highest_with_labels" KInt n -> has d "threshold_relevant_interaction" KNum thr ->
    length labels <= n /\ forall r, In r labels -> In r (pd_ovo data) /\ n_ltb N (snd r) thr = false.
  Proof.
    intros Hs HN H Hn Ht. apply graph_kw in H as (k & Ek & E). apply chart_fields in Ek as (_ & _ & A3 & A4 & _). unfold read in A3, A4. rewrite Ht in A3. rewrite Hn in A4. cbn in A3, A4. injection A3 as A3. injection A4 as A4.
    destruct (plot_graph _ _ _ _ _ _ _ _ _) as [p|] eqn:Ep; [|discriminate]. cbn [bind] in E. injection E as ->. apply graph_panel in Ep. injection Ep as _ _ _ _ ->. rewrite <- A3, <- A4. cbn [pop].
    destruct (pd_int_asc data); [split; [cbn; lia|intros r []]|]. unfold edge_labels. split; [apply firstn_le_length|]. intros r Hr. apply in_firstn, filter_In in Hr as [Hr Hz].
    apply (Permutation_in _ (proj1 (sort_values_ok N srt false value _ Hs HN))) in Hr. unfold filter_insignificant, on_values in Hr. apply in_map_iff in Hr as (r0 & <- & Hr0). cbn [fst snd value] in *. unfold value in *. cbn [snd] in *.
    destruct (n_ltb N (snd r0) thr) eqn:El; [rewrite (no_irrefl N HN) in Hz; discriminate|]. split; [destruct r0; exact Hr0|exact El].
  Qed.
  Lemma edgelist_values dir f (l : list (string * string * V)) : edgelist dir (on_values f l) = on_values f (edgelist dir l).
  Proof.
    unfold edgelist. change (@nil (string * string * V)) with (on_values f []) at 1. generalize (@nil (string * string * V)). induction l as [|r l IH]; intros acc; [reflexivity|]. cbn [on_values map fold_left].
    assert (E : set_edge dir (fst r, f (value r)) (on_values f acc) = on_values f (set_edge dir r acc)).
    { clear. induction acc as [|x t IH]; [reflexivity|]. cbn [on_values map set_edge fst snd]. destruct (same_edge dir (fst x) (fst r)); [reflexivity|]. cbn [map]. f_equal. exact IH. }
    rewrite E. apply IH.
  Qed.
  Theorem C114_width m data title d : exists t dir nodes labels unit, forall w fig,
    plot_kw m data "graph" title (("max_edge_width", KNum w) :: d) = Some (Ok fig) -> fig = (None, [PGraph t dir (map (fun e => (fst e, n_mul N (snd e) w)) unit) nodes labels]).
  Proof.
    set (cfg := graph_config_of N m).
    set (thr := match read (as_num N) "threshold_relevant_interaction" d with Some o => pop o (g_threshold cfg) | None => g_threshold cfg end).
    set (n := match read as_int "n_highest_with_labels" d with Some o => pop o (g_nlabels cfg) | None => g_nlabels cfg end).
    set (rel := filter_insignificant N (pd_int_asc data) thr (pd_ovo data)).
    exists (pick_title title "Interaction graph"), (pd_directed data), (pd_fi data), (if pd_int_asc data then [] else edge_labels N srt n rel).
    exists (edgelist (pd_directed data) (reverse_scale N (pd_int_asc data) (scale_to_unit N rel))). intros w fig H.
    apply graph_kw in H as (k & Ek & E). apply chart_fields in Ek as (_ & A2 & A3 & A4 & _).
    rewrite read_other in A3 by discriminate. rewrite read_other in A4 by discriminate. unfold read in A2. cbn in A2. injection A2 as A2.
    destruct (plot_graph _ _ _ _ _ _ _ _ _) as [p|] eqn:Ep; [|discriminate]. cbn [bind] in E. injection E as <-. apply graph_panel in Ep. subst p. fold cfg.
    assert (E3 : thr = pop (k_threshold k) (g_threshold cfg)) by (unfold thr; rewrite A3; reflexivity).
    assert (E4 : n = pop (k_nlabels k) (g_nlabels cfg)) by (unfold n; rewrite A4; reflexivity). rewrite <- E3, <- E4, <- A2. cbn [pop]. fold rel.
    unfold edge_widths, map_to_width. rewrite edgelist_values. reflexivity.
  Qed.

  (** the lollipop chart: max_depth is the number of series of inner nodes, labels=False removes
      every annotation, label_threshold is relative to the highest drawn root *)
  Theorem C114_lollipop m data title d t roots series nl rl : plot_kw m data "lollipop" title d = Some (Ok (None, [PLollipop t roots series nl rl])) ->
    (forall n, has d "max_depth" KInt n -> length series = n)
    /\ (has d "labels" KBool false -> nl = [] /\ rl = [])
    /\ (forall x, has d "label_threshold" KNum x -> forall a, In a rl -> In (snd a) roots /\ n_ltb N (snd (snd a)) (n_mul N x (series_max N (map snd roots))) = false)
    /\ (forall x, has d "max_trees" KNum x -> forall z g, In (z, g) roots -> exists last, n_ltb N (n_ofZ N (z - 1)) (n_mul N x (n_ofZ N last)) = true /\ exists rows r, pd_full data = Some rows /\ In r rows /\ u_tree r = last).
  Proof.
    intros H. apply (single_inv _ _ "lollipop" _ _ _ eq_refl) in H as (k & Ek & E). apply chart_fields in Ek as (_ & _ & _ & _ & _ & _ & A7 & A8 & A9 & A10).
    unfold visualize in E. destruct (str_in _ _); [|discriminate]. cbn [negb String.eqb Ascii.eqb Bool.eqb] in E. change (k_own (sub_call (Some k))) with k in E.
    unfold plot_lollipop in E. destruct (pd_full data) as [rows|]; [|discriminate]. destruct (6 <=? _); [discriminate|]. cbn [bind] in E. injection E as _ -> -> -> ->.
    unfold read in A7, A8, A9, A10. repeat split.
    - intros n Hn. rewrite Hn in A8. cbn in A8. injection A8 as A8. rewrite <- A8. cbn [pop]. rewrite map_length, seq_length. reflexivity.
    - rewrite H in A10. cbn in A10. injection A10 as A10. rewrite <- A10. reflexivity.
    - rewrite H in A10. cbn in A10. injection A10 as A10. rewrite <- A10. reflexivity.
    - destruct (pop (k_labels k) true); [|destruct H0]. apply in_map_iff in H0 as (r & <- & Hr). apply filter_In in Hr as [Hr _]. cbn [snd]. apply in_map, Hr.
    - destruct (pop (k_labels k) true); [|destruct H0]. rewrite H in A9. cbn in A9. injection A9 as A9. rewrite <- A9 in H0. cbn [pop] in H0. apply in_map_iff in H0 as (r & <- & Hr).
      apply filter_In in Hr as [_ Hr]. apply andb_prop in Hr as [_ Hr]. cbn [snd point]. rewrite map_map. cbn [point snd]. apply negb_true_iff. exact Hr.
    - intros x Hx z g Hin. rewrite Hx in A7. cbn in A7. injection A7 as A7. rewrite <- A7 in Hin. cbn [pop] in Hin. apply in_map_iff in Hin as (r & Er & Hr). injection Er as <- <-.
      unfold early_trees in Hr. destruct (max_tree _) as [mx|] eqn:Em; [|destruct Hr]. apply filter_In in Hr as [Hr Hb]. exists mx. split; [rewrite Z.add_simpl_r; exact Hb|]. exists rows.
      unfold max_tree in Em. destruct (filter (at_depth 0) rows) as [|r0 l] eqn:Ef; [discriminate|]. injection Em as <-.
      assert (Hmx : forall l z0, exists z', In z' (z0 :: l) /\ fold_left Z.max l z0 = z').
      { clear. induction l as [|y l IH]; intros z0; cbn [fold_left]; [exists z0; split; [left|]; reflexivity|]. destruct (IH (Z.max z0 y)) as (z' & [<-|Hz] & ->); [|exists z'; split; [right; right; exact Hz|reflexivity]].
        exists (Z.max z0 y). split; [|reflexivity]. destruct (Z.max_spec z0 y) as [[_ ->]|[_ ->]]; [right; left|left]; reflexivity. }
      destruct (Hmx (map u_tree l) (u_tree r0)) as (z' & Hz & ->). change (u_tree r0 :: map u_tree l) with (map u_tree (r0 :: l)) in Hz. apply in_map_iff in Hz as (r' & <- & Hr'). exists r'.
      split; [reflexivity|]. split; [|reflexivity]. rewrite <- Ef in Hr'. apply filter_In in Hr' as [Hr' _]. exact Hr'.
  Qed.
End Keywords.

(** ** Examples *)
(** a misspelt keyword ("topk") is ignored silently: the two bars of the default *)
Example C114_misspelt : kq HStatistic two_pairs "bar_chart" "default" [("topk", KInt 1)] = Some (Ok (None, [bars2]))
  /\ kq HStatistic two_pairs "bar_chart" "T" [("top_k", KInt 1)] = Some (Ok (None, [bars1])).
Proof. split; vm_compute; reflexivity. Qed.
Example C114_heatmap_example : exists c1 c2, c1 <> c2
  /\ (exists p, kq HStatistic two_pairs "heatmap" "default" [("interaction_color_map", KStr c1); ("importance_color_map", KStr c2)] = Some (Ok (None, [p])))
  /\ kq HStatistic two_pairs "heatmap" "default" [("interaction_color_map", KStr c1)] <> kq HStatistic two_pairs "heatmap" "default" [("importance_color_map", KStr c1)].
Proof. exists "Blues", "Reds". split; [discriminate|]. split; [eexists; vm_compute; reflexivity|]. vm_compute. discriminate. Qed.
Example C114_graph_example : exists t dir e nodes,
  kq HStatistic two_pairs "graph" "default" [("n_highest_with_labels", KInt 1); ("threshold_relevant_interaction", KNum (q 1))] = Some (Ok (None, [PGraph t dir e nodes [("a", "b", q 5)]]))
  /\ exists e', kq HStatistic two_pairs "graph" "default" [("max_edge_width", KNum (q 7))] = Some (Ok (None, [PGraph t dir e' nodes [("a", "b", q 5); ("a", "c", q 3)]])) /\ e' <> e.
Proof. do 4 eexists. split; [vm_compute; reflexivity|]. eexists. split; [vm_compute; reflexivity|]. discriminate. Qed.
Definition full_rows : list (urow (ext Q)) := match ss_full_result (fst (splitQ ex_ts true)) with Some l => l | None => [] end.
Definition boosted : plot_data (V := ext Q) :=
  {| pd_ovo := [("a", "b", q 5)]; pd_fi := None; pd_ova := None; pd_cond := []; pd_full := Some full_rows; pd_directed := true; pd_int_asc := false; pd_imp_asc := false |}.
Example C114_lollipop_example : exists t roots s1 s2 nl rl,
  kq SplitScoreM boosted "lollipop" "default" [("max_depth", KInt 2); ("max_trees", KNum (q 1)); ("label_threshold", KNum (q 1))] = Some (Ok (None, [PLollipop t roots [s1; s2] nl rl]))
  /\ roots <> [] /\ rl <> []
  /\ kq SplitScoreM boosted "lollipop" "default" [("max_depth", KInt 2); ("max_trees", KNum (q 1)); ("labels", KBool false)] = Some (Ok (None, [PLollipop t roots [s1; s2] [] []])).
Proof. do 6 eexists. split; [vm_compute; reflexivity|]. split; [discriminate|]. split; [discriminate|]. vm_compute. reflexivity. Qed.

Print Assumptions C114_unrelated.
Print Assumptions C114_heatmap.
Print Assumptions C114_bars.
Print Assumptions C114_labels.
Print Assumptions C114_width.
Print Assumptions C114_lollipop.
