(** Keyword arguments and documented chart types of [plot] (C106, C107). *)
From Verif Require Import Py Num NumR Sorting Frame Rng PdCalc PdMethods Perm CondDepth SplitScore SplitFacts SplitTables Comparator Visual VisualFacts
  Props_Split Props_Split2 Props_Visual2 Props_Visual5 Props_Visual6 Keywords.
From Coq Require Import QArith.
Open Scope string_scope.
Open Scope nat_scope.
Open Scope list_scope.

Section Keywords.
  Context {V : Type} (N : num_ops V) (srt : sorter) (lower : string -> string).
  Notation plot_kw := (plot_kw N srt lower).
  Notation dict := (list (string * kwval V)).

  (** ** Specification *)

  (** the title given in the dictionary of a panel *)
  Definition title_in (d : dict) : string := match assoc String.eqb "title" d with Some (KStr t) => t | _ => "default" end.

  Lemma chart_title d k : chart_kwargs N d = Some k -> match k_title k with Some t => t | None => "default" end = title_in d.
  Proof.
    intros H. unfold chart_kwargs in H. destruct (read as_str "title" d) as [o|] eqn:E; [|discriminate].
    repeat match type of H with context [match read ?c ?n d with _ => _ end] => destruct (read c n d); [|discriminate] end. injection H as <-. cbn [k_title].
    unfold read, title_in in *. destruct (assoc String.eqb "title" d) as [[]|]; cbn in E; try discriminate; injection E as <-; reflexivity.
  Qed.
  Lemma chart_fcmap d k : chart_kwargs N d = Some k -> In "importance_color_map" (map fst d) -> exists c, k_fcmap k = Some c.
  Proof.
    intros H Hin. apply (assoc_keys String.eqb String.eqb_eq) in Hin as (x & Hx). unfold chart_kwargs in H.
    repeat match type of H with context [match read ?c ?n d with _ => _ end] => destruct (read c n d) eqn:?; [|discriminate] end. injection H as <-. cbn [k_fcmap].
    match goal with E : read as_str "importance_color_map" d = Some ?o |- _ => unfold read in E; rewrite Hx in E; destruct x; cbn in E; try discriminate; injection E as <-; eauto end.
  Qed.
  Lemma summary_kw m data title kws fig : plot_kw m data "summary" title kws = Some (Ok fig) ->
    exists k, visualize N srt lower m data "summary" title k = Ok fig
      /\ (forall name f, In (name, f) [("heatmap", k_heatmap k); ("graph", k_graph k); ("bar_chart_ovo", k_ovo k); ("bar_chart_ova", k_ova k)] ->
            read (as_chart N) name kws = Some f).
  Proof.
    unfold Keywords.plot_kw, plot_kwargs. change (String.eqb "summary" "summary") with true. cbv iota.
    destruct (read (as_chart N) "heatmap" kws) as [h|] eqn:Eh; [|discriminate]. destruct (read (as_chart N) "graph" kws) as [g|] eqn:Eg; [|discriminate].
    destruct (read (as_chart N) "bar_chart_ovo" kws) as [b|] eqn:Eb; [|discriminate]. destruct (read (as_chart N) "bar_chart_ova" kws) as [a|] eqn:Ea; [|discriminate].
    intros H. injection H as H. eexists. split; [exact H|]. cbn [k_heatmap k_graph k_ovo k_ova].
    intros name f [E|[E|[E|[E|[]]]]]; injection E as <- <-; assumption.
  Qed.
  Lemma read_chart name kws o sub : read (as_chart N) name kws = Some o -> assoc String.eqb name kws = Some (KDict sub) -> exists k, o = Some k /\ chart_kwargs N sub = Some k.
  Proof. unfold read. intros H E. rewrite E in H. cbn [as_chart] in H. destruct (chart_kwargs N sub) as [k|]; [|discriminate]. injection H as <-. eauto. Qed.
  Lemma single_kw m data vis sub k title : String.eqb vis "summary" = false -> chart_kwargs N sub = Some k ->
    plot_kw m data vis title sub = Some (visualize N srt lower m data vis title (sub_call (Some k))).
  Proof. intros Hv H. unfold Keywords.plot_kw, plot_kwargs. rewrite Hv, H. reflexivity. Qed.

  (** ** C106: in 'summary', the arguments listed under the name of a chart are those of that chart *)
  Theorem C106_summary_partial m data title kws fig : plot_kw m data "summary" title kws = Some (Ok fig) ->
    (forall sub, assoc String.eqb "heatmap" kws = Some (KDict sub) -> pd_imp_asc data = false \/ In "importance_color_map" (map fst sub) ->
       exists p, nth_error (snd fig) 0 = Some p /\ plot_kw m data "heatmap" (title_in sub) sub = Some (Ok (None, [p])))
    /\ (forall sub, assoc String.eqb "graph" kws = Some (KDict sub) -> pd_int_asc data = false ->
       exists p, nth_error (snd fig) 1 = Some p /\ plot_kw m data "graph" (title_in sub) sub = Some (Ok (None, [p])))
    (* the pair chart is not looked up under its name, 'bar_chart' *)
    /\ (forall sub, assoc String.eqb "bar_chart_ovo" kws = Some (KDict sub) ->
       exists p, nth_error (snd fig) 2 = Some p /\ plot_kw m data "bar_chart" (title_in sub) sub = Some (Ok (None, [p])))
    /\ (forall sub, assoc String.eqb "bar_chart_ova" kws = Some (KDict sub) -> m = HStatistic -> pd_ova data <> None -> title_in sub = "default" ->
       exists p, nth_error (snd fig) 3 = Some p /\ plot_kw m data "bar_chart_ova" "default" sub = Some (Ok (None, [p]))).
  Proof.
    intros H. destruct (summary_kw m data title kws fig H) as (k & E & Hk).
    assert (Ht : forall sub k0, chart_kwargs N sub = Some k0 -> sub_title (Some k0) = title_in sub) by (intros sub k0 E0; apply chart_title, E0).
    split; [|split; [|split]]; intros sub Hs.
    - intros Ha. destruct (read_chart _ _ _ _ (Hk "heatmap" _ (or_introl eq_refl)) Hs) as (k0 & E0 & E1). rewrite (single_kw m data "heatmap" sub k0 _ eq_refl E1), <- (Ht _ _ E1), <- E0.
      destruct (C76_heatmap_partial N srt lower m data title k fig E) as (h & Hn & Hp).
      + destruct Ha as [Ha|Ha]; [auto|right]. rewrite E0. cbn [pop]. apply (chart_fcmap sub); assumption.
      + exists h. rewrite Hp. auto.
    - intros Ha. destruct (read_chart _ _ _ _ (Hk "graph" _ (or_intror (or_introl eq_refl))) Hs) as (k0 & E0 & E1). rewrite (single_kw m data "graph" sub k0 _ eq_refl E1), <- (Ht _ _ E1), <- E0.
      destruct (C59_graph_partial N srt lower m data title k fig E Ha) as (g & Hn & Hp). exists g. rewrite Hp. auto.
    - destruct (read_chart _ _ _ _ (Hk "bar_chart_ovo" _ (or_intror (or_intror (or_introl eq_refl)))) Hs) as (k0 & E0 & E1). rewrite (single_kw m data "bar_chart" sub k0 _ eq_refl E1), <- (Ht _ _ E1), <- E0.
      destruct (C76_bars N srt lower m data title k fig E) as ((b & Hn & Hp) & _). exists b. rewrite Hp. auto.
    - intros -> Ho Hd. destruct (read_chart _ _ _ _ (Hk "bar_chart_ova" _ (or_intror (or_intror (or_intror (or_introl eq_refl))))) Hs) as (k0 & E0 & E1). rewrite (single_kw HStatistic data "bar_chart_ova" sub k0 _ eq_refl E1).
      destruct (summary_panels N srt lower HStatistic data title k fig E) as (h & g & b & a & -> & _ & _ & _ & Ha). destruct (pd_ova data) as [ova|] eqn:Eo; [|congruence].
      destruct Ha as (p & -> & Hp). exists p. split; [reflexivity|]. rewrite E0, (Ht _ _ E1), Hd in Hp. cbn [pop] in Hp.
      assert (Ev : visualize N srt lower HStatistic data "bar_chart_ova" "default" (sub_call (Some k0)) = (do p <- plot_bars_ova (method_name HStatistic) (pd_ova data) "default" k0; Ok (None, [p]))) by reflexivity.
      rewrite Ev, Eo, Hp. reflexivity.
  Qed.
  (** arguments under the name of the pair chart are dropped *)
  Theorem C106_bar_chart_partial m data title kws x : plot_kw m data "summary" title (("bar_chart", x) :: kws) = plot_kw m data "summary" title kws.
  Proof. reflexivity. Qed.

  (** ** C107: giving a keyword its documented default changes nothing *)
  (** _method.py:104-139, _split_score.py:171-183, _conditional_minimal_depth.py:155 *)
  Definition documented_default (vis_type name : string) (x : kwval V) : Prop :=
    In (vis_type, name) [("bar_chart", "top_k"); ("bar_chart_ova", "top_k")] /\ x = KInt 10
    \/ (vis_type, name) = ("bar_chart_conditional", "top_k") /\ x = KInt 15
    \/ (vis_type, name) = ("graph", "n_highest_with_labels") /\ x = KInt 5
    \/ (vis_type, name) = ("lollipop", "max_trees") /\ x = KNum (n_div N (n_ofZ N 1) (n_ofZ N 5))
    \/ (vis_type, name) = ("lollipop", "max_depth") /\ x = KInt 1
    \/ (vis_type, name) = ("lollipop", "label_threshold") /\ x = KNum (n_div N (n_ofZ N 1) (n_ofZ N 10))
    \/ (vis_type, name) = ("lollipop", "labels") /\ x = KBool true.

  Lemma read_other {A} (conv : kwval V -> option A) n name x (kws : dict) : n <> name -> read conv n ((name, x) :: kws) = read conv n kws.
  Proof. intros H. unfold read. cbn [assoc]. destruct (String.eqb_spec n name); [contradiction|reflexivity]. Qed.
  Lemma read_same {A} (conv : kwval V -> option A) name x a (kws : dict) : conv x = Some a -> read conv name ((name, x) :: kws) = Some (Some a).
  Proof. intros H. unfold read. cbn [assoc]. rewrite String.eqb_refl, H. reflexivity. Qed.
  Lemma read_none {A} (conv : kwval V -> option A) name (kws : dict) : ~ In name (map fst kws) -> read conv name kws = Some None.
  Proof.
    intros H. unfold read. destruct (assoc String.eqb name kws) as [x|] eqn:E; [|reflexivity]. destruct H. apply (assoc_keys String.eqb String.eqb_eq). eauto.
  Qed.

  Ltac reads d := split; [|intros k];
    repeat match goal with |- context [match read ?c ?n d with _ => _ end] => destruct (read c n d); [|first [reflexivity|discriminate]] end;
    [reflexivity|intros E0; injection E0 as <-; reflexivity].
  Definition set_top (a : nat) (k : kwargs (V:=V)) : kwargs (V:=V) := {| k_title := k_title k; k_top := Some a; k_width := k_width k; k_threshold := k_threshold k; k_nlabels := k_nlabels k; k_icmap := k_icmap k; k_fcmap := k_fcmap k; k_max_trees := k_max_trees k; k_max_depth := k_max_depth k; k_label_threshold := k_label_threshold k; k_labels := k_labels k |}.
  Lemma set_top_kw a kws : ~ In "top_k" (map fst kws) ->
    chart_kwargs N (("top_k", KInt a) :: kws) = option_map (set_top a) (chart_kwargs N kws) /\ forall k, chart_kwargs N kws = Some k -> k_top k = None.
  Proof.
    intros H. pose proof (read_none as_int "top_k" kws H) as E. unfold chart_kwargs. rewrite (read_same as_int "top_k" (KInt a) a kws eq_refl). rewrite E. repeat rewrite read_other by discriminate. reads kws.
  Qed.
  Definition set_nlabels (a : nat) (k : kwargs (V:=V)) : kwargs (V:=V) := {| k_title := k_title k; k_top := k_top k; k_width := k_width k; k_threshold := k_threshold k; k_nlabels := Some a; k_icmap := k_icmap k; k_fcmap := k_fcmap k; k_max_trees := k_max_trees k; k_max_depth := k_max_depth k; k_label_threshold := k_label_threshold k; k_labels := k_labels k |}.
  Lemma set_nlabels_kw a kws : ~ In "n_highest_with_labels" (map fst kws) ->
    chart_kwargs N (("n_highest_with_labels", KInt a) :: kws) = option_map (set_nlabels a) (chart_kwargs N kws) /\ forall k, chart_kwargs N kws = Some k -> k_nlabels k = None.
  Proof.
    intros H. pose proof (read_none as_int "n_highest_with_labels" kws H) as E. unfold chart_kwargs. rewrite (read_same as_int "n_highest_with_labels" (KInt a) a kws eq_refl). rewrite E. repeat rewrite read_other by discriminate. reads kws.
  Qed.
  Definition set_max_trees (a : V) (k : kwargs (V:=V)) : kwargs (V:=V) := {| k_title := k_title k; k_top := k_top k; k_width := k_width k; k_threshold := k_threshold k; k_nlabels := k_nlabels k; k_icmap := k_icmap k; k_fcmap := k_fcmap k; k_max_trees := Some a; k_max_depth := k_max_depth k; k_label_threshold := k_label_threshold k; k_labels := k_labels k |}.
  Lemma set_max_trees_kw a kws : ~ In "max_trees" (map fst kws) ->
    chart_kwargs N (("max_trees", KNum a) :: kws) = option_map (set_max_trees a) (chart_kwargs N kws) /\ forall k, chart_kwargs N kws = Some k -> k_max_trees k = None.
  Proof.
    intros H. pose proof (read_none (as_num N) "max_trees" kws H) as E. unfold chart_kwargs. rewrite (read_same (as_num N) "max_trees" (KNum a) a kws eq_refl). rewrite E. repeat rewrite read_other by discriminate. reads kws.
  Qed.
  Definition set_max_depth (a : nat) (k : kwargs (V:=V)) : kwargs (V:=V) := {| k_title := k_title k; k_top := k_top k; k_width := k_width k; k_threshold := k_threshold k; k_nlabels := k_nlabels k; k_icmap := k_icmap k; k_fcmap := k_fcmap k; k_max_trees := k_max_trees k; k_max_depth := Some a; k_label_threshold := k_label_threshold k; k_labels := k_labels k |}.
  Lemma set_max_depth_kw a kws : ~ In "max_depth" (map fst kws) ->
    chart_kwargs N (("max_depth", KInt a) :: kws) = option_map (set_max_depth a) (chart_kwargs N kws) /\ forall k, chart_kwargs N kws = Some k -> k_max_depth k = None.
  Proof.
    intros H. pose proof (read_none as_int "max_depth" kws H) as E. unfold chart_kwargs. rewrite (read_same as_int "max_depth" (KInt a) a kws eq_refl). rewrite E. repeat rewrite read_other by discriminate. reads kws.
  Qed.
  Definition set_label_threshold (a : V) (k : kwargs (V:=V)) : kwargs (V:=V) := {| k_title := k_title k; k_top := k_top k; k_width := k_width k; k_threshold := k_threshold k; k_nlabels := k_nlabels k; k_icmap := k_icmap k; k_fcmap := k_fcmap k; k_max_trees := k_max_trees k; k_max_depth := k_max_depth k; k_label_threshold := Some a; k_labels := k_labels k |}.
  Lemma set_label_threshold_kw a kws : ~ In "label_threshold" (map fst kws) ->
    chart_kwargs N (("label_threshold", KNum a) :: kws) = option_map (set_label_threshold a) (chart_kwargs N kws) /\ forall k, chart_kwargs N kws = Some k -> k_label_threshold k = None.
  Proof.
    intros H. pose proof (read_none (as_num N) "label_threshold" kws H) as E. unfold chart_kwargs. rewrite (read_same (as_num N) "label_threshold" (KNum a) a kws eq_refl). rewrite E. repeat rewrite read_other by discriminate. reads kws.
  Qed.
  Definition set_labels (a : bool) (k : kwargs (V:=V)) : kwargs (V:=V) := {| k_title := k_title k; k_top := k_top k; k_width := k_width k; k_threshold := k_threshold k; k_nlabels := k_nlabels k; k_icmap := k_icmap k; k_fcmap := k_fcmap k; k_max_trees := k_max_trees k; k_max_depth := k_max_depth k; k_label_threshold := k_label_threshold k; k_labels := Some a |}.
  Lemma set_labels_kw a kws : ~ In "labels" (map fst kws) ->
    chart_kwargs N (("labels", KBool a) :: kws) = option_map (set_labels a) (chart_kwargs N kws) /\ forall k, chart_kwargs N kws = Some k -> k_labels k = None.
  Proof.
    intros H. pose proof (read_none as_bool "labels" kws H) as E. unfold chart_kwargs. rewrite (read_same as_bool "labels" (KBool a) a kws eq_refl). rewrite E. repeat rewrite read_other by discriminate. reads kws.
  Qed.

  Theorem C107_defaults m data vis_type title kws name x : documented_default vis_type name x -> ~ In name (map fst kws) ->
    plot_kw m data vis_type title ((name, x) :: kws) = plot_kw m data vis_type title kws.
  Proof.
    intros Hd Hn.
    assert (G : forall (upd : kwargs (V:=V) -> kwargs (V:=V)),
      String.eqb vis_type "summary" = false ->
      chart_kwargs N ((name, x) :: kws) = option_map upd (chart_kwargs N kws) ->
      (forall k, chart_kwargs N kws = Some k -> visualize N srt lower m data vis_type title (sub_call (Some (upd k))) = visualize N srt lower m data vis_type title (sub_call (Some k))) ->
      plot_kw m data vis_type title ((name, x) :: kws) = plot_kw m data vis_type title kws).
    { intros upd Hv E H. unfold Keywords.plot_kw, plot_kwargs. rewrite Hv, E. destruct (chart_kwargs N kws) as [k|] eqn:Ek; cbn [option_map]; [|reflexivity]. f_equal. apply (H k eq_refl). }
    destruct Hd as [[[E|[E|[]]] ->]|[[E ->]|[[E ->]|[[E ->]|[[E ->]|[[E ->]|[E ->]]]]]]]; injection E as Ev En; subst vis_type name.
    - destruct (set_top_kw 10 kws Hn) as [E1 E2]. apply (G (set_top 10) eq_refl E1). intros k Ek.
      assert (Ev : forall k', visualize N srt lower m data "bar_chart" title (sub_call (Some k')) = (do p <- plot_bars_ovo (method_name m) (pd_ovo data) title k'; Ok (None, [p]))) by (intros k'; destruct m; reflexivity).
      rewrite !Ev. unfold plot_bars_ovo. rewrite (E2 k Ek). reflexivity.
    - destruct (set_top_kw 10 kws Hn) as [E1 E2]. apply (G (set_top 10) eq_refl E1). intros k Ek. destruct m; try reflexivity.
      assert (Ev : forall k', visualize N srt lower HStatistic data "bar_chart_ova" title (sub_call (Some k')) = (do p <- plot_bars_ova (method_name HStatistic) (pd_ova data) "default" k'; Ok (None, [p]))) by reflexivity.
      rewrite !Ev. unfold plot_bars_ova. rewrite (E2 k Ek). reflexivity.
    - destruct (set_top_kw 15 kws Hn) as [E1 E2]. apply (G (set_top 15) eq_refl E1). intros k Ek. destruct m; try reflexivity.
      assert (Ev : forall k', visualize N srt lower ConditionalDepth data "bar_chart_conditional" title (sub_call (Some k')) = (do p <- plot_bars_conditional (pd_cond data) (pd_fi data) title k'; Ok (None, [p]))) by reflexivity.
      rewrite !Ev. unfold plot_bars_conditional. rewrite (E2 k Ek). reflexivity.
    - destruct (set_nlabels_kw 5 kws Hn) as [E1 E2]. apply (G (set_nlabels 5) eq_refl E1). intros k Ek.
      assert (Ev : forall k', visualize N srt lower m data "graph" title (sub_call (Some k')) = (do p <- plot_graph N srt (graph_config_of N m) (pd_ovo data) (pd_fi data) title (pd_int_asc data) (pd_directed data) k'; Ok (None, [p]))) by (intros k'; destruct m; reflexivity).
      rewrite !Ev. unfold plot_graph. rewrite (E2 k Ek). destruct m; reflexivity.
    - destruct (set_max_trees_kw (n_div N (n_ofZ N 1) (n_ofZ N 5)) kws Hn) as [E1 E2]. apply (G (set_max_trees _) eq_refl E1). intros k Ek. destruct m; try reflexivity.
      assert (Ev : forall k', visualize N srt lower SplitScoreM data "lollipop" title (sub_call (Some k')) = (do p <- plot_lollipop N (pd_full data) title k'; Ok (None, [p]))) by reflexivity.
      rewrite !Ev. unfold plot_lollipop. rewrite (E2 k Ek). reflexivity.
    - destruct (set_max_depth_kw 1 kws Hn) as [E1 E2]. apply (G (set_max_depth _) eq_refl E1). intros k Ek. destruct m; try reflexivity.
      assert (Ev : forall k', visualize N srt lower SplitScoreM data "lollipop" title (sub_call (Some k')) = (do p <- plot_lollipop N (pd_full data) title k'; Ok (None, [p]))) by reflexivity.
      rewrite !Ev. unfold plot_lollipop. rewrite (E2 k Ek). reflexivity.
    - destruct (set_label_threshold_kw (n_div N (n_ofZ N 1) (n_ofZ N 10)) kws Hn) as [E1 E2]. apply (G (set_label_threshold _) eq_refl E1). intros k Ek. destruct m; try reflexivity.
      assert (Ev : forall k', visualize N srt lower SplitScoreM data "lollipop" title (sub_call (Some k')) = (do p <- plot_lollipop N (pd_full data) title k'; Ok (None, [p]))) by reflexivity.
      rewrite !Ev. unfold plot_lollipop. rewrite (E2 k Ek). reflexivity.
    - destruct (set_labels_kw true kws Hn) as [E1 E2]. apply (G (set_labels _) eq_refl E1). intros k Ek. destruct m; try reflexivity.
      assert (Ev : forall k', visualize N srt lower SplitScoreM data "lollipop" title (sub_call (Some k')) = (do p <- plot_lollipop N (pd_full data) title k'; Ok (None, [p]))) by reflexivity.
      rewrite !Ev. unfold plot_lollipop. rewrite (E2 k Ek). reflexivity.
  Qed.

  (** the defaults of the graph that depend on the method: an interaction below 0.05 (0.1 for the performance based and
      the split score method), for the depth method above 0.6, is not drawn; the widest edge is 20, for the depth method 3 *)
  Definition default_threshold (m : imethod) : V :=
    match m with HStatistic | VariableInteraction => n_div N (n_ofZ N 5) (n_ofZ N 100) | PerformanceBased | SplitScoreM => n_div N (n_ofZ N 1) (n_ofZ N 10) | ConditionalDepth => n_div N (n_ofZ N 6) (n_ofZ N 10) end.
  Definition default_width (m : imethod) : V := match m with ConditionalDepth => n_ofZ N 3 | _ => n_ofZ N 20 end.
  Definition set_threshold (a : V) (k : kwargs (V:=V)) : kwargs (V:=V) := {| k_title := k_title k; k_top := k_top k; k_width := k_width k; k_threshold := Some a; k_nlabels := k_nlabels k; k_icmap := k_icmap k; k_fcmap := k_fcmap k; k_max_trees := k_max_trees k; k_max_depth := k_max_depth k; k_label_threshold := k_label_threshold k; k_labels := k_labels k |}.
  Lemma set_threshold_kw a kws : ~ In "threshold_relevant_interaction" (map fst kws) ->
    chart_kwargs N (("threshold_relevant_interaction", KNum a) :: kws) = option_map (set_threshold a) (chart_kwargs N kws) /\ forall k, chart_kwargs N kws = Some k -> k_threshold k = None.
  Proof.
    intros H. pose proof (read_none (as_num N) "threshold_relevant_interaction" kws H) as E. unfold chart_kwargs. rewrite (read_same (as_num N) "threshold_relevant_interaction" (KNum a) a kws eq_refl). rewrite E. repeat rewrite read_other by discriminate. reads kws.
  Qed.
  Definition set_width (a : V) (k : kwargs (V:=V)) : kwargs (V:=V) := {| k_title := k_title k; k_top := k_top k; k_width := Some a; k_threshold := k_threshold k; k_nlabels := k_nlabels k; k_icmap := k_icmap k; k_fcmap := k_fcmap k; k_max_trees := k_max_trees k; k_max_depth := k_max_depth k; k_label_threshold := k_label_threshold k; k_labels := k_labels k |}.
  Lemma set_width_kw a kws : ~ In "max_edge_width" (map fst kws) ->
    chart_kwargs N (("max_edge_width", KNum a) :: kws) = option_map (set_width a) (chart_kwargs N kws) /\ forall k, chart_kwargs N kws = Some k -> k_width k = None.
  Proof.
    intros H. pose proof (read_none (as_num N) "max_edge_width" kws H) as E. unfold chart_kwargs. rewrite (read_same (as_num N) "max_edge_width" (KNum a) a kws eq_refl). rewrite E. repeat rewrite read_other by discriminate. reads kws.
  Qed.
  Theorem C107_graph_defaults m data title kws name x : (name = "threshold_relevant_interaction" /\ x = default_threshold m) \/ (name = "max_edge_width" /\ x = default_width m) -> ~ In name (map fst kws) ->
    plot_kw m data "graph" title ((name, KNum x) :: kws) = plot_kw m data "graph" title kws.
  Proof.
    intros Hd Hn.
    assert (G : forall (upd : kwargs (V:=V) -> kwargs (V:=V)), chart_kwargs N ((name, KNum x) :: kws) = option_map upd (chart_kwargs N kws) ->
      (forall k, chart_kwargs N kws = Some k -> visualize N srt lower m data "graph" title (sub_call (Some (upd k))) = visualize N srt lower m data "graph" title (sub_call (Some k))) ->
      plot_kw m data "graph" title ((name, KNum x) :: kws) = plot_kw m data "graph" title kws).
    { intros upd E H. unfold Keywords.plot_kw, plot_kwargs. change (String.eqb "graph" "summary") with false. cbv iota. rewrite E. destruct (chart_kwargs N kws) as [k|] eqn:Ek; cbn [option_map]; [|reflexivity]. f_equal. apply (H k eq_refl). }
    assert (Ev : forall k', visualize N srt lower m data "graph" title (sub_call (Some k')) = (do p <- plot_graph N srt (graph_config_of N m) (pd_ovo data) (pd_fi data) title (pd_int_asc data) (pd_directed data) k'; Ok (None, [p]))) by (intros k'; destruct m; reflexivity).
    destruct Hd as [[-> ->]|[-> ->]].
    - destruct (set_threshold_kw (default_threshold m) kws Hn) as [E1 E2]. apply (G (set_threshold _) E1). intros k Ek. rewrite !Ev. unfold plot_graph. rewrite (E2 k Ek). destruct m; reflexivity.
    - destruct (set_width_kw (default_width m) kws Hn) as [E1 E2]. apply (G (set_width _) E1). intros k Ek. rewrite !Ev. unfold plot_graph. rewrite (E2 k Ek). destruct m; reflexivity.
  Qed.

  (** ** C108: the documented chart types are accepted *)
  (** _method.py:91, _friedman_h_statistic.py:129, _conditional_minimal_depth.py:104, _split_score.py:120 *)
  Definition documented (m : imethod) : list string :=
    match m with
    | HStatistic => ["heatmap"; "bar_chart"; "graph"; "bar_chart_ova"; "summary"]
    | VariableInteraction | PerformanceBased => ["heatmap"; "bar_chart"; "graph"; "summary"]
    | ConditionalDepth => ["heatmap"; "bar_chart"; "graph"; "bar_chart_conditional"; "summary"]
    | SplitScoreM => ["heatmap"; "bar_chart"; "graph"; "lolliplot"; "summary"]
    end.
  Theorem C108_documented_partial m data vis_type title k : In vis_type (documented m) -> vis_type <> "lolliplot" ->
    visualize N srt lower m data vis_type title k <> Err VisualizationNotSupported.
  Proof.
    intros H Hn E. apply C46_visualizations in E. apply E.
    destruct m; cbn in H |- *; repeat (destruct H as [<-|H]; [try congruence; tauto|]); destruct H.
  Qed.
  (** the split score method refuses the name in its documentation, whatever was fitted *)
  Theorem C108_lolliplot_refuted s title k : ss_ovo s <> None ->
    In "lolliplot" (documented SplitScoreM) /\ ss_plot N srt lower s "lolliplot" title k = Err VisualizationNotSupported.
  Proof. intros H. split; [cbn; tauto|]. unfold ss_plot. destruct (ss_ovo s) as [ovo|]; [reflexivity|congruence]. Qed.
End Keywords.

(** ** Examples *)
Notation kq := (plot_kw xQ isort same).
Definition two_pairs : plot_data (V := ext Q) :=
  {| pd_ovo := [("a", "b", q 5); ("a", "c", q 3)]; pd_fi := Some [("a", q 4); ("b", q 2); ("c", q 1)]; pd_ova := Some [("a", q 4); ("b", q 2); ("c", q 1)];
     pd_cond := []; pd_full := None; pd_directed := false; pd_int_asc := false; pd_imp_asc := false |}.
Definition bars1 : panel (V := ext Q) := PBars "T" "Friedman H-statistic Interaction Measure" [("a:b", q 5)].
Definition bars2 : panel (V := ext Q) := PBars "Pair interactions" "Friedman H-statistic Interaction Measure" [("a:b", q 5); ("a:c", q 3)].
Example C106_example :
  exists h g a, kq HStatistic two_pairs "summary" "default" [("bar_chart_ovo", KDict [("top_k", KInt 1); ("title", KStr "T")]); ("graph", KDict [("n_highest_with_labels", KInt 1)])]
    = Some (Ok (Some "Friedman H-statistic Interaction Measure summary", [h; g; bars1; a]))
  /\ kq HStatistic two_pairs "bar_chart" "T" [("top_k", KInt 1); ("title", KStr "T")] = Some (Ok (None, [bars1]))
  /\ kq HStatistic two_pairs "graph" "default" [("n_highest_with_labels", KInt 1)] = Some (Ok (None, [g])).
Proof. do 3 eexists. repeat split; vm_compute; reflexivity. Qed.
(** the same arguments under the name of the chart, 'bar_chart', change nothing: two bars, not one *)
Theorem C106_bar_chart_refuted : exists data sub h g a,
  kq HStatistic data "summary" "default" [("bar_chart", KDict sub)] = Some (Ok (Some "Friedman H-statistic Interaction Measure summary", [h; g; bars2; a]))
  /\ exists b, kq HStatistic data "bar_chart" "default" sub = Some (Ok (None, [b])) /\ b <> bars2.
Proof.
  exists two_pairs, [("top_k", KInt 1)]. do 3 eexists. split; [vm_compute; reflexivity|]. eexists. split; [vm_compute; reflexivity|]. discriminate.
Qed.
Print Assumptions C106_bar_chart_refuted.
Example C107_example : documented_default xQ "bar_chart" "top_k" (KInt 10) /\ documented_default xQ "lollipop" "max_trees" (KNum (Fin (1 # 5)))
  /\ kq HStatistic two_pairs "bar_chart" "default" [("top_k", KInt 10)] = Some (Ok (None, [bars2]))
  /\ kq HStatistic two_pairs "bar_chart" "default" [] = Some (Ok (None, [bars2]))
  /\ kq HStatistic two_pairs "bar_chart" "T" [("top_k", KInt 1)] = Some (Ok (None, [bars1])).
Proof.
  split; [left; cbn; auto|]. split; [do 3 right; left; split; [reflexivity|]; vm_compute; reflexivity|]. repeat split; vm_compute; reflexivity.
Qed.
Example C107_graph_example : default_threshold xQ HStatistic = Fin (1 # 20) /\ default_threshold xQ ConditionalDepth = Fin (3 # 5)
  /\ (exists g, kq HStatistic two_pairs "graph" "default" [("threshold_relevant_interaction", KNum (Fin (1 # 20)))] = Some (Ok (None, [g])) /\ kq HStatistic two_pairs "graph" "default" [] = Some (Ok (None, [g])))
  /\ kq HStatistic two_pairs "graph" "default" [("threshold_relevant_interaction", KNum (Fin (100 # 1)))] <> kq HStatistic two_pairs "graph" "default" [].
Proof. split; [vm_compute; reflexivity|]. split; [vm_compute; reflexivity|]. split; [eexists; split; vm_compute; reflexivity|]. vm_compute. discriminate. Qed.
Example C108_example : In "graph" (documented SplitScoreM) /\ ss_ovo (fst (splitQ ex_ts true)) <> None
  /\ (exists g, split_plot ex_ts true "graph" "default" none = Ok (None, [g]))
  /\ split_plot ex_ts true "lolliplot" "default" none = Err VisualizationNotSupported
  /\ exists l, split_plot ex_ts true "lollipop" "default" (own (with_share (q 1))) = Ok (None, [l]).
Proof. split; [cbn; auto|]. split; [vm_compute; discriminate|]. split; [eexists; vm_compute; reflexivity|]. split; [vm_compute; reflexivity|]. eexists; vm_compute; reflexivity. Qed.

Print Assumptions C106_summary_partial.
Print Assumptions C106_bar_chart_partial.
Print Assumptions C107_defaults.
Print Assumptions C108_documented_partial.
Print Assumptions C108_lolliplot_refuted.

Print Assumptions C107_graph_defaults.
