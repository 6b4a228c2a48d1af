(** C59, C76: the summary.  C71: the lollipop chart.  C72: titles.  C73, C75: bar charts.  C74: edge labels. *)
From Verif Require Import Py Num NumR Sorting Frame Rng CondDepth SplitScore SplitFacts Comparator Props_Compare Visual VisualFacts Props_Visual Props_Visual2 Props_Visual4.
From Coq Require Import Reals Lra.
Open Scope string_scope.
Open Scope nat_scope.
Open Scope list_scope.

Lemma sorted_firstn {A} (P : A -> A -> Prop) n l : StronglySorted P l -> StronglySorted P (firstn n l) /\ (forall x y, In x (firstn n l) -> In y (skipn n l) -> P x y).
Proof.
  intros H. revert n. induction H as [|a l Hl IH Ha]; intros n; [destruct n; split; [constructor|intros x y []|constructor|intros x y []]|].
  destruct n as [|n]; [split; [constructor|intros x y []]|]. cbn [firstn skipn]. destruct (IH n) as [H1 H2]. rewrite Forall_forall in Ha. split.
  - constructor; [exact H1|]. apply Forall_forall. intros x Hx. apply Ha. rewrite <- (firstn_skipn n l). apply in_or_app. left. exact Hx.
  - intros x y [<-|Hx] Hy; [apply Ha; rewrite <- (firstn_skipn n l); apply in_or_app; right; exact Hy|apply H2; assumption].
Qed.
Lemma sorted_filter {A} (P : A -> A -> Prop) f l : StronglySorted P l -> StronglySorted P (filter f l).
Proof.
  induction 1 as [|a l Hl IH Ha]; [constructor|]. cbn [filter]. destruct (f a); [|exact IH]. constructor; [exact IH|].
  rewrite Forall_forall in *. intros x Hx. apply filter_In in Hx as [Hx _]. apply Ha, Hx.
Qed.

Section Panels.
  Context {V : Type} (N : num_ops V) (srt : sorter) (lower : string -> string).
  Hypothesis Hsrt : sorter_ok srt.
  Hypothesis HN : num_ord_ok N.
  Notation table := (list (string * string * V)).
  Notation plot := (visualize N srt lower).
  Notation no_kw := (no_kwargs (V:=V)).

  (** ** C73: bar charts *)
  (** the table shown is sorted (C26, C38, C44, ...); the chart shows its strongest rows *)
  Theorem C73_pairs m d title k fig : plot m d "bar_chart" title k = Ok fig ->
    StronglySorted (fun a b => le_dir N (pd_int_asc d) (snd a) (snd b) = true) (pd_ovo d) ->
    let n := match k_top (k_own k) with Some n => n | None => 10 end in
    exists bars rest, fig = (None, [PBars (if String.eqb title "default" then "Pair interactions" else title) (method_name m) (map (fun r => (fst (fst r) ++ ":" ++ snd (fst r), snd r)%string) bars)])
      /\ pd_ovo d = bars ++ rest /\ length bars = Nat.min n (length (pd_ovo d)) /\ bars <> []
      /\ StronglySorted (fun a b => le_dir N (pd_int_asc d) (snd a) (snd b) = true) bars
      /\ (forall x y, In x bars -> In y rest -> le_dir N (pd_int_asc d) (snd x) (snd y) = true).
  Proof.
    intros E Hs n. assert (E' : (do p <- plot_bars_ovo (method_name m) (pd_ovo d) title (k_own k); Ok (None, [p])) = Ok fig) by (destruct m; exact E). clear E.
    unfold plot_bars_ovo, barh in E'. rewrite firstn_map in E'. change (pop (k_top (k_own k)) 10) with n in E'.
    exists (firstn n (pd_ovo d)), (skipn n (pd_ovo d)). destruct (sorted_firstn _ n _ Hs) as [H1 H2].
    destruct (firstn n (pd_ovo d)) as [|r0 rs] eqn:Ef; [discriminate|]. cbn [map bind] in E'. injection E' as <-.
    split; [reflexivity|]. split; [rewrite <- Ef; symmetry; apply firstn_skipn|]. split; [rewrite <- Ef; apply firstn_length|]. split; [discriminate|]. split; assumption.
  Qed.
  Theorem C73_features m d title k fig ova : plot m d "bar_chart_ova" title k = Ok fig -> pd_ova d = Some ova ->
    StronglySorted (fun a b => le_dir N false (snd a) (snd b) = true) ova ->
    let n := match k_top (k_own k) with Some n => n | None => 10 end in
    exists bars rest, fig = (None, [PBars "Interaction with all other features" (method_name m) bars])
      /\ ova = bars ++ rest /\ length bars = Nat.min n (length ova) /\ bars <> []
      /\ StronglySorted (fun a b => le_dir N false (snd a) (snd b) = true) bars
      /\ (forall x y, In x bars -> In y rest -> le_dir N false (snd x) (snd y) = true).
  Proof.
    intros E Eo Hs n. assert (E' : (do p <- plot_bars_ova (method_name m) (pd_ova d) "default" (k_own k); Ok (None, [p])) = Ok fig) by (destruct m; solve [exact E|discriminate E]). clear E.
    rewrite Eo in E'. unfold plot_bars_ova, barh in E'. change (pop (k_top (k_own k)) 10) with n in E'.
    exists (firstn n ova), (skipn n ova). destruct (sorted_firstn _ n _ Hs) as [H1 H2].
    destruct (firstn n ova) as [|r0 rs] eqn:Ef; [discriminate|]. cbn [bind] in E'. injection E' as <-.
    split; [reflexivity|]. split; [rewrite <- Ef; symmetry; apply firstn_skipn|]. split; [rewrite <- Ef; apply firstn_length|]. split; [discriminate|]. split; assumption.
  Qed.

  (** ** C75: conditional bar chart *)
  Theorem C75_conditional d title k fig : plot ConditionalDepth d "bar_chart_conditional" title k = Ok fig ->
    let n := match k_top (k_own k) with Some n => n | None => 15 end in
    exists fi bars, pd_fi d = Some fi /\ fig = (None, [PDepthBars (if String.eqb title "default" then "Random forest model summary" else title) bars])
      /\ Forall2 (fun r b => exists u, b = ((cr_root r ++ ":" ++ cr_var r)%string, cr_value r, cr_occ r, u)
                    (* the mark shows the unconditional depth of the second feature, if it has one *)
                    /\ match u with Some v => has_importance fi (cr_var r) v | None => ~ In (cr_var r) (map fst fi) end) (firstn n (pd_cond d)) bars.
  Proof.
    intros E n. assert (E' : (do p <- plot_bars_conditional (pd_cond d) (pd_fi d) title (k_own k); Ok (None, [p])) = Ok fig) by exact E. clear E.
    unfold plot_bars_conditional in E'. destruct (pd_fi d) as [fi|]; [|discriminate]. exists fi. change (pop (k_top (k_own k)) 15) with n in E'.
    destruct (firstn n (pd_cond d)) as [|r0 rs] eqn:Ef; [discriminate|]. rewrite <- Ef in *. cbn [bind] in E'. injection E' as <-. eexists. split; [reflexivity|]. split; [reflexivity|].
    clear. induction (firstn n (pd_cond d)) as [|r l IH]; cbn [map]; constructor; [|exact IH]. eexists. split; [reflexivity|].
    clear IH. induction fi as [|[g w] fi IHf]; cbn [assoc]; [intros []|]. destruct (String.eqb_spec (cr_var r) g) as [<-|Hn].
    - exists [], fi. split; [reflexivity|intros []].
    - destruct (assoc String.eqb (cr_var r) fi) as [v|].
      + destruct IHf as (l1 & l2 & El & Hl). exists ((g, w) :: l1), l2. rewrite El. split; [reflexivity|]. cbn. intros [H|H]; [congruence|exact (Hl H)].
      + cbn. intros [H|H]; [congruence|exact (IHf H)].
  Qed.

  (** ** C72: titles *)
  Definition panel_title (p : panel (V:=V)) : string :=
    match p with PHeatmap t _ _ _ _ _ | PGraph t _ _ _ _ | PBars t _ _ | PDepthBars t _ | PLollipop t _ _ _ _ => t end.
  Theorem C72_titles_partial m d vis_type title k fig : plot m d vis_type title k = Ok fig -> vis_type <> "bar_chart_ova" -> title <> "default" ->
    if String.eqb vis_type "summary" then fst fig = Some title else fst fig = None /\ exists p, snd fig = [p] /\ panel_title p = title.
  Proof.
    intros E Hv Ht. apply String.eqb_neq in Hv. apply String.eqb_neq in Ht.
    unfold visualize in E. destruct (negb _) eqn:Ea; [discriminate|]. destruct (String.eqb vis_type "summary") eqn:Ev0.
    - unfold plot_summary in E. destruct (plot_heatmap _ _ _ _ _ _ _ _ _ _) as [h|]; [|discriminate]. cbn [bind] in E. destruct (plot_graph _ _ _ _ _ _ _ _ _) as [g|]; [|discriminate]. cbn [bind] in E.
      destruct (plot_bars_ovo _ _ _ _) as [b|]; [|discriminate]. cbn [bind] in E. destruct (match pd_ova d with None => _ | Some _ => _ end) as [a|]; [|discriminate]. cbn [bind] in E.
      injection E as <-. cbn [fst]. rewrite Ht. reflexivity.
    - rewrite Hv in E. destruct (String.eqb vis_type "graph") eqn:Ev1.
      { destruct (plot_graph _ _ _ _ _ _ _ _ _) as [g|] eqn:Eg; [|discriminate]. cbn [bind] in E. injection E as <-. split; [reflexivity|]. exists g. split; [reflexivity|].
        unfold plot_graph, pick_title in Eg. rewrite Ht in Eg. destruct (pd_fi d); [|injection Eg as <-; reflexivity]. destruct (negb (forallb _ _)); [discriminate|]. destruct (pd_directed d && _); [discriminate|]. injection Eg as <-. reflexivity. }
      destruct (String.eqb vis_type "heatmap") eqn:Ev2.
      { destruct (plot_heatmap _ _ _ _ _ _ _ _ _ _) as [g|] eqn:Eg; [|discriminate]. cbn [bind] in E. injection E as <-. split; [reflexivity|]. exists g. split; [reflexivity|].
        unfold plot_heatmap, pick_title in Eg. rewrite Ht in Eg. destruct (all_pairs _ _ _) as [rows|]; [|discriminate]. cbn [bind] in Eg. destruct (order_heatmap _ _ _ _ _ _ _) as [ind|]; [|discriminate].
        cbn [bind] in Eg. destruct ind; [discriminate|]. injection Eg as <-. reflexivity. }
      destruct (String.eqb vis_type "bar_chart") eqn:Ev3.
      { destruct (plot_bars_ovo _ _ _ _) as [g|] eqn:Eg; [|discriminate]. cbn [bind] in E. injection E as <-. split; [reflexivity|]. exists g. split; [reflexivity|].
        unfold plot_bars_ovo, barh, pick_title in Eg. rewrite Ht in Eg. destruct (firstn _ _); [discriminate|]. injection Eg as <-. reflexivity. }
      destruct (String.eqb vis_type "lollipop") eqn:Ev4.
      { destruct (plot_lollipop _ _ _ _) as [g|] eqn:Eg; [|discriminate]. cbn [bind] in E. injection E as <-. split; [reflexivity|]. exists g. split; [reflexivity|].
        unfold plot_lollipop, pick_title in Eg. rewrite Ht in Eg. destruct (pd_full d); [|discriminate]. destruct (6 <=? _); [discriminate|]. injection Eg as <-. reflexivity. }
      destruct (String.eqb vis_type "bar_chart_conditional") eqn:Ev5.
      { destruct (plot_bars_conditional _ _ _ _) as [g|] eqn:Eg; [|discriminate]. cbn [bind] in E. injection E as <-. split; [reflexivity|]. exists g. split; [reflexivity|].
        unfold plot_bars_conditional, pick_title in Eg. rewrite Ht in Eg. destruct (pd_fi d); [|discriminate]. destruct (firstn _ _); [discriminate|]. injection Eg as <-. reflexivity. }
      exfalso. apply negb_false_iff, str_in_In in Ea. destruct m; cbn [accepted_visualizations In] in Ea.
      all: repeat (destruct Ea as [<-|Ea]; [clear E; cbn in *; discriminate|]); destruct Ea.
  Qed.
  (** the chart of the one-vs-all values ignores the title *)
  Theorem C72_ova_partial m d title k fig : plot m d "bar_chart_ova" title k = Ok fig -> exists p, snd fig = [p] /\ panel_title p = "Interaction with all other features".
  Proof.
    intros E. assert (E' : (do p <- plot_bars_ova (method_name m) (pd_ova d) "default" (k_own k); Ok (None, [p])) = Ok fig) by (destruct m; solve [exact E|discriminate E]). clear E.
    unfold plot_bars_ova, barh in E'. destruct (pd_ova d) as [ova|]; [|discriminate]. destruct (firstn _ ova) as [|r0 rs]; [discriminate|]. cbn [bind] in E'. injection E' as <-. eexists. split; reflexivity.
  Qed.

  (** ** C59, C76: the panels of the summary are those of the single plots *)
  Definition sub_call (o : option (kwargs (V:=V))) : all_kwargs (V:=V) := {| k_own := pop o no_kw; k_heatmap := None; k_graph := None; k_ovo := None; k_ova := None |}.
  Definition sub_title (o : option (kwargs (V:=V))) : string := match o with Some k => match k_title k with Some t => t | None => "default" end | None => "default" end.

  Lemma summary_panels m d title k fig : plot m d "summary" title k = Ok fig ->
    exists h g b a, fig = (Some (if String.eqb title "default" then String.append (method_name m) " summary" else title), h :: g :: b :: a)
      /\ plot_heatmap N srt lower (pd_ovo d) (pd_fi d) (sub_title (k_heatmap k)) (pd_int_asc d) false (pd_directed d) (pop (k_heatmap k) no_kw) = Ok h
      /\ plot_graph N srt (graph_config_of N m) (pd_ovo d) (pd_fi d) (sub_title (k_graph k)) false (pd_directed d) (pop (k_graph k) no_kw) = Ok g
      /\ plot_bars_ovo (method_name m) (pd_ovo d) (sub_title (k_ovo k)) (pop (k_ovo k) no_kw) = Ok b
      /\ match pd_ova d with None => a = [] | Some ova => exists p, a = [p] /\ plot_bars_ova (method_name m) (Some ova) (sub_title (k_ova k)) (pop (k_ova k) no_kw) = Ok p end.
  Proof.
    assert (Et : forall o, pop (k_title (pop o no_kw)) "default" = sub_title o) by (intros [o|]; reflexivity).
    intros E. assert (E' : plot_summary N srt lower m d title k = Ok fig) by (destruct m; exact E). clear E. unfold plot_summary in E'. cbv zeta in E'. rewrite !Et in E'.
    destruct (plot_heatmap _ _ _ _ _ _ _ _ _ _) as [h|]; [|discriminate]. cbn [bind] in E'. destruct (plot_graph _ _ _ _ _ _ _ _ _) as [g|]; [|discriminate]. cbn [bind] in E'.
    destruct (plot_bars_ovo _ _ _ _) as [b|]; [|discriminate]. cbn [bind] in E'. destruct (pd_ova d) as [ova|].
    - destruct (plot_bars_ova _ _ _ _) as [p|] eqn:Ep; [|discriminate]. cbn [bind] in E'. injection E' as <-. exists h, g, b, [p]. split; [reflexivity|]. repeat (split; [reflexivity|]). eauto.
    - cbn [bind] in E'. injection E' as <-. exists h, g, b, []. auto.
  Qed.
  (** methods where larger is stronger *)
  Theorem C59_graph_partial m d title k fig : plot m d "summary" title k = Ok fig -> pd_int_asc d = false ->
    exists g, nth_error (snd fig) 1 = Some g /\ plot m d "graph" (sub_title (k_graph k)) (sub_call (k_graph k)) = Ok (None, [g]).
  Proof.
    intros E Ha. destruct (summary_panels _ _ _ _ _ E) as (h & g & b & a & -> & _ & Hg & _). exists g. split; [reflexivity|].
    assert (Ev : plot m d "graph" (sub_title (k_graph k)) (sub_call (k_graph k))
      = (do p <- plot_graph N srt (graph_config_of N m) (pd_ovo d) (pd_fi d) (sub_title (k_graph k)) (pd_int_asc d) (pd_directed d) (pop (k_graph k) no_kw); Ok (None, [p]))) by (destruct m; reflexivity).
    rewrite Ev, Ha, Hg. reflexivity.
  Qed.
  Theorem C76_heatmap_partial m d title k fig : plot m d "summary" title k = Ok fig -> pd_imp_asc d = false \/ (exists c, k_fcmap (pop (k_heatmap k) no_kw) = Some c) ->
    exists h, nth_error (snd fig) 0 = Some h /\ plot m d "heatmap" (sub_title (k_heatmap k)) (sub_call (k_heatmap k)) = Ok (None, [h]).
  Proof.
    intros E Ha. destruct (summary_panels _ _ _ _ _ E) as (h & g & b & a & -> & Hh & _). exists h. split; [reflexivity|].
    assert (Ev : plot m d "heatmap" (sub_title (k_heatmap k)) (sub_call (k_heatmap k))
      = (do p <- plot_heatmap N srt lower (pd_ovo d) (pd_fi d) (sub_title (k_heatmap k)) (pd_int_asc d) (pd_imp_asc d) (pd_directed d) (pop (k_heatmap k) no_kw); Ok (None, [p]))) by (destruct m; reflexivity).
    rewrite Ev. replace (plot_heatmap N srt lower (pd_ovo d) (pd_fi d) (sub_title (k_heatmap k)) (pd_int_asc d) (pd_imp_asc d) (pd_directed d) (pop (k_heatmap k) no_kw)) with (Ok h); [reflexivity|].
    rewrite <- Hh. destruct Ha as [->|(c & Hc)]; [reflexivity|]. unfold plot_heatmap. destruct (all_pairs _ _ _) as [rows|]; [|reflexivity]. cbn [bind].
    destruct (order_heatmap _ _ _ _ _ _ _) as [ind|]; [|reflexivity]. cbn [bind]. destruct ind; [reflexivity|]. rewrite Hc. reflexivity.
  Qed.
  (** the bar charts are the same for every method *)
  Theorem C76_bars m d title k fig : plot m d "summary" title k = Ok fig ->
    (exists b, nth_error (snd fig) 2 = Some b /\ plot m d "bar_chart" (sub_title (k_ovo k)) (sub_call (k_ovo k)) = Ok (None, [b]))
    /\ (match pd_ova d with None => length (snd fig) = 3 | Some _ => length (snd fig) = 4 end)
    /\ (m = HStatistic -> pd_ova d <> None -> k_ova k = None -> exists b, nth_error (snd fig) 3 = Some b /\ plot m d "bar_chart_ova" "default" (sub_call None) = Ok (None, [b])).
  Proof.
    intros E. destruct (summary_panels _ _ _ _ _ E) as (h & g & b & a & -> & _ & _ & Hb & Ha). split; [|split].
    - exists b. split; [reflexivity|].
      assert (Ev : plot m d "bar_chart" (sub_title (k_ovo k)) (sub_call (k_ovo k)) = (do p <- plot_bars_ovo (method_name m) (pd_ovo d) (sub_title (k_ovo k)) (pop (k_ovo k) no_kw); Ok (None, [p]))) by (destruct m; reflexivity).
      rewrite Ev, Hb. reflexivity.
    - destruct (pd_ova d); [destruct Ha as (p & -> & _)|subst a]; reflexivity.
    - intros -> Ho Hk. destruct (pd_ova d) as [ova|] eqn:Eo; [|congruence]. destruct Ha as (p & -> & Hp). exists p. split; [reflexivity|]. rewrite Hk in Hp. cbn [sub_title pop] in Hp.
      assert (Ev : plot HStatistic d "bar_chart_ova" "default" (sub_call None) = (do p <- plot_bars_ova (method_name HStatistic) (pd_ova d) "default" no_kw; Ok (None, [p]))) by reflexivity.
      rewrite Ev, Eo, Hp. reflexivity.
  Qed.

  (** ** C74: edge labels *)
  Theorem C74_labels cfg (ovo : table) fi title directed k ti d edges nodes labels : n_isnan N (n_ofZ N 0) = false ->
    plot_graph N srt cfg ovo fi title false directed k = Ok (PGraph ti d edges nodes labels) ->
    let n := match k_nlabels k with Some n => n | None => g_nlabels cfg end in
    let thr := match k_threshold k with Some t => t | None => g_threshold cfg end in
    let shown r := In r ovo /\ n_ltb N (n_ofZ N 0) (snd r) = true /\ n_ltb N (snd r) thr = false in
    (* relevant positive interactions, strongest first *)
    (forall r, In r labels -> shown r) /\ StronglySorted (fun a b => n_ltb N (snd a) (snd b) = false) labels
    (* at most n of them; the others are not stronger *)
    /\ length labels <= n
    /\ (forall r, shown r -> In r labels \/ (length labels = n /\ forall x, In x labels -> n_ltb N (snd x) (snd r) = false)).
  Proof.
    intros H0 E n thr shown.
    assert (El : labels = edge_labels N srt n (filter_insignificant N false thr ovo)).
    { unfold plot_graph in E. change (pop (k_nlabels k) (g_nlabels cfg)) with n in E. change (pop (k_threshold k) (g_threshold cfg)) with thr in E.
      destruct fi as [fi|]; [|injection E as _ _ _ _ <-; reflexivity]. destruct (negb _); [discriminate|]. destruct (directed && _); [discriminate|]. injection E as _ _ _ _ <-. reflexivity. }
    unfold edge_labels in El. set (t := filter_insignificant N false thr ovo) in *. destruct (sort_values_ok N srt false value t Hsrt HN) as [HP HS].
    set (L := filter (fun r => n_ltb N (n_ofZ N 0) (value r)) (sort_values N srt false value t)) in *.
    assert (HL : forall r, In r L <-> shown r).
    { intros r. unfold L. rewrite filter_In. unfold shown. split.
      - intros [H1 H2]. apply (Permutation_in _ HP) in H1. unfold t, filter_insignificant, on_values in H1. apply in_map_iff in H1 as ([p v] & <- & Hin). unfold value in *. cbn [fst snd] in *.
        destruct (n_ltb N v thr) eqn:Ev; [rewrite (no_irrefl N HN) in H2; discriminate|]. auto.
      - intros (H1 & H2 & H3). split; [|exact H2]. apply (Permutation_in _ (Permutation_sym HP)). unfold t, filter_insignificant, on_values. apply in_map_iff. exists r. split; [|exact H1].
        unfold value. rewrite H3. destruct r; reflexivity. }
    assert (HnL : forall r, In r L -> n_isnan N (snd r) = false).
    { intros r Hr. apply HL in Hr as (_ & H & _). destruct (n_isnan N (snd r)) eqn:En; [|reflexivity]. rewrite (no_nan_r N HN _ _ En) in H. discriminate. }
    assert (HSL : StronglySorted (fun a b => le_dir N false (snd a) (snd b) = true) L) by (apply sorted_filter; exact HS).
    destruct (sorted_firstn _ n _ HSL) as [H1 H2].
    assert (Hle : forall a b, In a L -> In b L -> le_dir N false (snd a) (snd b) = true -> n_ltb N (snd a) (snd b) = false).
    { intros a b Ha Hb H. unfold le_dir, le_desc in H. rewrite (HnL a Ha), (HnL b Hb) in H. apply negb_true_iff in H. exact H. }
    assert (Hfirst : forall r, In r (firstn n L) -> In r L) by (intros r Hr; rewrite <- (firstn_skipn n L); apply in_or_app; auto).
    rewrite El. split; [intros r Hr; apply HL, Hfirst, Hr|]. split; [|split].
    - assert (HF : Forall (fun r => In r L) (firstn n L)) by (apply Forall_forall; exact Hfirst). revert HF. clear -H1 Hle. induction H1 as [|a l Hl IH Ha]; intros HF; constructor.
      + apply IH. inversion HF; assumption.
      + rewrite Forall_forall in *. intros x Hx. apply Hle; [apply HF; left; reflexivity|apply HF; right; exact Hx|apply Ha, Hx].
    - rewrite firstn_length. lia.
    - intros r Hr. apply HL in Hr as Hr'. rewrite <- (firstn_skipn n L) in Hr'. apply in_app_or in Hr' as [Hr'|Hr']; [left; exact Hr'|right]. split.
      + rewrite firstn_length. assert (n < length L); [|lia]. destruct (Nat.lt_ge_cases n (length L)) as [H|H]; [exact H|]. rewrite skipn_all2 in Hr' by exact H. destruct Hr'.
      + intros x Hx. apply Hle; [apply Hfirst, Hx|apply HL, Hr|apply H2; assumption].
  Qed.
  Theorem C74_none cfg (ovo : table) fi title directed k ti d edges nodes labels :
    plot_graph N srt cfg ovo fi title true directed k = Ok (PGraph ti d edges nodes labels) -> labels = [].
  Proof.
    unfold plot_graph. intros E. destruct fi as [fi|]; [|injection E as _ _ _ _ <-; reflexivity]. destruct (negb _); [discriminate|]. destruct (directed && _); [discriminate|]. injection E as _ _ _ _ <-. reflexivity.
  Qed.
End Panels.

(** ** C71: the share of trees in the lollipop chart *)
Lemma max_tree_ok {V} (rows : list (urow V)) : match max_tree rows with
  | None => rows = []
  | Some z => (exists r, In r rows /\ u_tree r = z) /\ forall r, In r rows -> (u_tree r <= z)%Z end.
Proof.
  destruct rows as [|r0 rows]; [reflexivity|]. cbn [max_tree]. assert (H : forall l z, (fold_left Z.max l z = z \/ In (fold_left Z.max l z) l) /\ (z <= fold_left Z.max l z)%Z /\ forall y, In y l -> (y <= fold_left Z.max l z)%Z).
  { induction l as [|x l IH]; intros z; cbn [fold_left]; [split; [auto|split; [lia|intros y []]]|]. destruct (IH (Z.max z x)) as (H1 & H2 & H3). split; [|split].
    - destruct H1 as [H1|H1]; [|right; right; exact H1]. rewrite H1. destruct (Z.max_spec z x) as [[_ ->]|[_ ->]]; [right; left|left]; reflexivity.
    - lia.
    - intros y [<-|Hy]; [lia|apply H3, Hy]. }
  destruct (H (map u_tree rows) (u_tree r0)) as (H1 & H2 & H3). split.
  - destruct H1 as [H1|H1]; [exists r0; split; [left; reflexivity|congruence]|]. apply in_map_iff in H1 as (r & E & Hr). exists r. split; [right; exact Hr|exact E].
  - intros r [<-|Hr]; [exact H2|]. apply H3, in_map, Hr.
Qed.
(** which roots are drawn: those of the trees numbered below the share of the last tree's number *)
Theorem C71_roots_partial d srt lower title k fig rows p : visualize xR srt lower SplitScoreM d "lollipop" title k = Ok fig -> pd_full d = Some rows -> k_max_trees (k_own k) = Some (Fin p) ->
  exists t roots nodes nl rl, fig = (None, [PLollipop t (map (fun r => (u_tree r + 1, u_gain r)%Z) roots) nodes nl rl])
    /\ forall r, In r roots <-> In r rows /\ u_depth r = Some 0 /\ exists last, In last rows /\ u_depth last = Some 0 /\ (forall r', In r' rows -> u_depth r' = Some 0 -> (u_tree r' <= u_tree last)%Z) /\ (IZR (u_tree r) < p * IZR (u_tree last))%R.
Proof.
  intros E Ef Ep. assert (E' : (do q <- plot_lollipop xR (pd_full d) title (k_own k); Ok (None, [q])) = Ok fig) by exact E. clear E. rewrite Ef in E'. unfold plot_lollipop in E'. rewrite Ep in E'. cbn [pop] in E'.
  destruct (6 <=? _); [discriminate|]. set (R0 := filter (at_depth 0) rows) in *. cbn [bind] in E'.
  exists (pick_title title "Lollipop boosting model summary"), (early_trees xR (Fin p) R0). do 3 eexists. split; [injection E' as <-; reflexivity|].
  assert (HR : forall r, In r R0 <-> In r rows /\ u_depth r = Some 0).
  { intros r. unfold R0. rewrite filter_In. unfold at_depth. destruct (u_depth r) as [x|]; [|split; intros []; discriminate]. rewrite Nat.eqb_eq. split; intros [H1 H2]; split; congruence. }
  intros r. unfold early_trees. pose proof (max_tree_ok R0) as HM. destruct (max_tree R0) as [z|].
  - destruct HM as [(l & Hl & <-) HM]. rewrite filter_In, HR. apply HR in Hl as [Hl1 Hl2].
    assert (Hlt : n_ltb xR (n_ofZ xR (u_tree r)) (n_mul xR (Fin p) (n_ofZ xR (u_tree l))) = true <-> (IZR (u_tree r) < p * IZR (u_tree l))%R) by (cbn; apply Rltb_spec).
    rewrite Hlt. split.
    + intros [[H1 H2] H3]. split; [exact H1|]. split; [exact H2|]. exists l. split; [exact Hl1|]. split; [exact Hl2|]. split; [|exact H3]. intros r' H4 H5. apply HM, HR. auto.
    + intros (H1 & H2 & l' & H3 & H4 & H5 & H6). split; [auto|]. assert (u_tree l' = u_tree l) as <-; [|exact H6]. apply Z.le_antisymm; [apply HM, HR; auto|apply H5; assumption].
  - split; [intros []|]. intros (H1 & H2 & _). assert (H : In r R0) by (apply HR; auto). rewrite HM in H. destruct H.
Qed.

(** which of the other nodes are drawn: the share is taken of the last tree with a drawable node *)
Theorem C71_nodes_partial d srt lower title k fig rows p : visualize xR srt lower SplitScoreM d "lollipop" title k = Ok fig -> pd_full d = Some rows -> k_max_trees (k_own k) = Some (Fin p) ->
  let depth := match k_max_depth (k_own k) with Some n => n | None => 1 end in
  let drawable r := In r rows /\ u_leaf r = false /\ exists i, u_depth r = Some (S i) /\ i < depth in
  exists t roots nodes nl rl, fig = (None, [PLollipop t roots nodes nl rl]) /\ length nodes = depth
    /\ forall i, i < depth -> exists l, nth_error nodes i = Some (map (fun r => (u_tree r + 1, u_gain r)%Z) l)
         /\ forall r, In r l <-> drawable r /\ u_depth r = Some (S i) /\ exists last, drawable last /\ (forall r', drawable r' -> (u_tree r' <= u_tree last)%Z) /\ (IZR (u_tree r) < p * IZR (u_tree last))%R.
Proof.
  intros E Ef Ep depth drawable. assert (E' : (do q <- plot_lollipop xR (pd_full d) title (k_own k); Ok (None, [q])) = Ok fig) by exact E. clear E. rewrite Ef in E'. unfold plot_lollipop in E'. rewrite Ep in E'. cbn [pop] in E'.
  change (pop (k_max_depth (k_own k)) 1) with depth in E'. destruct (6 <=? _); [discriminate|]. cbn [bind] in E'.
  set (D := filter (fun r => negb (u_leaf r) && existsb (fun d => at_depth d r) (seq 1 depth)) rows) in *.
  do 2 eexists. exists (map (fun i => map point (filter (at_depth i) (early_trees xR (Fin p) D))) (seq 1 depth)). do 2 eexists. split; [injection E' as <-; reflexivity|]. split; [rewrite map_length, seq_length; reflexivity|].
  intros i Hi. exists (filter (at_depth (S i)) (early_trees xR (Fin p) D)). split.
  - rewrite (map_nth_error _ i (seq 1 depth) (d := S i)); [reflexivity|]. rewrite nth_error_nth' with (d := 0) by (rewrite seq_length; exact Hi). rewrite seq_nth by exact Hi. reflexivity.
  - assert (HD : forall r, In r D <-> drawable r).
    { intros r. unfold D, drawable. rewrite filter_In, andb_true_iff, negb_true_iff, existsb_exists. unfold at_depth. split.
      - intros (H1 & H2 & x & H3 & H4). split; [exact H1|]. split; [exact H2|]. apply in_seq in H3. destruct (u_depth r) as [y|]; [|discriminate]. apply Nat.eqb_eq in H4 as ->.
        exists (x - 1). split; [f_equal; lia|lia].
      - intros (H1 & H2 & j & H3 & H4). split; [exact H1|]. split; [exact H2|]. exists (S j). split; [apply in_seq; lia|]. rewrite H3. apply Nat.eqb_refl. }
    assert (Hat : forall r : urow (ext R), at_depth (S i) r = true <-> u_depth r = Some (S i)).
    { intros r. unfold at_depth. destruct (u_depth r) as [y|]; [rewrite Nat.eqb_eq; split; congruence|split; discriminate]. }
    intros r. rewrite filter_In, Hat. unfold early_trees. pose proof (max_tree_ok D) as HM. destruct (max_tree D) as [z|].
    + destruct HM as [(l & Hl & <-) HM]. rewrite filter_In, HD.
      assert (Hlt : n_ltb xR (n_ofZ xR (u_tree r)) (n_mul xR (Fin p) (n_ofZ xR (u_tree l))) = true <-> (IZR (u_tree r) < p * IZR (u_tree l))%R) by (cbn; apply Rltb_spec).
      rewrite Hlt. split.
      * intros [[H1 H2] H3]. split; [exact H1|]. split; [exact H3|]. exists l. split; [apply HD, Hl|]. split; [|exact H2]. intros r' Hr'. apply HM, HD, Hr'.
      * intros (H1 & H2 & l' & H3 & H4 & H5). split; [|exact H2]. split; [exact H1|]. assert (u_tree l' = u_tree l) as <-; [|exact H5]. apply Z.le_antisymm; [apply HM, HD, H3|apply H4, HD, Hl].
    + split; [intros [[] _]|]. intros (H1 & _). apply HD in H1. rewrite HM in H1. destruct H1.
Qed.

Print Assumptions C73_pairs.
Print Assumptions C73_features.
Print Assumptions C75_conditional.
Print Assumptions C72_titles_partial.
Print Assumptions C72_ova_partial.
Print Assumptions C59_graph_partial.
Print Assumptions C76_heatmap_partial.
Print Assumptions C76_bars.
Print Assumptions C74_labels.
Print Assumptions C74_none.
Print Assumptions C71_roots_partial.
Print Assumptions C71_nodes_partial.
