(** C117: from a forest to what the user sees: values and charts of the conditional minimal
    depth after fit. *)
From Verif Require SplitImp.
From Verif Require Import Py Num NumR Sorting Frame Rng PdCalc PdMethods Perm CondDepth TreeFacts CondDepthFacts ForestFacts CompareFacts Props_Forest SplitScore Comparator Props_Split Props_Compare
  Visual VisualFacts Props_Visual Props_Visual2 Props_Visual3 Props_Visual5 Compared PdMethodReal Props_EndToEnd.
From Coq Require Import Reals Lra.
Open Scope string_scope.
Open Scope nat_scope.
Open Scope list_scope.

(** ** Specification *)
(** the mean over the trees that split on both features of what the tree reports for the second
    below the first; undefined if there is no such tree *)
Definition cond_depth (ts : list btree) (i j : nat) (v : ext R) : Prop :=
  exists vals, Forall2 (fun t x => reports t i j x) ts vals
    /\ v = match somes (map fst vals) with [] => NaN | ds => Fin (Rmean (map IZR ds)) end.
(** the number of trees where the second feature is split on below a shallowest split of the first *)
Definition co_occur (ts : list btree) (i j n : nat) : Prop :=
  exists flags, Forall2 (fun t b => b = true <-> exists u, In u (shallowest i t) /\ below j u <> []) ts flags /\ n = length (filter (fun b => b) flags).
(** the mean over the trees using the feature of the depth of its first use *)
Definition mean_first_use (ts : list btree) (i : nat) : ext R := Fin (Rmean (map INR (somes (map (first_use i) ts)))).

(** a fitted scikit-learn forest: named features, all of them used, trees numbered depth first *)
Record forest_input (m : forest) (names : list string) (ts : list btree) : Prop := {
  fi_names : fo_names m = Some names;
  fi_distinct : NoDup names;
  fi_two : 2 <= length names;
  fi_trees : Forall2 stored (fo_trees m) ts;
  fi_numbered : Forall depth_first ts;
  fi_known : known_features (length names) ts;
  fi_used : forall i, i < length names -> exists t, In t ts /\ feature_nodes i t <> [] }.

(** splitting on [j] below a split on [i] uses both *)
Lemma below_uses i j t u : In u (shallowest i t) -> below j u <> [] -> feature_nodes i t <> [] /\ feature_nodes j t <> [].
Proof.
  intros Hu Hb. unfold shallowest in Hu. apply in_map_iff in Hu as ([d u'] & E & Hu). cbn [snd] in E. subst u'. apply filter_In in Hu as [Hu _].
  split; [intros E; rewrite E in Hu; destruct Hu|]. unfold feature_nodes in Hu. apply filter_In in Hu as [Hu _].
  destruct (subs_split 0 t d u Hu) as (l1 & l2 & El & _). unfold below in Hb. destruct (filter (fun x => splits_on j (snd x)) (tl (subs 0 u))) as [|[k w] l] eqn:Ef; [destruct (Hb eq_refl)|].
  assert (Hw : In (k, w) (filter (fun x => splits_on j (snd x)) (tl (subs 0 u)))) by (rewrite Ef; left; reflexivity). apply filter_In in Hw as [Hw Hj].
  assert (Hin : In (k + d, w) (feature_nodes j t)).
  { apply filter_In. split; [|exact Hj]. rewrite El, (subs_at d u). apply in_or_app. right. apply in_or_app. left. apply (in_map (fun x => (fst x + d, snd x))) in Hw. cbn [fst snd] in Hw. destruct (subs 0 u); [destruct Hw|]. right. exact Hw. }
  intros E. rewrite E in Hin. destruct Hin.
Qed.
Lemma cond_depth_unique ts i j v v' : cond_depth ts i j v -> cond_depth ts i j v' -> v = v'.
Proof.
  intros (vals & H & ->) (vals' & H' & ->). replace vals' with vals; [reflexivity|]. clear -H H'. revert vals' H'.
  induction H as [|t x ts vals Hx H IH]; intros vals' H'; inversion H'; subst; [reflexivity|]. f_equal; [eapply C36_reports_unique; eassumption|apply IH; assumption].
Qed.
(** defined exactly when some tree splits on both *)
Lemma cond_depth_defined ts i j v : cond_depth ts i j v -> (v = NaN <-> forall t, In t ts -> feature_nodes i t = [] \/ feature_nodes j t = []).
Proof.
  intros (vals & H & ->).
  assert (G : somes (map fst vals) = [] <-> forall t, In t ts -> feature_nodes i t = [] \/ feature_nodes j t = []).
  { induction H as [|t x ts vals Hx H IH]; [split; [intros _ t []|reflexivity]|]. cbn [map somes]. destruct Hx as [Hm Hd].
    destruct (feature_nodes i t) as [|a l] eqn:Ei; [|destruct (feature_nodes j t) as [|b l'] eqn:Ej].
    - rewrite (Hm (or_introl eq_refl)). cbn [fst]. rewrite IH. split; [intros Hall t' [<-|Ht]; auto|intros Hall t' Ht; apply Hall; right; exact Ht].
    - rewrite (Hm (or_intror eq_refl)). cbn [fst]. rewrite IH. split; [intros Hall t' [<-|Ht]; auto|intros Hall t' Ht; apply Hall; right; exact Ht].
    - destruct Hd as [(v & -> & _) _]; [discriminate..|]. split; [discriminate|]. intros Hall. destruct (Hall t (or_introl eq_refl)) as [E|E]; congruence. }
  rewrite <- G. destruct (somes (map fst vals)); split; congruence.
Qed.
Lemma cond_depth_nan ts i j v : cond_depth ts i j v -> v = NaN \/ exists x, v = Fin x.
Proof. intros (vals & _ & ->). destruct (somes _); eauto. Qed.

Section Forest.
  Context (srt : sorter) (Hs : sorter_ok srt) (lower : string -> string).
  Notation fit := (cmd_fit xR srt).
  Notation plot := (cmd_plot xR srt lower).

  (** the rows of the fitted table *)
  Lemma forest_output s m names ts : forest_input m names ts ->
    exists ovo fi, snd (fit s m) = Ok tt /\ cs_ovo (fst (fit s m)) = Some ovo /\ cs_fi (fst (fit s m)) = Some fi
      /\ NoDup (map (fun r => (cr_root r, cr_var r)) ovo)
      /\ (forall r, In r ovo -> exists i j, i <> j /\ nth_error names i = Some (cr_root r) /\ nth_error names j = Some (cr_var r) /\ cond_depth ts i j (cr_value r) /\ co_occur ts i j (cr_occ r))
      /\ StronglySorted (occ_then_value xR) ovo
      /\ (forall i j a b, i <> j -> nth_error names i = Some a -> nth_error names j = Some b -> exists r, In r ovo /\ cr_root r = a /\ cr_var r = b /\ cond_depth ts i j (cr_value r) /\ co_occur ts i j (cr_occ r))
      /\ Permutation (map fst fi) names
      /\ (forall f v, In (f, v) fi -> exists i, nth_error names i = Some f /\ v = mean_first_use ts i).
  Proof.
    intros [En Hd H2 Ht Hn Hk Hu].
    assert (Hne : fo_trees m <> []). { intros E. rewrite E in Ht. inversion Ht; subst. destruct (Hu 0 ltac:(lia)) as (t & [] & _). }
    destruct (C38_summary xR srt xR_ord Hs s m names ts En Hd Ht Hne) as (ovo & Eo & HP & _ & Hsorted).
    destruct (C38_values xR srt xR_ord Hs s m names ts En Hd Ht Hn Hne) as (ovo' & Eo' & Hv). rewrite Eo in Eo'. injection Eo' as <-.
    destruct (C39_importance xR srt xR_ord Hs s m names ts En Ht Hk) as (fi & Eok & Ef & HPf & _). { destruct (Hu 0 ltac:(lia)) as (t & Htt & H). eauto. }
    assert (Hn1 : NoDup (map (fun r => (cr_root r, cr_var r)) ovo)) by (apply (Permutation_NoDup (Permutation_sym HP)), NoDup_filter, list_prod_NoDup; assumption).
    assert (Hdesc : forall i j vals r, describes xR names vals i j r -> cr_value r = match somes (map fst vals) with [] => NaN | ds => Fin (Rmean (map IZR ds)) end).
    { intros i j vals r (_ & _ & A & B & _). destruct (somes (map fst vals)) as [|d ds] eqn:E; [exact (A eq_refl)|]. rewrite (B ltac:(discriminate)).
      replace (map (n_ofZ xR) (d :: ds)) with (map Fin (map IZR (d :: ds))) by (rewrite map_map; reflexivity). apply xR_mean_fin. discriminate. }
    assert (Hv' : forall i j a b, i <> j -> nth_error names i = Some a -> nth_error names j = Some b -> exists r, In r ovo /\ cr_root r = a /\ cr_var r = b /\ cond_depth ts i j (cr_value r) /\ co_occur ts i j (cr_occ r)).
    { intros i j a b Hij Ha Hb. destruct (Hv i j a b Hij Ha Hb) as (r & vals & Hr & Er & Ev & HF & Hds). exists r. split; [exact Hr|]. split; [exact Er|]. split; [exact Ev|]. split; [exists vals; split; [exact HF|exact (Hdesc i j vals r Hds)]|].
      exists (map snd vals). destruct Hds as (_ & _ & _ & _ & Eocc). rewrite Eocc. split.
      - clear -HF. induction HF as [|t x ts vals [Hm Hd] HF IH]; cbn [map]; constructor; [|exact IH].
        assert (Hu : forall u, In u (shallowest i t) /\ below j u <> [] -> feature_nodes i t <> [] /\ feature_nodes j t <> []) by (intros u [A B]; exact (below_uses i j t u A B)).
        destruct (feature_nodes i t) as [|a0 l] eqn:Ei; [|destruct (feature_nodes j t) as [|b0 l'] eqn:Ej].
        + rewrite (Hm (or_introl eq_refl)). cbn. split; [discriminate|]. intros (u & Hu'). destruct (Hu u Hu') as [A _]. congruence.
        + rewrite (Hm (or_intror eq_refl)). cbn. split; [discriminate|]. intros (u & Hu'). destruct (Hu u Hu') as [_ A]. congruence.
        + apply Hd; discriminate.
      - clear. induction vals as [|x vals IH]; [reflexivity|]. cbn [map filter]. destruct (snd x); cbn [length]; congruence. }
    exists ovo, fi. split; [exact Eok|]. split; [exact Eo|]. split; [exact Ef|]. split; [exact Hn1|]. split; [|split; [exact Hsorted|split; [exact Hv'|]]].
    - intros r Hr. assert (Hin : In (cr_root r, cr_var r) (map (fun r => (cr_root r, cr_var r)) ovo)) by (apply (in_map (fun r => (cr_root r, cr_var r))), Hr).
      apply (Permutation_in _ HP) in Hin. apply filter_In in Hin as [Hin Hne']. apply in_prod_iff in Hin as [Ha Hb]. cbn [fst snd] in Hne'. apply negb_true_iff, String.eqb_neq in Hne'.
      apply In_nth_error in Ha as (i & Hi). apply In_nth_error in Hb as (j & Hj). assert (Hij : i <> j) by congruence. exists i, j. split; [exact Hij|]. split; [exact Hi|]. split; [exact Hj|].
      destruct (Hv' i j _ _ Hij Hi Hj) as (r' & Hr' & Er & Ev & Hc). replace r with r'; [exact Hc|]. clear -Hn1 Hr Hr' Er Ev.
      apply In_nth_error in Hr as (n1 & H1). apply In_nth_error in Hr' as (n2 & H2).
      assert (n2 = n1) by (eapply (nth_once (map (fun r => (cr_root r, cr_var r)) ovo)); [exact Hn1|rewrite nth_error_map, H2; reflexivity|rewrite nth_error_map, H1; cbn; rewrite Er, Ev; reflexivity]). congruence.
    - split.
      + rewrite (Permutation_map fst HPf), map_map. cbn [importance_row fst].
        replace (filter (used_in ts) (seq 0 (length names))) with (seq 0 (length names)).
        2:{ clear -Hu. assert (Hall : forall i, In i (seq 0 (length names)) -> used_in ts i = true) by (intros i Hi; apply in_seq in Hi; apply used_in_iff, Hu; lia).
            induction (seq 0 (length names)) as [|a l IH]; [reflexivity|]. cbn [filter]. rewrite (Hall a (or_introl eq_refl)). f_equal. apply IH. intros i Hi. apply Hall. right. exact Hi. }
        clear. induction names as [|x names IH]; [reflexivity|]. cbn [length seq map nth]. constructor. rewrite <- seq_shift, map_map. exact IH.
      + intros f v Hin. apply (Permutation_in _ HPf), in_map_iff in Hin as (i & E & Hi). apply filter_In in Hi as [Hi Hus]. apply in_seq in Hi. exists i.
        apply (f_equal fst) in E as Ea. apply (f_equal snd) in E as Eb. unfold importance_row in Ea, Eb. cbn [fst snd] in Ea, Eb. subst f v. split; [apply nth_error_nth'; lia|].
        unfold mean_first_use. apply used_in_iff in Hus as (t0 & Ht0 & Hnn).
        replace (map (fun d => n_ofZ xR (Z.of_nat d)) (somes (map (first_use i) ts))) with (map Fin (map INR (somes (map (first_use i) ts)))).
        2:{ rewrite map_map. apply map_ext. intros d. rewrite INR_IZR_INZ. reflexivity. }
        apply xR_mean_fin. intros E'. apply map_eq_nil in E'. apply first_use_iff in Hnn. destruct (first_use i t0) as [d|] eqn:Ed; [|congruence].
        assert (Hdd : In d (somes (map (first_use i) ts))) by (apply SplitImp.somes_In; rewrite <- Ed; apply in_map, Ht0). rewrite E' in Hdd. destruct Hdd.
  Qed.

  (** ** C117 *)
  Theorem C117_heatmap s m names ts title kw : forest_input m names ts -> usable kw ->
    exists t c1 c2 labels importance interaction, snd (fit s m) = Ok tt
      /\ plot (fst (fit s m)) "heatmap" title kw = Ok (None, [PHeatmap t c1 c2 labels importance interaction])
      /\ Permutation labels names
      /\ (forall i p f, nth_error labels i = Some f -> nth_error names p = Some f ->
            entry interaction i i = Some None /\ entry importance i i = Some (Some (mean_first_use ts p)))
      (* row: the feature nearer to the root; column: the feature below it; empty where no tree splits on both *)
      /\ (forall i j p1 p2 f1 f2, i <> j -> nth_error labels i = Some f1 -> nth_error labels j = Some f2 -> nth_error names p1 = Some f1 -> nth_error names p2 = Some f2 ->
            entry importance i j = Some None
            /\ exists v, cond_depth ts p1 p2 v /\ entry interaction i j = Some (match v with NaN => None | _ => Some v end)).
  Proof.
    intros Hin Hu. destruct (forest_output s m names ts Hin) as (ovo & fi & Eok & Eo & Ef & Hn1 & Hrow & _ & Hpair & HPf & Hfi). destruct Hin as [En Hd H2 Ht Hn Hk Hus].
    destruct (C56_forest_partial srt lower Hs s m names ts "heatmap" title kw En Hd H2 Ht Hk Hus Hu) as (f & Ep & _); [cbn; tauto|]. pose proof Ep as Ep0. unfold cmd_plot in Ep0. rewrite Eo, Ef in Ep0.
    set (t := map (fun r => (cr_root r, cr_var r, cr_value r)) ovo) in *.
    assert (Ep' : (do p <- plot_heatmap xR srt lower t (Some fi) title true true true (k_own kw); Ok (None, [p])) = Ok f) by (rewrite <- Ep0; reflexivity).
    destruct (plot_heatmap xR srt lower t (Some fi) title true true true (k_own kw)) as [p|] eqn:Eh; [|discriminate]. cbn [bind] in Ep'. injection Ep' as <-.
    assert (Hp : exists ti c1 c2 labels imp int, p = PHeatmap ti c1 c2 labels imp int).
    { clear -Eh. unfold plot_heatmap in Eh. destruct (all_pairs _ _ _) as [rows|]; [|discriminate]. cbn [bind] in Eh. destruct (order_heatmap _ _ _ _ _ _) as [[|x l]|]; try discriminate. cbn [bind] in Eh. injection Eh as <-. eauto 10. }
    destruct Hp as (ti & c1 & c2 & labels & imp & int & ->). exists ti, c1, c2, labels, imp, int. split; [exact Eok|]. split; [exact Ep|].
    assert (Hone : forall r r', In r ovo -> In r' ovo -> cr_root r = cr_root r' -> cr_var r = cr_var r' -> r = r').
    { intros r r' Hr Hr' Er Ev. apply In_nth_error in Hr as (n1 & Hr1). apply In_nth_error in Hr' as (n2 & Hr2).
      assert (n2 = n1) by (eapply (nth_once (map (fun r => (cr_root r, cr_var r)) ovo)); [exact Hn1|rewrite nth_error_map, Hr2; reflexivity|rewrite nth_error_map, Hr1; cbn; rewrite Er, Ev; reflexivity]). congruence. }
    assert (Hg : good_pairs true t).
    { split.
      - intros x Hx. apply in_map_iff in Hx as (r & <- & Hr). cbn [fst snd]. destruct (Hrow r Hr) as (i & j & Hij & Hi & Hj & _). intros E. apply Hij. rewrite E in Hi. exact (nth_once _ _ _ _ Hd Hi Hj).
      - intros x y r c Hx Hy [[A B]|(A & _)] [[A' B']|(A' & _)]; try discriminate. apply in_map_iff in Hx as (r1 & <- & Hr1). apply in_map_iff in Hy as (r2 & <- & Hr2). cbn [fst snd] in *.
        rewrite (Hone r1 r2 Hr1 Hr2) by congruence. reflexivity. }
    destruct (C55_heatmap_partial xR srt lower Hs xR_ord t fi title true true true (k_own kw) ti c1 c2 labels imp int Eh Hg) as (Hnd & Hocc & Hall & Hdiag & Hoff).
    assert (Hnn : forall f v, In (f, v) fi -> n_isnan xR v = false) by (intros f v Hw; destruct (Hfi f v Hw) as (p & _ & ->); reflexivity).
    assert (Hoc : forall f, occurs f t <-> In f names).
    { intros f. split.
      - intros (x & Hx & Ho). apply in_map_iff in Hx as (r & <- & Hr). destruct (Hrow r Hr) as (i & j & _ & Hi & Hj & _). cbn [fst snd] in Ho. destruct Ho as [<-|<-]; eapply nth_error_In; eassumption.
      - intros Hf. apply In_nth_error in Hf as (i & Hi). assert (Hj : exists j g, i <> j /\ nth_error names j = Some g).
        { destruct i as [|i]; [exists 1|exists 0]; (destruct names as [|x [|y l]]; cbn [length] in H2; [lia|lia|]); [exists y|exists x]; split; [lia|reflexivity|lia|reflexivity]. }
        destruct Hj as (j & g & Hij & Hj). destruct (Hpair i j f g Hij Hi Hj) as (r & Hr & Er & _ & _). exists (cr_root r, cr_var r, cr_value r). split; [apply (in_map (fun r => (cr_root r, cr_var r, cr_value r))), Hr|]. left. exact Er. }
    split; [|split].
    - apply NoDup_Permutation; [exact Hnd|exact Hd|]. intros f. rewrite <- Hoc. split; [apply Hocc|apply (Hall Hnn)].
    - intros i p f Hi Hp. destruct (Hdiag i f Hi) as (w & Hw & E1 & E2). split; [exact E2|]. assert (Hin : In (f, w) fi) by (apply has_importance_In; exact Hw).
      rewrite E1. unfold show. rewrite (Hnn _ _ Hin). destruct (Hfi f w Hin) as (p' & Hp' & ->). rewrite (nth_once _ _ _ _ Hd Hp Hp'). reflexivity.
    - intros i j p1 p2 f1 f2 Hij Hi Hj Hp1 Hp2. destruct (Hoff i j f1 f2 Hi Hj Hij) as (E1 & o & E2 & Hsh). split; [exact E1|].
      assert (Hp12 : p1 <> p2) by (intros ->; apply Hij; eapply nth_once; [exact Hnd|exact Hi|congruence]).
      destruct (Hpair p1 p2 f1 f2 Hp12 Hp1 Hp2) as (r & Hr & Er & Ev & Hc & _). exists (cr_value r). split; [exact Hc|]. rewrite E2. f_equal.
      assert (Hrt : In (cr_root r, cr_var r, cr_value r) t) by (apply (in_map (fun r => (cr_root r, cr_var r, cr_value r))), Hr).
      destruct (cond_depth_nan _ _ _ _ Hc) as [En'|(x & Ex)].
      + rewrite En'. destruct o as [w|]; [|reflexivity]. exfalso. destruct (proj1 (Hsh w) eq_refl) as (Hw & y & Hy & [[A B]|(A & _)] & <-); [|discriminate].
        apply in_map_iff in Hy as (r' & <- & Hr'). cbn [fst snd] in *. rewrite (Hone r' r Hr' Hr) in Hw by congruence. rewrite En' in Hw. discriminate.
      + rewrite Ex. apply Hsh. split; [reflexivity|]. exists (cr_root r, cr_var r, cr_value r). split; [exact Hrt|]. split; [left; cbn; auto|exact Ex].
  Qed.

  (** the conditional bar chart: pairs met in most trees first, among these the nearest; each with
      the number of trees and the unconditional depth of the lower feature *)
  Theorem C117_bars s m names ts title kw : forest_input m names ts -> usable kw ->
    let n := match k_top (k_own kw) with Some n => n | None => 15 end in
    exists shown rest bars, plot (fst (fit s m)) "bar_chart_conditional" title kw
        = Ok (None, [PDepthBars (if String.eqb title "default" then "Random forest model summary" else title) bars])
      /\ Forall2 (fun r b => exists p, nth_error names p = Some (cr_var r) /\ b = ((cr_root r ++ ":" ++ cr_var r)%string, cr_value r, cr_occ r, Some (mean_first_use ts p))) shown bars
      /\ length shown = Nat.min n (length (shown ++ rest))
      /\ Permutation (map (fun r => (cr_root r, cr_var r)) (shown ++ rest)) (filter (fun p => negb (String.eqb (fst p) (snd p))) (list_prod names names))
      /\ (forall r, In r (shown ++ rest) -> exists i j, i <> j /\ nth_error names i = Some (cr_root r) /\ nth_error names j = Some (cr_var r)
            /\ cond_depth ts i j (cr_value r) /\ co_occur ts i j (cr_occ r))
      /\ StronglySorted (occ_then_value xR) (shown ++ rest).
  Proof.
    intros Hin Hu n. destruct (forest_output s m names ts Hin) as (ovo & fi & Eok & Eo & Ef & Hn1 & Hrow & Hsorted & Hpair & HPf & Hfi). destruct Hin as [En Hd H2 Ht Hn Hk Hus].
    destruct (C56_forest_partial srt lower Hs s m names ts "bar_chart_conditional" title kw En Hd H2 Ht Hk Hus Hu) as (f & Ep & _); [cbn; tauto|]. pose proof Ep as Ep0. unfold cmd_plot in Ep0. rewrite Eo, Ef in Ep0.
    destruct (C75_conditional xR srt lower _ title kw f Ep0) as (fi' & bars & Ef' & -> & HF). cbn [pd_fi] in Ef'. injection Ef' as <-. cbn [pd_cond] in HF. change (match k_top (k_own kw) with Some n => n | None => 15 end) with n in HF.
    assert (Hne : fo_trees m <> []). { intros E. rewrite E in Ht. inversion Ht; subst. destruct (Hus 0 ltac:(lia)) as (t & [] & _). }
    destruct (C38_summary xR srt xR_ord Hs s m names ts En Hd Ht Hne) as (ovo' & Eo' & HP & _). rewrite Eo in Eo'. injection Eo' as <-.
    exists (firstn n ovo), (skipn n ovo), bars. rewrite firstn_skipn. split; [exact Ep|]. split; [|split; [apply firstn_length|split; [exact HP|split; [exact Hrow|exact Hsorted]]]].
    assert (Hsub : forall r, In r (firstn n ovo) -> In r ovo) by (intros r Hr; rewrite <- (firstn_skipn n ovo); apply in_or_app; left; exact Hr).
    clear -HF Hsub Hrow HPf Hfi Hd. induction HF as [|r b l1 l2 (u & -> & Hb) HF IH]; [constructor|]. constructor; [|apply IH; intros r' Hr'; apply Hsub; right; exact Hr'].
    destruct (Hrow r (Hsub r (or_introl eq_refl))) as (_ & j & _ & _ & Hj & _). exists j. split; [exact Hj|]. destruct u as [v|].
    - apply has_importance_In in Hb. destruct (Hfi _ _ Hb) as (p & Hp & ->). assert (p = j) as ->; [|reflexivity]. exact (nth_once _ _ _ _ Hd Hp Hj).
    - exfalso. apply Hb. apply (Permutation_in _ (Permutation_sym HPf)). eapply nth_error_In; exact Hj.
  Qed.

  (** the undirected value: the mean of the two directions *)
  Theorem C117_value s m names ts p1 p2 f1 f2 : forest_input m names ts -> p1 <> p2 -> nth_error names p1 = Some f1 -> nth_error names p2 = Some f2 ->
    (* the names, glued in alphabetical order, tell the pairs apart (see C40) *)
    (forall a b c d, In a names -> In b names -> In c names -> In d names -> join2 a b = join2 c d -> CompareFacts.same_pair a b c d) ->
    exists v x y, interaction_value (cmd_compare_ovo xR srt (fst (fit s m))) f1 f2 = Ok v /\ cond_depth ts p1 p2 x /\ cond_depth ts p2 p1 y
      /\ ((x = NaN /\ y = NaN /\ v = NaN) \/ exists a b, x = Fin a /\ y = Fin b /\ v = Fin ((a + b) / 2)%R).
  Proof. clear lower.
    intros Hin Hp12 Hp1 Hp2 Hglue. destruct (forest_output s m names ts Hin) as (ovo & fi & Eok & Eo & Ef & Hn1 & Hrow & _ & Hpair & _). destruct Hin as [En Hd H2 Ht Hn Hk Hus].
    destruct (Hpair p1 p2 f1 f2 Hp12 Hp1 Hp2) as (r1 & Hr1 & Er1 & Ev1 & Hc1 & _). destruct (Hpair p2 p1 f2 f1 (not_eq_sym Hp12) Hp2 Hp1) as (r2 & Hr2 & Er2 & Ev2 & Hc2 & _).
    assert (Hnc : no_collisions ovo).
    { intros r r' Hr Hr' E. destruct (Hrow r Hr) as (i & j & _ & Hi & Hj & _). destruct (Hrow r' Hr') as (i' & j' & _ & Hi' & Hj' & _). apply Hglue; try (eapply nth_error_In; eassumption). exact E. }
    destruct (C40_compare_partial xR srt xR_ord Hs _ ovo Eo Hnc) as (tab & Et & _ & Hval & Hone).
    rewrite Et. pose proof (interaction_value_ok tab f1 f2) as Hi.
    assert (Hne : f1 <> f2) by (intros Ee; apply Hp12; rewrite <- Ee in Hp2; exact (nth_once _ _ _ _ Hd Hp1 Hp2)).
    assert (HM : forall a b, about f1 f2 (a, b, NaN : ext R) -> Permutation (map cr_value (filter (CompareFacts.about a b) ovo)) [cr_value r1; cr_value r2]).
    { intros a b Hab. assert (Hab' : CompareFacts.same_pair (cr_root r1) (cr_var r1) a b) by (unfold CompareFacts.same_pair; destruct Hab as [[A B]|[A B]]; cbn [fst snd] in A, B; subst; auto).
      rewrite (filter_ext (CompareFacts.about a b) (CompareFacts.about (cr_root r1) (cr_var r1))).
      - change [cr_value r1; cr_value r2] with (map cr_value [r1; r2]). apply Permutation_map, about_two; try assumption; congruence.
      - intros r. unfold CompareFacts.about. apply eq_true_iff_eq. rewrite !same_pairb_iff. unfold CompareFacts.same_pair in *. intuition congruence. }
    destruct (interaction_value _ f1 f2) as [v|e].
    2:{ exfalso. destruct Hi as [_ Hi]. pose proof (Hone r1 Hr1) as Hlen. destruct (filter _ tab) as [|x l] eqn:Efl; [discriminate|]. assert (Hx : In x (x :: l)) by (left; reflexivity). rewrite <- Efl in Hx. apply filter_In in Hx as [Hx Hb].
        apply (Hi x Hx). apply same_pairb_iff in Hb. unfold CompareFacts.same_pair, about in *. rewrite Er1, Ev1 in Hb. exact Hb. }
    destruct Hi as (r & Hr & Ha & <-). destruct r as [[a b] w]. destruct (Hval a b w Hr) as [_ ->]. cbn [snd]. specialize (HM a b Ha).
    exists (mean_skip xR (map cr_value (filter (fun r => same_pairb (cr_root r) (cr_var r) a b) ovo))), (cr_value r1), (cr_value r2). split; [reflexivity|]. split; [exact Hc1|]. split; [exact Hc2|].
    change (filter (fun r => same_pairb (cr_root r) (cr_var r) a b) ovo) with (filter (CompareFacts.about a b) ovo).
    assert (Hboth : cr_value r1 = NaN <-> cr_value r2 = NaN).
    { rewrite (cond_depth_defined _ _ _ _ Hc1), (cond_depth_defined _ _ _ _ Hc2). split; intros H t Htt; destruct (H t Htt); auto. }
    destruct (cond_depth_nan _ _ _ _ Hc1) as [E1|(x & E1)], (cond_depth_nan _ _ _ _ Hc2) as [E2|(y & E2)].
    - left. split; [exact E1|]. split; [exact E2|]. rewrite E1, E2 in HM. destruct (Permutation_length_2_inv (Permutation_sym HM)) as [E|E]; rewrite E; reflexivity.
    - exfalso. rewrite (proj1 Hboth E1) in E2. discriminate.
    - exfalso. rewrite (proj2 Hboth E2) in E1. discriminate.
    - right. exists x, y. split; [exact E1|]. split; [exact E2|]. rewrite E1, E2 in HM. destruct (Permutation_length_2_inv (Permutation_sym HM)) as [E|E]; rewrite E.
      + change (mean_skip xR [Fin x; Fin y]) with (np_mean xR (map Fin [x; y])). rewrite xR_mean_fin by discriminate. f_equal. unfold Rmean, Rsum. cbn. field.
      + change (mean_skip xR [Fin y; Fin x]) with (np_mean xR (map Fin [y; x])). rewrite xR_mean_fin by discriminate. f_equal. unfold Rmean, Rsum. cbn. field.
  Qed.
End Forest.

(** ** Example *)
Definition e2e_forest : forest := {| fo_names := Some ["x"; "y"; "z"; "w"]; fo_trees := [ex_arrays_two; ex_arrays] |}.
Definition e2e_trees : list btree := [ex_tree_two; ex_tree].
Lemma e2e_input : forest_input e2e_forest ["x"; "y"; "z"; "w"] e2e_trees.
Proof.
  split.
  - reflexivity.
  - repeat constructor; cbn; intuition discriminate.
  - cbn; lia.
  - apply Forall2_cons; [exact ex_stored_two|]. apply Forall2_cons; [exact ex_stored|apply Forall2_nil].
  - repeat constructor; reflexivity.
  - intros f t [<-|[<-|[]]] H; cbn [length]; do 4 (destruct f as [|f]; [lia|]); exfalso; apply H; reflexivity.
  - intros i Hi. cbn [length] in Hi. exists ex_tree_two. split; [left; reflexivity|]. do 4 (destruct i as [|i]; [vm_compute; discriminate|]). lia.
Qed.
(* below x the first split on y comes at once; below y the first split on x is missing in the first tree *)
Example C117_example : cond_depth e2e_trees 0 1 (Fin 0%R) /\ cond_depth e2e_trees 1 0 (Fin (1 / 2)%R) /\ cond_depth e2e_trees 0 2 (Fin 3%R) /\ co_occur e2e_trees 1 0 1
  /\ interaction_value (cmd_compare_ovo xR isort (fst (cmd_fit xR isort cs_init e2e_forest))) "y" "x" = Ok (Fin (1 / 4)%R).
Proof.
  assert (HR : forall t T i j v, stored T t -> depth_first t -> (do x <- bfs T; Ok (cmd_pair (fst x) (snd x) i j)) = Ok v -> reports t i j v).
  { intros t T i j v Hst Hdf E. destruct (bfs T) as [[dep sp]|] eqn:Eb; [|discriminate]. cbn [bind fst snd] in E.
    assert (E' : cmd_pair dep sp i j = v) by congruence. rewrite <- E'. exact (C36_conditional_depth T t dep sp i j Hst Hdf Eb). }
  assert (D2 : depth_first ex_tree_two) by reflexivity. assert (D1 : depth_first ex_tree) by reflexivity.
  assert (H01 : cond_depth e2e_trees 0 1 (Fin 0%R)).
  { exists [(Some 0%Z, true); (Some 0%Z, true)]. split; [|cbn; f_equal; unfold Rmean, Rsum; cbn; field].
    apply Forall2_cons; [apply (HR _ ex_arrays_two); [exact ex_stored_two|exact D2|vm_compute; reflexivity]|]. apply Forall2_cons; [|apply Forall2_nil]. apply (HR _ ex_arrays); [exact ex_stored|exact D1|vm_compute; reflexivity]. }
  assert (H10 : cond_depth e2e_trees 1 0 (Fin (1 / 2)%R)).
  { exists [(Some 1%Z, false); (Some 0%Z, true)]. split; [|cbn; f_equal; unfold Rmean, Rsum; cbn; field].
    apply Forall2_cons; [apply (HR _ ex_arrays_two); [exact ex_stored_two|exact D2|vm_compute; reflexivity]|]. apply Forall2_cons; [|apply Forall2_nil]. apply (HR _ ex_arrays); [exact ex_stored|exact D1|vm_compute; reflexivity]. }
  assert (H02 : cond_depth e2e_trees 0 2 (Fin 3%R)).
  { exists [(Some 3%Z, true); (None, false)]. split; [|cbn; f_equal; unfold Rmean, Rsum; cbn; field].
    apply Forall2_cons; [apply (HR _ ex_arrays_two); [exact ex_stored_two|exact D2|vm_compute; reflexivity]|]. apply Forall2_cons; [|apply Forall2_nil]. apply (HR _ ex_arrays); [exact ex_stored|exact D1|vm_compute; reflexivity]. }
  split; [exact H01|]. split; [exact H10|]. split; [exact H02|]. split.
  { exists [false; true]. split; [|reflexivity]. apply Forall2_cons; [|apply Forall2_cons; [|apply Forall2_nil]].
    - split; [discriminate|]. intros (u & Hu & Hb). exfalso. vm_compute in Hu. destruct Hu as [<-|[<-|[]]]; apply Hb; reflexivity.
    - split; [intros _|reflexivity]. exists (Split 1 1 (Leaf 2) (Split 3 0 (Leaf 4) (Leaf 5))). split; [vm_compute; auto|discriminate]. }
  destruct (C117_value isort isort_ok cs_init e2e_forest _ e2e_trees 1 0 "y" "x" e2e_input ltac:(lia) eq_refl eq_refl) as (v & x & y & E & Hx & Hy & Hv).
  { intros a b c d Ha Hb Hc Hd. assert (L : forall s, In s ["x"; "y"; "z"; "w"] -> String.length s = 1) by (intros s H; repeat (destruct H as [<-|H]; [reflexivity|]); destruct H). apply (join2_inj a b c d 1); auto. }
  rewrite E. rewrite (cond_depth_unique _ _ _ _ _ Hx H10), (cond_depth_unique _ _ _ _ _ Hy H01) in Hv.
  destruct Hv as [(H & _)|(a & b & Ha & Hb & ->)]; [discriminate|]. injection Ha as <-. injection Hb as <-. do 2 f_equal. field.
Qed.

Print Assumptions C117_heatmap.
Print Assumptions C117_bars.
Print Assumptions C117_value.
