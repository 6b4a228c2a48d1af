(** C104: the annotations of the lollipop chart of a fitted split score method. *)
From Verif Require PdMethodReal.
From Verif Require Import Py Num NumR Sorting Frame CondDepth TreeFacts ForestFacts SplitScore SplitFacts SplitTables SplitImp
  Comparator Props_Compare Props_Split Props_Split2 Visual VisualFacts Props_Visual Props_Visual2 Props_Visual3 Props_Visual4 Props_Visual5 Props_Visual6 Props_Visual7.
From Coq Require Import Reals Lra QArith.
Open Scope string_scope.
Open Scope nat_scope.
Open Scope list_scope.

Notation entry := SplitFacts.entry.
(** ** Vocabulary *)
(** the argument of a fit on a trained model whose trees have the numbers [zs] *)
Definition fitted_at {V} (zs : list Z) (arg : fit_arg V) (pk : package) (ts : list (gtree V)) (Ls : list (list (entry V))) : Prop :=
  exists m, trained_at zs m pk ts Ls /\ (arg = Model m \/ exists h, unify_structure m = Ok h /\ arg = Handler h).

Section Spec.
  Context {V : Type} (N : num_ops V).
  Notation node := (Z * entry V)%type.
  (** of the nodes with [P], those in the requested share of the trees *)
  Definition in_share (share : V) (P : node -> Prop) (x : node) : Prop :=
    P x /\ exists last, P last /\ (forall y, P y -> (fst y <= fst last)%Z) /\ n_ltb N (n_ofZ N (fst x)) (n_mul N share (n_ofZ N (fst last))) = true.
  Definition root_of (l : list node) (x : node) : Prop := In x l /\ e_depth (snd x) = 0.
  Definition inner (l : list node) (depth : nat) (x : node) : Prop := In x l /\ gsplit (e_node (snd x)) = true /\ 1 <= e_depth (snd x) <= depth.
  (** where a node is drawn *)
  Definition at_point (x : node) : Z * V := ((fst x + 1)%Z, egain N (snd x)).
  (** a better split than the parent's, on another feature: [p:f] *)
  Definition improves (x : node) : Prop :=
    exists p f i pg pc pl pr j g c l r, e_parent (snd x) = Some (GSplit i p pg pc pl pr) /\ e_node (snd x) = GSplit j f g c l r /\ n_ltb N pg g = true /\ f <> p.
  Definition pair_label (x : node) : string := match epair (snd x) with Some (p, f) => String.append p (String.append ":" f) | None => "" end.
  Definition feature_label (x : node) : string := match efeat (snd x) with Some f => f | None => "" end.
End Spec.

(** ** Lemmas *)
Lemma Forall2_flat_map {A B K} (R : A -> B -> Prop) (f : K -> list A) (g : K -> list B) ks : (forall k, Forall2 R (f k) (g k)) -> Forall2 R (flat_map f ks) (flat_map g ks).
Proof. intros H. induction ks as [|k ks IH]; cbn; [constructor|]. apply Forall2_app; [apply H|exact IH]. Qed.
Lemma Forall2_map_eq {A B K} (R : A -> B -> Prop) (f : A -> K) (g : B -> K) l k : Forall2 R l k -> (forall a b, In a l -> R a b -> f a = g b) -> map f l = map g k.
Proof. intros H. induction H as [|a b l k Hab H IH]; intros E; [reflexivity|]. cbn. f_equal; [apply E; [left; reflexivity|exact Hab]|apply IH; intros; apply E; [right|]; assumption]. Qed.
Lemma NoDup_flat_map_key {A} (key : A -> nat) (g : nat -> list A) ks : (forall d, NoDup (g d)) -> (forall d x, In x (g d) -> key x = d) -> NoDup ks -> NoDup (flat_map g ks).
Proof.
  intros Hn Hk. induction ks as [|d ks IH]; intros H; cbn; [constructor|]. inversion H; subst.
  assert (G : forall l k : list A, NoDup l -> NoDup k -> (forall x, In x l -> ~ In x k) -> NoDup (l ++ k)).
  { induction l as [|x l IHl]; intros k Hl Hk' Hd; [exact Hk'|]. inversion Hl; subst. cbn. constructor.
    - rewrite in_app_iff. intros [Hx|Hx]; [contradiction|]. exact (Hd x (or_introl eq_refl) Hx).
    - apply IHl; auto. intros y Hy. apply Hd. right. exact Hy. }
  apply G; auto. intros x Hx Hx'. apply in_flat_map in Hx' as (d' & Hd' & Hx'). rewrite <- (Hk _ _ Hx), (Hk _ _ Hx') in *. contradiction.
Qed.
Lemma NoDup_filter' {A} (p : A -> bool) l : NoDup l -> NoDup (filter p l).
Proof. induction 1 as [|x l Hx H IH]; cbn; [constructor|]. destruct (p x); [constructor; [|exact IH]|exact IH]. rewrite filter_In. tauto. Qed.
Lemma Forall2_filter_r {A B} (R : A -> B -> Prop) (p : A -> bool) (q : B -> bool) l k :
  Forall2 R l k -> (forall a b, In a l -> R a b -> p a = q b) -> Forall2 R (filter p l) (filter q k).
Proof.
  induction 1 as [|a b l k H HF IH]; intros E; [constructor|]. cbn. rewrite (E a b (or_introl eq_refl) H). specialize (IH (fun a b Ha => E a b (or_intror Ha))). destruct (q b); [constructor; assumption|exact IH].
Qed.

Section Labels.
  Context {V : Type} (N : num_ops V) (srt : sorter) (lower : string -> string).
  Notation entry := (SplitFacts.entry V).
  Notation node := (Z * entry)%type.
  Notation fit := (ss_fit N srt).
  Notation plot := (ss_plot N srt lower).

  Lemma tagged_nodup zs (ts : list (gtree V)) Ls : StronglySorted Z.lt zs -> length zs = length Ls -> Forall2 listing ts Ls -> NoDup (tagged zs Ls).
  Proof.
    intros Hs Hl HL. revert zs Hs Hl. induction HL as [|t L ts Ls H HL IH]; intros [|z zs] Hs Hl; cbn in Hl; try discriminate; [constructor|].
    unfold tagged. cbn [combine map concat fst snd]. inversion Hs as [|? ? Hs' Hz]; subst. specialize (IH zs Hs' ltac:(congruence)). fold (tagged zs Ls).
    assert (HD : NoDup (map (pair z) L)).
    { assert (HD : NoDup L) by (apply (NoDup_map_inv eid), (ls_ids t L H)). clear -HD. induction HD as [|x l Hx HD IH]; cbn; constructor; [|exact IH]. rewrite in_map_iff. intros (y & E & Hy). congruence. }
    assert (Hd : forall x, In x (map (pair z) L) -> ~ In x (tagged zs Ls)).
    { intros x Hx Hx'. apply in_map_iff in Hx as (e & <- & _). unfold tagged in Hx'. apply in_concat in Hx' as (c & Hc & He). apply in_map_iff in Hc as ([z' L'] & <- & Hz'). cbn [fst snd] in He.
      apply in_map_iff in He as (e' & E & _). apply in_combine_l in Hz'. rewrite Forall_forall in Hz. specialize (Hz z' Hz'). injection E as E _. lia. }
    revert HD Hd IH. generalize (map (pair z) L) as l. intros l HD. induction HD as [|x l Hx HD IHl]; intros Hd Hk; [exact Hk|]. cbn [app]. constructor.
    - rewrite in_app_iff. intros [K|K]; [contradiction|]. exact (Hd x (or_introl eq_refl) K).
    - apply IHl; [|exact Hk]. intros y Hy. apply Hd. right. exact Hy.
  Qed.

  (** a row of the table and the node it describes *)
  Definition row_of (pk : package) (x : node) (r : urow V) : Prop := placed (snd x) /\ final_row N pk (fst x) (snd x) r.

  (** C42: the rows of the table kept by a fit carry the number of their tree *)
  Theorem C42_tree_numbers zs s arg pk ts Ls im fm od s' : fitted_at zs arg pk ts Ls -> (pk = Xgboost -> no_leaf_name ts) -> fit s arg im fm od = (s', Ok tt) ->
    exists full, ss_full_result s' = Some full /\ Forall2 (fun x r => final_row N pk (fst x) (snd x) r) (tagged zs Ls) full.
  Proof.
    intros (m & Ht & Ha) Hn H. destruct (trained_unified_at zs m pk ts Ls Ht Hn) as (h & Eh & Hp & Hu).
    assert (E : (match arg with Model m => unify_structure m | Handler h => Ok h end) = Ok h) by (destruct Ha as [->|(h' & E' & ->)]; congruence).
    unfold ss_fit in H. rewrite E in H. cbn [bind] in H. rewrite Hp in H. destruct (check_metrics pk im fm); [|discriminate].
    destruct (full_spec_at N zs pk ts Ls _ Hu) as (full & Ef & HF). unfold full_result in H. rewrite Ef in H. cbn [bind] in H.
    destruct (existsb has_parent (concat full)); [|discriminate]. exists (concat full). split.
    - destruct (get_ovo _ _ _ _ _) as [o|]; [|discriminate]. destruct (split_importance _ _ _ _ _) as [fi|]; [|discriminate]. injection H as <-. reflexivity.
    - clear -HF. induction HF as [|x r l k [_ Hr] HF IH]; constructor; assumption.
  Qed.
  Lemma rows_placed zs pk ts Ls full : length zs = length Ls -> Forall2 listing ts Ls -> Forall2 (fun x r => final_row N pk (fst x) (snd x) r) (tagged zs Ls) full -> Forall2 (row_of pk) (tagged zs Ls) full.
  Proof.
    intros Hl HL HF. assert (Hpl : forall x, In x (tagged zs Ls) -> placed (snd x)).
    { intros x Hx. unfold tagged in Hx. apply in_concat in Hx as (c & Hc & He). apply in_map_iff in Hc as ([z L] & <- & Hz). cbn [fst snd] in He. apply in_map_iff in He as (e & <- & He). cbn [snd].
      apply in_combine_r in Hz. destruct (Forall2_In_r _ _ _ _ HL Hz) as (t & _ & Hli). exact (listing_placed t L e Hli He). }
    clear -HF Hpl. induction HF as [|x r l k Hr HF IH]; constructor; [split; [apply Hpl; left; reflexivity|exact Hr]|apply IH; intros; apply Hpl; right; assumption].
  Qed.

  (** what a row says about its node *)
  Lemma row_leaf pk x r : row_of pk x r -> u_leaf r = negb (gsplit (e_node (snd x))).
  Proof. intros (_ & _ & _ & H). destruct (e_node (snd x)); [destruct H as (-> & _)|destruct H as (-> & _)]; reflexivity. Qed.
  Lemma row_tree pk x r : row_of pk x r -> u_tree r = fst x.
  Proof. intros (_ & H & _). exact H. Qed.
  Lemma row_depth pk x r d : row_of pk x r -> gsplit (e_node (snd x)) = true -> at_depth d r = (e_depth (snd x) =? d).
  Proof. intros (_ & _ & _ & H) Hg. destruct (e_node (snd x)); [discriminate|]. destruct H as (_ & _ & _ & _ & Hd & _). unfold at_depth. rewrite Hd. reflexivity. Qed.
  Lemma row_inter pk x r : row_of pk x r -> gsplit (e_node (snd x)) = true -> is_inter r = better N (snd x).
  Proof.
    intros (_ & _ & _ & H) Hg. unfold better. destruct (e_node (snd x)); [discriminate|]. destruct H as (_ & _ & _ & _ & _ & H). unfold is_inter.
    destruct (e_parent (snd x)) as [[]|]; destruct H as [_ ->]; reflexivity.
  Qed.
  Lemma row_point pk x r : row_of pk x r -> gsplit (e_node (snd x)) = true -> at_point N x = point r.
  Proof. intros (_ & Hz & _ & H) Hg. unfold at_point, point, egain. destruct (e_node (snd x)); [discriminate|]. destruct H as (_ & _ & -> & _). rewrite Hz. reflexivity. Qed.
  Lemma row_pair pk x r : row_of pk x r -> better N (snd x) = true -> pair_label x = pair_name r.
  Proof.
    intros (_ & _ & _ & H) Hb. unfold better, pair_label, epair, pair_name in *. destruct (e_parent (snd x)) as [[|? p ? ? ? ?]|]; try discriminate. destruct (e_node (snd x)) as [|? f ? ? ? ?]; [discriminate|].
    destruct H as (_ & -> & _ & _ & _ & -> & _). reflexivity.
  Qed.
  Lemma better_improves (x : node) : better N (snd x) = true <-> improves N x.
  Proof.
    unfold better, improves. split.
    - destruct (e_parent (snd x)) as [[|i p pg pc pl pr]|]; try discriminate. destruct (e_node (snd x)) as [|j f g c l r]; [discriminate|]. rewrite andb_true_iff, negb_true_iff, String.eqb_neq. intros [H1 H2].
      do 12 eexists. repeat (split; [reflexivity|]). auto.
    - intros (p & f & i & pg & pc & pl & pr & j & g & c & l & r & -> & -> & -> & H). cbn. rewrite negb_true_iff, String.eqb_neq. exact H.
  Qed.

  (** the share of the trees, on rows and on nodes *)
  Lemma share_rows pk share (nodes : list node) rows (P : node -> Prop) : Forall2 (row_of pk) nodes rows -> (forall x, In x nodes <-> P x) -> NoDup nodes ->
    exists sel, Forall2 (row_of pk) sel (early_trees N share rows) /\ NoDup sel /\ forall x, In x sel <-> in_share N share P x.
  Proof.
    intros HF HP Hn. unfold early_trees. pose proof (max_tree_ok rows) as HM. destruct (max_tree rows) as [z|].
    - destruct HM as ((r & Hr & Ez) & Hmax). destruct (Forall2_In_r _ _ _ _ HF Hr) as (last & Hl & Hrow). apply in_combine_l in Hl.
      assert (Hz : fst last = z) by (rewrite <- Ez; symmetry; exact (row_tree _ _ _ Hrow)).
      assert (Hb : forall y, In y nodes -> (fst y <= z)%Z).
      { intros y Hy. destruct (Forall2_In_l _ _ _ _ HF Hy) as (r' & Hr' & Hrow'). rewrite <- (row_tree _ _ _ Hrow'). apply Hmax. exact (in_combine_r _ _ _ _ Hr'). }
      exists (filter (fun x => n_ltb N (n_ofZ N (fst x)) (n_mul N share (n_ofZ N z))) nodes). split; [|split; [apply NoDup_filter', Hn|]].
      + apply Forall2_filter_r; [exact HF|]. intros x r' _ Hx. rewrite (row_tree _ _ _ Hx). reflexivity.
      + intros x. rewrite filter_In, HP. split.
        * intros [H1 H2]. split; [exact H1|]. exists last. split; [apply HP, Hl|]. split; [intros y Hy; rewrite Hz; apply Hb, HP, Hy|rewrite Hz; exact H2].
        * intros (H1 & l' & H2 & H3 & H4). split; [exact H1|]. replace z with (fst l'); [exact H4|]. apply Z.le_antisymm; [apply Hb, HP, H2|rewrite <- Hz; apply H3, HP, Hl].
    - subst rows. exists []. split; [constructor|]. split; [constructor|]. intros x. split; [intros []|]. intros (H & _). apply HP in H. inversion HF; subst. destruct H.
  Qed.

  Lemma lollipop_figure s title k fig rows : plot s "lollipop" title k = Ok fig -> ss_full_result s = Some rows ->
    let share := pop (k_max_trees (k_own k)) (n_div N (n_ofZ N 1) (n_ofZ N 5)) in
    let depth := pop (k_max_depth (k_own k)) 1 in
    let lt := pop (k_label_threshold (k_own k)) (n_div N (n_ofZ N 1) (n_ofZ N 10)) in
    let roots := early_trees N share (filter (at_depth 0) rows) in
    let nodes := early_trees N share (filter (fun r => negb (u_leaf r) && existsb (fun d => at_depth d r) (seq 1 depth)) rows) in
    exists t, fig = (None, [PLollipop t (map point roots) (map (fun d => map point (filter (at_depth d) nodes)) (seq 1 depth))
      (if pop (k_labels (k_own k)) true then map (fun r => (pair_name r, point r)) (flat_map (fun d => filter is_inter (filter (at_depth d) nodes)) (seq 1 depth)) else [])
      (if pop (k_labels (k_own k)) true then map (fun r => (oname (u_feat r), point r))
         (filter (fun r => negb (n_isnan N (u_gain r)) && negb (n_ltb N (u_gain r) (n_mul N lt (series_max N (map u_gain roots))))) roots) else [])]).
  Proof.
    intros E Hr. unfold ss_plot in E. destruct (ss_ovo s) as [ovo|]; [|discriminate]. cbv zeta.
    assert (E' : (do pn <- plot_lollipop N (ss_full_result s) title (k_own k); Ok (None, [pn])) = Ok fig) by exact E. rewrite Hr in E'. unfold plot_lollipop in E'.
    destruct (6 <=? _); [discriminate|]. cbn [bind] in E'. injection E' as <-. eexists. reflexivity.
  Qed.

  (** the nodes are annotated with [parent:child] exactly where they improve on their parent *)
  Theorem C104_nodes zs s arg pk ts Ls im fm od s' title k fig :
    fitted_at zs arg pk ts Ls -> (pk = Xgboost -> no_leaf_name ts) -> fit s arg im fm od = (s', Ok tt) -> plot s' "lollipop" title k = Ok fig ->
    let share := pop (k_max_trees (k_own k)) (n_div N (n_ofZ N 1) (n_ofZ N 5)) in
    let depth := pop (k_max_depth (k_own k)) 1 in
    exists t roots points nl rl, fig = (None, [PLollipop t roots points nl rl])
      /\ (k_labels (k_own k) = Some false -> nl = [] /\ rl = [])
      /\ (k_labels (k_own k) <> Some false -> exists sel, NoDup sel /\ nl = map (fun x => (pair_label x, at_point N x)) sel
            /\ forall x, In x sel <-> in_share N share (inner (tagged zs Ls) depth) x /\ improves N x).
  Proof.
    intros Hf Hn Hfit Hp share depth. destruct (C42_tree_numbers zs s arg pk ts Ls im fm od s' Hf Hn Hfit) as (full & Ef & HF).
    assert (Htr : StronglySorted Z.lt zs /\ length zs = length Ls /\ Forall2 listing ts Ls) by (destruct Hf as (m & (H1 & H2 & H3 & _) & _); auto). destruct Htr as (Hs & Hl & HL).
    apply (rows_placed zs pk ts Ls full Hl HL) in HF. pose proof (tagged_nodup zs ts Ls Hs Hl HL) as HD.
    destruct (lollipop_figure s' title k fig full Hp Ef) as (t & ->). fold share depth. do 5 eexists. split; [reflexivity|]. split; [intros ->; split; reflexivity|].
    intros Hlab. replace (pop (k_labels (k_own k)) true) with true by (destruct (k_labels (k_own k)) as [[]|]; cbn; congruence).
    set (T := filter (fun x : node => gsplit (e_node (snd x)) && existsb (fun d => e_depth (snd x) =? d) (seq 1 depth)) (tagged zs Ls)).
    assert (HT : Forall2 (row_of pk) T (filter (fun r => negb (u_leaf r) && existsb (fun d => at_depth d r) (seq 1 depth)) full)).
    { apply Forall2_filter_r; [exact HF|]. intros x r _ Hx. rewrite (row_leaf _ _ _ Hx), negb_involutive. destruct (gsplit (e_node (snd x))) eqn:Eg; [|reflexivity]. cbn [andb].
      generalize (seq 1 depth). intros l. induction l as [|d l IHl]; [reflexivity|]. cbn [existsb]. rewrite IHl, (row_depth pk x r d Hx Eg). reflexivity. }
    assert (HTP : forall x, In x T <-> inner (tagged zs Ls) depth x).
    { intros x. unfold T, inner. rewrite filter_In, andb_true_iff, existsb_exists. split.
      - intros (H1 & H2 & d & H3 & H4). apply in_seq in H3. apply Nat.eqb_eq in H4. split; [exact H1|]. split; [exact H2|]. lia.
      - intros (H1 & H2 & H3). split; [exact H1|]. split; [exact H2|]. exists (e_depth (snd x)). split; [apply in_seq; lia|apply Nat.eqb_refl]. }
    destruct (share_rows pk share T _ _ HT HTP (NoDup_filter' _ _ HD)) as (S & HS & HSn & HSP).
    assert (Hsp : forall x, In x S -> gsplit (e_node (snd x)) = true) by (intros x Hx; apply HSP in Hx as ((_ & H & _) & _); exact H).
    exists (flat_map (fun d => filter (fun x : node => better N (snd x)) (filter (fun x : node => e_depth (snd x) =? d) S)) (seq 1 depth)).
    split; [|split].
    - apply (NoDup_flat_map_key (fun x : node => e_depth (snd x))); [intros d; apply NoDup_filter', NoDup_filter', HSn| |apply seq_NoDup].
      intros d x Hx. apply filter_In in Hx as [Hx _]. apply filter_In in Hx as [_ Hx]. apply Nat.eqb_eq, Hx.
    - symmetry. apply (Forall2_map_eq (row_of pk)).
      + apply Forall2_flat_map. intros d. apply Forall2_filter_r; [apply Forall2_filter_r; [exact HS|]|].
        * intros x r Hx Hr. symmetry. apply (row_depth pk x r d Hr), Hsp, Hx.
        * intros x r Hx Hr. apply filter_In in Hx as [Hx _]. symmetry. apply (row_inter pk x r Hr), Hsp, Hx.
      + intros x r Hx Hr. apply in_flat_map in Hx as (d & _ & Hx). apply filter_In in Hx as [Hx Hb]. apply filter_In in Hx as [Hx _]. rewrite (row_pair pk x r Hr Hb), (row_point pk x r Hr (Hsp x Hx)). reflexivity.
    - intros x. rewrite in_flat_map, <- better_improves. split.
      + intros (d & _ & Hx). apply filter_In in Hx as [Hx Hb]. apply filter_In in Hx as [Hx _]. split; [apply HSP, Hx|exact Hb].
      + intros [Hx Hb]. exists (e_depth (snd x)). split; [destruct Hx as ((_ & _ & H) & _); apply in_seq; lia|]. rewrite !filter_In, Nat.eqb_refl. split; [split; [apply HSP, Hx|reflexivity]|exact Hb].
  Qed.

  (** the roots are annotated with their feature exactly where their gain reaches the threshold: the
      given share of the largest gain of a drawn root *)
  Lemma series_max_top (l : list V) : num_ord_ok N -> l <> [] -> (forall x, In x l -> n_isnan N x = false) ->
    In (series_max N l) l /\ forall x, In x l -> n_ltb N (series_max N l) x = false.
  Proof.
    intros HN Hne Hl. unfold series_max. replace (filter (fun x => negb (n_isnan N x)) l) with l.
    2:{ clear Hne. induction l as [|x l IH]; [reflexivity|]. cbn [filter]. rewrite (Hl x (or_introl eq_refl)). cbn [negb]. f_equal. apply IH. intros y Hy. apply Hl. right. exact Hy. }
    destruct l as [|x l]; [congruence|]. split.
    - clear. revert x. induction l as [|y l IH]; intros x; [left; reflexivity|]. cbn [fold_left]. destruct (IH (vmax2 N x y)) as [E|E]; [|right; right; exact E].
      rewrite <- E. unfold vmax2. destruct (n_isnan N x); [left; reflexivity|]. destruct (n_isnan N y); [right; left; reflexivity|]. destruct (n_ltb N x y); [right|]; left; reflexivity.
    - intros y [<-|Hy]; apply (PdMethodReal.fold_max_ge N HN); auto.
  Qed.

  Theorem C104_roots zs s arg pk ts Ls im fm od s' title k fig :
    num_ord_ok N -> fitted_at zs arg pk ts Ls -> (pk = Xgboost -> no_leaf_name ts) -> fit s arg im fm od = (s', Ok tt) -> plot s' "lollipop" title k = Ok fig ->
    (forall t, In t ts -> gsplit t = true) -> (forall x, In x (tagged zs Ls) -> gsplit (e_node (snd x)) = true -> n_isnan N (egain N (snd x)) = false) ->
    k_labels (k_own k) <> Some false ->
    let share := pop (k_max_trees (k_own k)) (n_div N (n_ofZ N 1) (n_ofZ N 5)) in
    let lt := pop (k_label_threshold (k_own k)) (n_div N (n_ofZ N 1) (n_ofZ N 10)) in
    let shown := in_share N share (root_of (tagged zs Ls)) in
    exists t roots points nl rl, fig = (None, [PLollipop t roots points nl rl])
      /\ exists sel, NoDup sel /\ rl = map (fun x => (feature_label x, at_point N x)) sel
           /\ ((sel = [] /\ forall x, ~ shown x)
               \/ exists top, shown top /\ (forall x, shown x -> n_ltb N (egain N (snd top)) (egain N (snd x)) = false)
                   /\ forall x, In x sel <-> shown x /\ n_ltb N (egain N (snd x)) (n_mul N lt (egain N (snd top))) = false).
  Proof.
    intros HN Hf Hn Hfit Hp Hts Hga Hlab share lt shown. destruct (C42_tree_numbers zs s arg pk ts Ls im fm od s' Hf Hn Hfit) as (full & Ef & HF).
    assert (Htr : StronglySorted Z.lt zs /\ length zs = length Ls /\ Forall2 listing ts Ls) by (destruct Hf as (m & (H1 & H2 & H3 & _) & _); auto). destruct Htr as (Hs & Hl & HL).
    apply (rows_placed zs pk ts Ls full Hl HL) in HF. pose proof (tagged_nodup zs ts Ls Hs Hl HL) as HD.
    destruct (lollipop_figure s' title k fig full Hp Ef) as (t & ->). fold share lt. do 5 eexists. split; [reflexivity|].
    replace (pop (k_labels (k_own k)) true) with true by (destruct (k_labels (k_own k)) as [[]|]; cbn; congruence).
    (* roots split *)
    assert (Hroot : forall x, In x (tagged zs Ls) -> e_depth (snd x) = 0 -> gsplit (e_node (snd x)) = true).
    { intros x Hx H0. unfold tagged in Hx. apply in_concat in Hx as (c & Hc & He). apply in_map_iff in Hc as ([z L] & <- & Hz). cbn [fst snd] in He. apply in_map_iff in He as (e & <- & He). cbn [snd] in *.
      apply in_combine_r in Hz. destruct (Forall2_In_r _ _ _ _ HL Hz) as (t0 & Ht & Hli). destruct (listing_placed t0 L e Hli He) as ((_ & Hpar) & _). apply Hpar in H0.
      pose proof (entries_root t0 e (Permutation_in _ (ls_perm t0 L Hli) He) H0) as ->. cbn. apply Hts, (in_combine_l _ _ _ _ Ht). }
    set (T := filter (fun x : node => e_depth (snd x) =? 0) (tagged zs Ls)).
    assert (HT : Forall2 (row_of pk) T (filter (at_depth 0) full)).
    { apply Forall2_filter_r; [exact HF|]. intros x r Hx Hr. destruct (gsplit (e_node (snd x))) eqn:Eg; [symmetry; apply (row_depth pk x r 0 Hr Eg)|].
      destruct (Nat.eqb_spec (e_depth (snd x)) 0) as [E0|E0]; [rewrite (Hroot x Hx E0) in Eg; discriminate|].
      destruct Hr as (_ & _ & _ & H). unfold at_depth. destruct (e_node (snd x)); [|discriminate]. destruct H as (_ & _ & _ & _ & ->). destruct (is_xgb pk); [reflexivity|]. symmetry. apply Nat.eqb_neq, E0. }
    assert (HTP : forall x, In x T <-> root_of (tagged zs Ls) x) by (intros x; unfold T, root_of; rewrite filter_In, Nat.eqb_eq; reflexivity).
    destruct (share_rows pk share T _ _ HT HTP (NoDup_filter' _ _ HD)) as (S & HS & HSn & HSP). fold shown in HSP.
    assert (Hsp : forall x, In x S -> gsplit (e_node (snd x)) = true) by (intros x Hx; apply HSP in Hx as ((H1 & H2) & _); apply Hroot; assumption).
    assert (Hg : forall x r, In x S -> row_of pk x r -> u_gain r = egain N (snd x)).
    { intros x r Hx Hr. pose proof (f_equal snd (row_point pk x r Hr (Hsp x Hx))) as E. unfold at_point, point in E. cbn [snd] in E. symmetry. exact E. }
    set (rows := early_trees N share (filter (at_depth 0) full)) in *.
    assert (Hgs : map u_gain rows = map (fun x => egain N (snd x)) S) by (symmetry; apply (Forall2_map_eq (row_of pk) _ _ _ _ HS); intros x r Hx Hr; symmetry; apply Hg; assumption).
    rewrite Hgs. destruct S as [|x0 S0] eqn:ES.
    { inversion HS as [E|]. exists []. split; [constructor|]. split; [reflexivity|]. left. split; [reflexivity|]. intros x Hx. apply HSP in Hx. destruct Hx. }
    assert (Hne : S <> []) by (intros E; rewrite E in ES; discriminate). rewrite <- ES in *. clear ES.
    assert (Hnn : forall x, In x S -> n_isnan N (egain N (snd x)) = false) by (intros x Hx; apply Hga; [apply HSP in Hx as ((H & _) & _); exact H|apply Hsp, Hx]).
    destruct (series_max_top (map (fun x => egain N (snd x)) S) HN) as (HM & HMax).
    { intros E. apply map_eq_nil in E. contradiction. }
    { intros v Hv. apply in_map_iff in Hv as (x & <- & Hx). apply Hnn, Hx. }
    apply in_map_iff in HM as (top & Etop & Htop). rewrite <- Etop in *.
    exists (filter (fun x => negb (n_ltb N (egain N (snd x)) (n_mul N lt (egain N (snd top))))) S). split; [apply NoDup_filter', HSn|]. split.
    - symmetry. apply (Forall2_map_eq (row_of pk)).
      + apply Forall2_filter_r; [exact HS|]. intros x r Hx Hr. rewrite (Hg x r Hx Hr), (Hnn x Hx). reflexivity.
      + intros x r Hx Hr. apply filter_In in Hx as [Hx _]. rewrite (row_point pk x r Hr (Hsp x Hx)). f_equal. pose proof (Hsp x Hx) as Hgx. destruct Hr as (_ & _ & _ & H).
        unfold feature_label, efeat. destruct (e_node (snd x)); [discriminate|]. destruct H as (_ & -> & _). reflexivity.
    - right. exists top. split; [apply HSP, Htop|]. split.
      + intros x Hx. apply HMax, in_map_iff. exists x. split; [reflexivity|apply HSP, Hx].
      + intros x. rewrite filter_In, negb_true_iff, HSP. reflexivity.
  Qed.
End Labels.

(** ** A case meeting the hypotheses *)
Lemma ex_trained_at : trained_at [0; 1]%Z (xgb_of ex_ts) Xgboost ex_ts (map bfs_list ex_ts).
Proof.
  apply (xgb_trained_at ex_ts); [intros t Ht; in_cases Ht; (split; [reflexivity|listing_tac])|intros t e Ht He; in_cases Ht; vm_compute in He; in_cases He; cbn; congruence].
Qed.
Example C104_example : exists s',
  fitted_at [0; 1]%Z (Model (xgb_of ex_ts)) Xgboost ex_ts (map bfs_list ex_ts) /\ no_leaf_name ex_ts /\ num_ord_ok xQ
  /\ splitQ ex_ts true = (s', Ok tt) /\ (forall t, In t ex_ts -> gsplit t = true)
  /\ (forall x, In x (tagged [0; 1]%Z (map bfs_list ex_ts)) -> gsplit (e_node (snd x)) = true -> n_isnan xQ (egain xQ (snd x)) = false)
  /\ ss_plot xQ isort same s' "lollipop" "default" (own (with_share (q 1)))
     = Ok (None, [PLollipop "Lollipop boosting model summary" [(1%Z, q 4)] [[(1%Z, q 5); (1%Z, q 2)]] [("a:b", (1%Z, q 5))] [("a", (1%Z, q 4))]]).
Proof.
  eexists. split; [exists (xgb_of ex_ts); split; [exact ex_trained_at|left; reflexivity]|]. split; [exact ex_noleaf|]. split; [exact xQ_ord|]. split; [vm_compute; reflexivity|].
  split; [intros t Ht; in_cases Ht; reflexivity|]. split; [|vm_compute; reflexivity].
  intros x Hx. vm_compute in Hx. in_cases Hx; intros H; try discriminate H; vm_compute; reflexivity.
Qed.

Print Assumptions C42_tree_numbers.
Print Assumptions C104_nodes.
Print Assumptions C104_roots.
