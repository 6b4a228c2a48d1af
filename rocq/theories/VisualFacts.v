(** Facts about the heatmap and the graph of Visual.v. *)
From Verif Require Import Py Num Sorting Frame CondDepth ForestFacts SplitScore Comparator Props_Compare Visual.
Open Scope string_scope.
Open Scope nat_scope.
Open Scope list_scope.

Section Facts.
  Context {V : Type} (N : num_ops V) (srt : sorter) (lower : string -> string).
  Hypothesis Hsrt : sorter_ok srt.
  Hypothesis HN : num_ord_ok N.
  Notation table := (list (string * string * V)).

  Lemma defined_In rows (x : string * string * V) : In x (defined N rows) <-> In x rows /\ n_isnan N (snd x) = false.
  Proof. unfold defined, value. rewrite filter_In, negb_true_iff. reflexivity. Qed.

  Lemma cell_spec (rows : table) r c :
    (exists x, In x rows /\ fst x = (r, c) /\ n_isnan N (snd x) = false /\ cell N rows r c = snd x)
    \/ ((forall x, In x rows -> fst x = (r, c) -> n_isnan N (snd x) = true) /\ cell N rows r c = n_nan N).
  Proof.
    unfold cell. match goal with |- context [filter ?p _] => set (q := p) end.
    assert (Hq : forall x, q x = true <-> fst x = (r, c)).
    { intros [[a b] v]. unfold q, Visual.f1, Visual.f2. cbn [fst snd]. rewrite andb_true_iff, !String.eqb_eq. split; [intros [-> ->]; reflexivity|intros [= -> ->]; auto]. }
    destruct (filter q (defined N rows)) as [|x l] eqn:E.
    - right. split; [|reflexivity]. intros x Hx Hk. destruct (n_isnan N (snd x)) eqn:En; [reflexivity|].
      assert (Hin : In x (filter q (defined N rows))) by (apply filter_In; split; [apply defined_In; auto|apply Hq, Hk]). rewrite E in Hin. destruct Hin.
    - left. assert (Hin : In x (filter q (defined N rows))) by (rewrite E; left; reflexivity). apply filter_In in Hin as [H1 H2].
      apply defined_In in H1 as [H1 H3]. exists x. split; [exact H1|]. split; [apply Hq, H2|]. split; [exact H3|reflexivity].
  Qed.

  Lemma pivot_index_In rows f : In f (pivot_index N rows) <-> exists c v, In (f, c, v) rows /\ n_isnan N v = false.
  Proof.
    unfold pivot_index. rewrite (np_unique_In Scell Scell_ok) by apply Snan. rewrite in_map_iff. split.
    - intros ([[a b] v] & <- & Hx). apply defined_In in Hx as [H1 H2]. exists b, v. auto.
    - intros (c & v & H1 & H2). exists (f, c, v). split; [reflexivity|]. apply defined_In. auto.
  Qed.
  Lemma pivot_columns_In rows f : In f (pivot_columns N rows) <-> exists r v, In (r, f, v) rows /\ n_isnan N v = false.
  Proof.
    unfold pivot_columns. rewrite (np_unique_In Scell Scell_ok) by apply Snan. rewrite in_map_iff. split.
    - intros ([[a b] v] & <- & Hx). apply defined_In in Hx as [H1 H2]. exists a, v. auto.
    - intros (r & v & H1 & H2). exists (r, f, v). split; [reflexivity|]. apply defined_In. auto.
  Qed.

  Lemma order_heatmap_perm index columns m asc ind : order_heatmap N srt lower index columns m asc = Ok ind -> Permutation ind index.
  Proof.
    unfold order_heatmap. destruct (length columns <? length index); [discriminate|]. destruct (mapM _ index) as [scores|]; [|discriminate]. cbn [bind].
    intros [= <-]. apply (sort_values_ok N srt asc _ index Hsrt HN).
  Qed.

  (** the importance of a feature: that of its first row *)
  Definition has_importance (fi : list (string * V)) (f : string) (v : V) : Prop := exists l k, fi = l ++ (f, v) :: k /\ ~ In f (map fst l).
  Lemma importance_of_spec fi f : match importance_of fi f with Ok v => has_importance fi f v | Err e => e = IndexError /\ ~ In f (map fst fi) end.
  Proof.
    unfold importance_of. induction fi as [|[g w] fi IH]; cbn [filter].
    - split; [reflexivity|intros []].
    - cbn [fst]. destruct (String.eqb_spec g f) as [->|Hn].
      + exists [], fi. split; [reflexivity|intros []].
      + destruct (filter _ fi) as [|r l]; [destruct IH as [_ IH]; split; [reflexivity|]; cbn; intros [H|H]; auto|].
        destruct IH as (l0 & k & -> & H). exists ((g, w) :: l0), k. split; [reflexivity|]. cbn. intros [H'|H']; auto.
  Qed.
  Lemma has_importance_fun fi f v w : has_importance fi f v -> has_importance fi f w -> v = w.
  Proof.
    intros (l & k & E & H) (l' & k' & E' & H'). rewrite E in E'. clear E. revert l' E' H'. induction l as [|x l IH]; intros [|y l'] E' H'; cbn in E'; try congruence.
    - injection E' as <- _. cbn in H'. exfalso. apply H'. left; reflexivity.
    - injection E' as -> _. exfalso. apply H. left; reflexivity.
    - injection E' as <- E'. apply (IH (fun Hin => H (or_intror Hin)) l' E' (fun Hin => H' (or_intror Hin))).
  Qed.
  Lemma has_importance_In fi f v : has_importance fi f v -> In (f, v) fi.
  Proof. intros (l & k & -> & _). apply in_or_app. right. left. reflexivity. Qed.
  Lemma has_importance_ex fi f : In f (map fst fi) -> exists v, has_importance fi f v.
  Proof. intros H. pose proof (importance_of_spec fi f) as Hs. destruct (importance_of fi f) as [v|]; [exists v; exact Hs|]. destruct Hs. contradiction. Qed.
  Lemma has_importance_ok fi f v : has_importance fi f v -> importance_of fi f = Ok v.
  Proof.
    intros H. pose proof (importance_of_spec fi f) as Hs. destruct (importance_of fi f) as [w|]; [f_equal; apply (has_importance_fun fi f w v Hs H)|].
    destruct Hs as [_ Hs]. exfalso. apply Hs. apply in_map_iff. exists (f, v). split; [reflexivity|apply has_importance_In, H].
  Qed.

  (** [f] is a feature of some pair of the table *)
  Definition occurs (f : string) (t : table) : Prop := exists r, In r t /\ (fst (fst r) = f \/ snd (fst r) = f).
  Lemma all_features_In f (t : table) : In f (all_features t) <-> occurs f t.
  Proof.
    unfold all_features, occurs. rewrite (dedup_by_In String.eqb String.eqb_eq), in_app_iff, !in_map_iff. split.
    - intros [(r & <- & H)|(r & <- & H)]; exists r; auto.
    - intros (r & H & [E|E]); [left|right]; exists r; auto.
  Qed.

  (** the diagonal: one row per feature *)
  Lemma diag_spec ovo fi d : importance_diag ovo fi = Ok d -> forall x, In x d <-> exists f v, x = (f, f, v) /\ occurs f ovo /\ has_importance fi f v.
  Proof.
    unfold importance_diag. intros H x. apply mapM_Ok_inv in H. split.
    - intros Hx. assert (G : exists f, In f (all_features ovo) /\ (do v <- importance_of fi f; Ok (f, f, v)) = Ok x).
      { clear -H Hx. induction H as [|f y l k Hy H IH]; [destruct Hx|]. destruct Hx as [->|Hx]; [exists f; split; [left; reflexivity|exact Hy]|].
        destruct (IH Hx) as (g & Hg & E). exists g. split; [right; exact Hg|exact E]. }
      destruct G as (f & Hf & E). pose proof (importance_of_spec fi f) as Hs. destruct (importance_of fi f) as [v|]; [|discriminate]. cbn [bind] in E. exists f, v.
      split; [congruence|]. split; [apply all_features_In, Hf|exact Hs].
    - intros (f & v & -> & Hf & Hv). apply all_features_In in Hf. apply has_importance_ok in Hv.
      clear -H Hf Hv. induction H as [|g y l k Hy H IH]; [destruct Hf|]. destruct Hf as [->|Hf]; [|right; apply IH, Hf]. left. rewrite Hv in Hy. cbn [bind] in Hy. congruence.
  Qed.
  Lemma diag_total ovo fi : (forall f, occurs f ovo -> In f (map fst fi)) -> exists d, importance_diag ovo fi = Ok d.
  Proof.
    intros H. unfold importance_diag. exists (map (fun f => (f, f, match importance_of fi f with Ok v => v | Err _ => n_nan N end)) (all_features ovo)).
    apply mapM_total. intros f Hf. destruct (has_importance_ex fi f (H f (proj1 (all_features_In f ovo) Hf))) as (v & Hv). rewrite (has_importance_ok _ _ _ Hv). reflexivity.
  Qed.
  Lemma diag_missing ovo fi f : occurs f ovo -> ~ In f (map fst fi) -> importance_diag ovo fi = Err IndexError.
  Proof.
    intros Ho Hn. unfold importance_diag. destruct (mapM _ (all_features ovo)) as [d|e] eqn:E.
    - exfalso. apply mapM_Ok_inv in E. apply all_features_In in Ho. pose proof (importance_of_spec fi f) as Hs. destruct (importance_of fi f) as [v|] eqn:Ev.
      + apply Hn. apply in_map_iff. exists (f, v). split; [reflexivity|apply has_importance_In, Hs].
      + clear -E Ho Ev. induction E as [|g y l k Hy E IH]; [destruct Ho|]. destruct Ho as [->|Ho]; [rewrite Ev in Hy; discriminate|auto].
    - apply mapM_err in E as (g & _ & Eg). pose proof (importance_of_spec fi g) as Hs. destruct (importance_of fi g) as [v|e']; [discriminate|]. cbn [bind] in Eg. destruct Hs as [-> _]. congruence.
  Qed.

  Lemma all_pairs_In ovo fi directed rows : all_pairs ovo (Some fi) directed = Ok rows -> forall a b v,
    In (a, b, v) rows <-> In (a, b, v) ovo \/ (directed = false /\ In (b, a, v) ovo) \/ (a = b /\ occurs a ovo /\ has_importance fi a v).
  Proof.
    unfold all_pairs. destruct (importance_diag ovo fi) as [d|] eqn:E; [|discriminate]. cbn [bind]. intros H a b v. pose proof (diag_spec ovo fi d E (a, b, v)) as Hd.
    assert (Hr : rows = (if directed then ovo else ovo ++ map (fun r => (Visual.f2 r, Visual.f1 r, value r)) ovo) ++ d) by congruence. rewrite Hr, in_app_iff, Hd.
    assert (Hdi : (exists f w, (a, b, v) = (f, f, w) /\ occurs f ovo /\ has_importance fi f w) <-> (a = b /\ occurs a ovo /\ has_importance fi a v)).
    { split; [intros (f & w & [= -> -> ->] & H1 & H2); auto|intros (-> & H1 & H2); exists b, v; auto]. }
    rewrite Hdi. destruct directed.
    - split; [intros [H0|H0]; auto|intros [H0|[[H0 _]|H0]]; auto; discriminate].
    - rewrite in_app_iff, in_map_iff. split.
      + intros [[H0|([[x y] w] & E0 & H0)]|H0]; auto. unfold Visual.f1, Visual.f2, value in E0. cbn [fst snd] in E0. injection E0 as <- <- <-. auto.
      + intros [H0|[[_ H0]|H0]]; auto. left. right. exists (b, a, v). auto.
  Qed.

  (** with defined importances the matrix is square *)
  Lemma square ovo fi directed rows : all_pairs ovo (Some fi) directed = Ok rows -> (forall f v, In (f, v) fi -> n_isnan N v = false) ->
    pivot_index N rows = pivot_columns N rows /\ forall f, In f (pivot_index N rows) <-> occurs f ovo.
  Proof.
    intros E Hfi. pose proof (all_pairs_In ovo fi directed rows E) as Hin.
    assert (Hd : forall f, occurs f ovo -> exists v, In (f, f, v) rows /\ n_isnan N v = false).
    { intros f Hf. assert (Hv : In f (map fst fi)).
      { destruct (in_dec string_dec f (map fst fi)) as [H|H]; [exact H|]. unfold all_pairs in E. rewrite (diag_missing ovo fi f Hf H) in E. discriminate. }
      destruct (has_importance_ex fi f Hv) as (v & Hv'). exists v. split; [apply Hin; auto|]. apply (Hfi f v), has_importance_In, Hv'. }
    assert (Ho : forall a b v, In (a, b, v) rows -> occurs a ovo /\ occurs b ovo).
    { intros a b v H. apply Hin in H as [H|[[_ H]|(-> & H & _)]]; [| |auto]; split; eexists; (split; [exact H|]); cbn [fst snd]; auto. }
    assert (H1 : forall f, In f (pivot_index N rows) <-> occurs f ovo).
    { intros f. rewrite pivot_index_In. split; [intros (c & v & H & _); apply (Ho _ _ _ H)|]. intros H. destruct (Hd f H) as (v & Hv & Hn). exists f, v. auto. }
    assert (H2 : forall f, In f (pivot_columns N rows) <-> occurs f ovo).
    { intros f. rewrite pivot_columns_In. split; [intros (c & v & H & _); apply (Ho _ _ _ H)|]. intros H. destruct (Hd f H) as (v & Hv & Hn). exists f, v. auto. }
    split; [|exact H1]. unfold pivot_index, pivot_columns. apply np_unique_same. intros f.
    rewrite <- (np_unique_In Scell Scell_ok (map Visual.f1 (defined N rows)) f (Snan f)), <- (np_unique_In Scell Scell_ok (map Visual.f2 (defined N rows)) f (Snan f)).
    fold (pivot_index N rows) (pivot_columns N rows). rewrite H1, H2. reflexivity.
  Qed.
  Lemma remove1_In f l x : x <> f -> In x l -> In x (remove1 f l).
  Proof. intros Hn. induction l as [|y l IH]; intros H; [destruct H|]. cbn [remove1]. destruct (String.eqb_spec y f) as [->|Hy]; destruct H as [->|H]; [congruence|exact H|left; reflexivity|right; apply IH, H]. Qed.
  Lemma remove1_iff f l x : NoDup l -> (In x (remove1 f l) <-> In x l /\ x <> f).
  Proof.
    intros Hnd. split; [|intros [H1 H2]; apply remove1_In; assumption]. induction Hnd as [|y l Hy Hnd IH]; [intros []|]. cbn [remove1].
    destruct (String.eqb_spec y f) as [->|Hn].
    - intros H. split; [right; exact H|]. intros ->. contradiction.
    - intros [->|H]; [split; [left; reflexivity|exact Hn]|]. destruct (IH H). split; [right; assumption|assumption].
  Qed.
  Lemma assoc_diag (m : string -> string -> V) l f : In f l ->
    assoc String.eqb f (combine l (map (fun rc => m (fst rc) (snd rc)) (combine l l))) = Some (m f f).
  Proof.
    induction l as [|y l IH]; intros H; [destruct H|]. cbn [combine map assoc fst snd]. destruct (String.eqb_spec f y) as [->|Hn]; [reflexivity|]. destruct H as [->|H]; [congruence|]. apply IH, H.
  Qed.
  Lemma py_max_Ok l : l <> [] -> exists v, py_max N l = Ok v.
  Proof. destruct l as [|x t]; [congruence|]. intros _. eexists. reflexivity. Qed.

  (** with at least two features and a square matrix the rows can be ordered *)
  Lemma order_total index m asc : NoDup index -> (exists a b, In a index /\ In b index /\ a <> b) -> exists ind, order_heatmap N srt lower index index m asc = Ok ind /\ ind <> [].
  Proof.
    intros Hnd (a & b & Ha & Hb & Hab). unfold order_heatmap. rewrite Nat.ltb_irrefl.
    assert (HS : exists scores, mapM (fun f => do s <- heatmap_score N index index m f; Ok (lower f, s)) index = Ok scores).
    { assert (G : forall f, In f index -> exists s, heatmap_score N index index m f = Ok s).
      { intros f Hf. unfold heatmap_score. apply str_in_In in Hf as Hs. rewrite Hs.
        destruct (py_max_Ok (map (fun r => m r f) (remove1 f index))) as (v & ->); [|eexists; reflexivity]. intros E. apply map_eq_nil in E.
        assert (Hex : exists x, In x (remove1 f index)).
        { destruct (string_dec a f) as [->|Hn]; [exists b|exists a]; apply remove1_In; congruence. }
        destruct Hex as (x & Hx). rewrite E in Hx. destruct Hx. }
      exists (map (fun f => (lower f, match heatmap_score N index index m f with Ok s => s | Err _ => n_nan N end)) index). apply mapM_total. intros f Hf. destruct (G f Hf) as (s & ->). reflexivity. }
    destruct HS as (scores & ->). cbn [bind]. eexists. split; [reflexivity|]. intros E.
    match type of E with sort_values _ _ _ ?key _ = _ => destruct (sort_values_ok N srt asc key index Hsrt HN) as [Hp _] end. rewrite E in Hp. apply Permutation_nil in Hp. rewrite Hp in Ha. destruct Ha.
  Qed.
End Facts.
