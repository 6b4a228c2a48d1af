(** C55: the heatmap.  C56: accepted plots.  C46: unsupported visualizations. *)
From Verif Require Import Py Num Sorting Frame CondDepth ForestFacts SplitScore Comparator Props_Compare Visual VisualFacts.
Open Scope string_scope.
Open Scope nat_scope.
Open Scope list_scope.

(** entry of a matrix given by rows *)
Definition entry {A} (M : list (list A)) (i j : nat) : option A := match nth_error M i with Some row => nth_error row j | None => None end.
Lemma entry_map {A} (g : string -> string -> A) l i j r c : nth_error l i = Some r -> nth_error l j = Some c ->
  entry (map (fun r => map (g r) l) l) i j = Some (g r c).
Proof. intros Hi Hj. unfold entry. rewrite (map_nth_error (fun r => map (g r) l) i l Hi). apply map_nth_error, Hj. Qed.

Section Heatmap.
  Context {V : Type} (N : num_ops V) (srt : sorter) (lower : string -> string).
  Hypothesis Hsrt : sorter_ok srt.
  Hypothesis HN : num_ord_ok N.
  Notation table := (list (string * string * V)).

  (** the row is about the cell (r, c); for undirected methods in either order *)
  Definition fills (directed : bool) (r c : string) (x : string * string * V) : Prop :=
    (fst (fst x) = r /\ snd (fst x) = c) \/ (directed = false /\ fst (fst x) = c /\ snd (fst x) = r).
  (** pairs of two different features, each with one value *)
  Definition good_pairs (directed : bool) (t : table) : Prop :=
    (forall x, In x t -> fst (fst x) <> snd (fst x))
    /\ (forall x y r c, In x t -> In y t -> fills directed r c x -> fills directed r c y -> snd x = snd y).

  (** what the second heatmap shows at (r, c): the value of the pair, if listed and defined *)
  Definition shows (directed : bool) (t : table) (r c : string) (o : option V) : Prop :=
    forall v, o = Some v <-> n_isnan N v = false /\ exists x, In x t /\ fills directed r c x /\ snd x = v.

  Lemma cell_off ovo fi directed rows r c : all_pairs ovo (Some fi) directed = Ok rows -> good_pairs directed ovo -> r <> c ->
    shows directed ovo r c (show N (cell N rows r c)).
  Proof.
    intros E [Hd Hg] Hrc v. pose proof (all_pairs_In ovo fi directed rows E) as Hin.
    assert (HA : forall w, In (r, c, w) rows <-> exists x, In x ovo /\ fills directed r c x /\ snd x = w).
    { intros w. rewrite Hin. split.
      - intros [H|[[Hdir H]|(Heq & _)]]; [exists (r, c, w)|exists (c, r, w)|congruence]; (split; [exact H|]); (split; [|reflexivity]); unfold fills; cbn [fst snd]; auto.
      - intros ([[a b] w'] & H & Hf & Ew). cbn [snd] in Ew. subst w'. unfold fills in Hf. cbn [fst snd] in Hf. destruct Hf as [[-> ->]|(Hdir & -> & ->)]; auto. }
    unfold show. destruct (cell_spec N rows r c) as [([[a b] w] & Hx & Ek & Hn & ->)|[Hall ->]].
    - cbn [fst snd] in *. injection Ek as -> ->. rewrite Hn. split.
      + intros [= <-]. split; [exact Hn|]. apply HA, Hx.
      + intros (_ & y & Hy & Hf & Ev). f_equal. apply HA in Hx as (x & Hx & Hfx & Ex). rewrite <- Ex, <- Ev. apply (Hg x y r c); assumption.
    - rewrite (no_isnan_nan N HN). split; [discriminate|]. intros (Hnv & y & Hy & Hf & Ev). exfalso.
      assert (H : In (r, c, v) rows) by (apply HA; exists y; auto). specialize (Hall _ H eq_refl). cbn [snd] in Hall. congruence.
  Qed.
  Lemma cell_diag ovo fi directed rows f v : all_pairs ovo (Some fi) directed = Ok rows -> good_pairs directed ovo -> occurs f ovo -> has_importance fi f v ->
    show N (cell N rows f f) = show N v.
  Proof.
    intros E [Hd Hg] Ho Hv. pose proof (all_pairs_In ovo fi directed rows E) as Hin.
    assert (HA : forall w, In (f, f, w) rows <-> w = v).
    { intros w. rewrite Hin. split; [|intros ->; auto]. intros [H|[[_ H]|(_ & _ & H)]]; [exfalso; apply (Hd _ H); reflexivity|exfalso; apply (Hd _ H); reflexivity|].
      apply (has_importance_fun fi f w v H Hv). }
    unfold show. destruct (cell_spec N rows f f) as [([[a b] w] & Hx & Ek & Hn & ->)|[Hall ->]].
    - cbn [fst snd] in *. injection Ek as -> ->. apply HA in Hx as ->. reflexivity.
    - rewrite (no_isnan_nan N HN). pose proof (Hall (f, f, v) (proj2 (HA v) eq_refl) eq_refl) as Hnv. cbn [snd] in Hnv. rewrite Hnv. reflexivity.
  Qed.
  Lemma sub_features (ovo : table) fi directed rows a b v : all_pairs ovo (Some fi) directed = Ok rows -> In (a, b, v) rows -> occurs a ovo /\ occurs b ovo.
  Proof.
    intros E H. apply (all_pairs_In ovo fi directed rows E) in H as [H|[[_ H]|(-> & H & _)]]; [| |auto].
    - split; eexists; (split; [exact H|]); cbn [fst snd]; auto.
    - split; eexists; (split; [exact H|]); cbn [fst snd]; auto.
  Qed.

  (** what a drawn heatmap looks like *)
  Theorem C55_heatmap_partial (ovo : table) fi title ia fa directed k t ic fc labels imp int :
    plot_heatmap N srt lower ovo (Some fi) title ia fa directed k = Ok (PHeatmap t ic fc labels imp int) -> good_pairs directed ovo ->
    (* rows and columns carry the same labels, features of the table, all of them if the importances are defined *)
    NoDup labels /\ (forall f, In f labels -> occurs f ovo)
    /\ ((forall f v, In (f, v) fi -> n_isnan N v = false) -> forall f, occurs f ovo -> In f labels)
    (* the importances are on the diagonal, the interactions off the diagonal, each on its own layer *)
    /\ (forall i r, nth_error labels i = Some r -> exists v, has_importance fi r v /\ entry imp i i = Some (show N v) /\ entry int i i = Some None)
    /\ (forall i j r c, nth_error labels i = Some r -> nth_error labels j = Some c -> i <> j ->
          entry imp i j = Some None /\ exists o, entry int i j = Some o /\ shows directed ovo r c o).
  Proof.
    unfold plot_heatmap. destruct (all_pairs ovo (Some fi) directed) as [rows|] eqn:E; [|discriminate]. cbn [bind].
    destruct (order_heatmap _ _ _ _ _ _ _) as [ind|] eqn:Eo; [|discriminate]. cbn [bind]. intros H Hg.
    assert (Hp : Permutation ind (pivot_index N rows)) by (apply (order_heatmap_perm N srt lower Hsrt HN _ _ _ _ _ Eo)).
    assert (Hl : labels = ind /\ imp = map (fun r => map (fun c => if String.eqb r c then show N (cell N rows r c) else None) ind) ind
                 /\ int = map (fun r => map (fun c => if String.eqb r c then None else show N (cell N rows r c)) ind) ind).
    { destruct ind as [|i0 ind0]; [discriminate|]. set (I := i0 :: ind0) in *. injection H as _ _ _ <- <- <-. auto. }
    destruct Hl as (-> & -> & ->). clear H.
    assert (Hnd : NoDup ind) by (apply (Permutation_NoDup (Permutation_sym Hp)); apply (np_unique_NoDup Scell Scell_ok)).
    assert (Hocc : forall f, In f ind -> occurs f ovo).
    { intros f Hf. apply (Permutation_in f Hp) in Hf. apply pivot_index_In in Hf as (c & v & Hf & _). apply (sub_features _ _ _ _ _ _ _ E Hf). }
    split; [exact Hnd|]. split; [exact Hocc|]. split; [|split].
    - intros Hfi f Hf. apply (Permutation_in f (Permutation_sym Hp)). apply pivot_index_In.
      assert (Hv : exists v, has_importance fi f v).
      { unfold all_pairs in E. destruct (importance_diag ovo fi) as [d|] eqn:Ed; [|discriminate].
        destruct (in_dec string_dec f (map fst fi)) as [Hin|Hin]; [apply (has_importance_ex fi f Hin)|]. rewrite (diag_missing ovo fi f Hf Hin) in Ed. discriminate. }
      destruct Hv as (v & Hv). exists f, v. split; [|apply (Hfi f v), has_importance_In, Hv]. apply (all_pairs_In ovo fi directed rows E). auto.
    - intros i r Hi. assert (Ho : occurs r ovo) by (apply Hocc, (nth_error_In _ _ Hi)).
      assert (Hv : exists v, has_importance fi r v).
      { unfold all_pairs in E. destruct (importance_diag ovo fi) as [d|] eqn:Ed; [|discriminate].
        destruct (in_dec string_dec r (map fst fi)) as [Hin|Hin]; [apply (has_importance_ex fi r Hin)|]. rewrite (diag_missing ovo fi r Ho Hin) in Ed. discriminate. }
      destruct Hv as (v & Hv). exists v. split; [exact Hv|].
      rewrite (entry_map (fun r c => if String.eqb r c then show N (cell N rows r c) else None) ind i i r r Hi Hi),
              (entry_map (fun r c => if String.eqb r c then None else show N (cell N rows r c)) ind i i r r Hi Hi), String.eqb_refl.
      split; [f_equal; apply (cell_diag ovo fi directed rows r v E Hg Ho Hv)|reflexivity].
    - intros i j r c Hi Hj Hij. assert (Hrc : r <> c).
      { intros ->. apply Hij. apply (proj1 (NoDup_nth_error ind) Hnd i j); [apply nth_error_Some; congruence|congruence]. }
      rewrite (entry_map (fun r c => if String.eqb r c then show N (cell N rows r c) else None) ind i j r c Hi Hj),
              (entry_map (fun r c => if String.eqb r c then None else show N (cell N rows r c)) ind i j r c Hi Hj).
      apply String.eqb_neq in Hrc as Hb. rewrite Hb. split; [reflexivity|]. exists (show N (cell N rows r c)). split; [reflexivity|]. apply (cell_off ovo fi directed rows r c E Hg Hrc).
  Qed.
  (** undirected heatmaps are symmetric *)
  Theorem C55_symmetric_partial (ovo : table) fi title ia fa k t ic fc labels imp int :
    plot_heatmap N srt lower ovo (Some fi) title ia fa false k = Ok (PHeatmap t ic fc labels imp int) -> good_pairs false ovo ->
    forall i j, entry int i j = entry int j i /\ entry imp i j = entry imp j i.
  Proof.
    intros E Hg i j. destruct (C55_heatmap_partial _ _ _ _ _ _ _ _ _ _ _ _ _ E Hg) as (Hnd & _ & _ & _ & Hoff).
    assert (Hsh : forall i j, (nth_error labels i = None \/ nth_error labels j = None) -> entry int i j = None /\ entry imp i j = None).
    { unfold plot_heatmap in E. destruct (all_pairs _ _ _) as [rows|]; [|discriminate]. cbn [bind] in E. destruct (order_heatmap _ _ _ _ _ _ _) as [ind|]; [|discriminate]. cbn [bind] in E.
      destruct ind as [|i0 ind0]; [discriminate|]. set (I := i0 :: ind0) in *.
      assert (Hl : I = labels /\ imp = map (fun r => map (fun c => if String.eqb r c then show N (cell N rows r c) else None) I) I
                   /\ int = map (fun r => map (fun c => if String.eqb r c then None else show N (cell N rows r c)) I) I).
      { injection E as _ _ _ <- <- <-. auto. }
      destruct Hl as (<- & -> & ->). clear. intros i j H. unfold entry. rewrite !nth_error_map.
      destruct (nth_error I i) as [r|]; cbn [option_map]; [|auto]. destruct H as [H|H]; [discriminate|]. rewrite !nth_error_map, H. auto. }
    destruct (nth_error labels i) as [r|] eqn:Hi; [|destruct (Hsh i j (or_introl Hi)) as [-> ->]; destruct (Hsh j i (or_intror Hi)) as [-> ->]; auto].
    destruct (nth_error labels j) as [c|] eqn:Hj; [|destruct (Hsh i j (or_intror Hj)) as [-> ->]; destruct (Hsh j i (or_introl Hj)) as [-> ->]; auto].
    destruct (Nat.eq_dec i j) as [->|Hij]; [auto|].
    destruct (Hoff i j r c Hi Hj Hij) as (-> & o & -> & Ho). destruct (Hoff j i c r Hj Hi (not_eq_sym Hij)) as (-> & o' & -> & Ho'). split; [|reflexivity]. f_equal.
    assert (Hs : forall v, o = Some v <-> o' = Some v).
    { intros v. rewrite (Ho v), (Ho' v). unfold fills. split; intros (Hn & x & Hx & Hf & Ev); (split; [exact Hn|]); exists x; (split; [exact Hx|]); (split; [|exact Ev]);
        (destruct Hf as [[H1 H2]|(_ & H1 & H2)]; [right; auto|left; auto]). }
    destruct o as [v|]; [symmetry; apply Hs; reflexivity|]. destruct o' as [v|]; [|reflexivity]. discriminate (proj2 (Hs v) eq_refl).
  Qed.
  (** colour maps: reversed where smaller is stronger, unless given *)
  Theorem C55_colours ovo fi title ia fa directed k t ic fc labels imp int :
    plot_heatmap N srt lower ovo fi title ia fa directed k = Ok (PHeatmap t ic fc labels imp int) ->
    ic = match k_icmap k with Some c => c | None => if ia then "Purples_r" else "Purples" end
    /\ fc = match k_fcmap k with Some c => c | None => if fa then "Greens_r" else "Greens" end
    /\ t = (if String.eqb title "default" then "Interaction matrix" else title).
  Proof.
    unfold plot_heatmap. destruct (all_pairs _ _ _) as [rows|]; [|discriminate]. cbn [bind]. destruct (order_heatmap _ _ _ _ _ _ _) as [ind|]; [|discriminate]. cbn [bind].
    destruct ind as [|i0 ind0]; [discriminate|]. intros H. injection H as <- <- <- _ _ _. split; [destruct (k_icmap k), ia; reflexivity|]. split; [destruct (k_fcmap k), fa; reflexivity|reflexivity].
  Qed.
End Heatmap.

Print Assumptions C55_heatmap_partial.
Print Assumptions C55_symmetric_partial.
Print Assumptions C55_colours.
