(** C82: the order of the rows and columns of the heatmap.  C83: plots follow the direction of the
    measure. *)
From Verif Require Import Py Num NumR Sorting Frame Rng PdCalc PdMethods Perm CondDepth ForestFacts SplitScore SplitFacts SplitTables SplitImp
  Comparator Props_Compare Props_Split Props_Split2 Visual VisualFacts Props_Visual Props_Visual2 Props_Visual3 Props_Visual6.
From Coq Require Import Reals Lra QArith.
Open Scope string_scope.
Open Scope nat_scope.
Open Scope list_scope.

(** ** C82 *)

(** [m] is the largest number with the property *)
Definition largest (P : R -> Prop) (m : R) : Prop := P m /\ forall y, P y -> (y <= m)%R.
Lemma largest_fun P m m' : largest P m -> largest P m' -> m = m'.
Proof. intros [H1 H2] [H3 H4]. apply Rle_antisym; auto. Qed.

Notation tableR := (list (string * string * ext R)).
(** importance of a listed feature; value of a listed pair *)
Definition an_importance (ovo : tableR) fi (v : R) : Prop := exists g, occurs g ovo /\ has_importance fi g (Fin v).
Definition a_value (ovo : tableR) (v : R) : Prop := exists x, In x ovo /\ snd x = Fin v.
(** the strength of a feature: its importance relative to the largest one, plus its largest
    interaction relative to the largest number shown *)
Definition strength (directed : bool) (ovo : tableR) fi (f : string) (s : R) : Prop :=
  exists a A B M, has_importance fi f (Fin a) /\ largest (an_importance ovo fi) A
    /\ largest (fun v => exists x g, In x ovo /\ fills directed g f x /\ snd x = Fin v) B
    /\ largest (fun v => an_importance ovo fi v \/ a_value ovo v) M
    /\ (s = a / A + B / M)%R.
Lemma strength_fun directed ovo fi f s s' : strength directed ovo fi f s -> strength directed ovo fi f s' -> s = s'.
Proof.
  intros (a & A & B & M & H1 & H2 & H3 & H4 & ->) (a' & A' & B' & M' & H1' & H2' & H3' & H4' & ->).
  rewrite (largest_fun _ _ _ H2 H2'), (largest_fun _ _ _ H3 H3'), (largest_fun _ _ _ H4 H4'). pose proof (has_importance_fun fi f _ _ H1 H1') as E. injection E as ->. reflexivity.
Qed.

Lemma series_max_fin (l : list (ext R)) : l <> [] -> (forall x, In x l -> exists r, x = Fin r) ->
  exists m, series_max xR l = Fin m /\ largest (fun v => In (Fin v) l) m.
Proof.
  intros Hne Hf. unfold series_max. replace (filter (fun x => negb (n_isnan xR x)) l) with l.
  2:{ clear Hne. induction l as [|x l IH]; [reflexivity|]. cbn [filter]. destruct (Hf x (or_introl eq_refl)) as (r & ->). change (Fin r :: l = Fin r :: filter (fun x => negb (n_isnan xR x)) l). f_equal. apply IH. intros y Hy. apply Hf. right. exact Hy. }
  destruct l as [|x l]; [congruence|]. clear Hne. destruct (Hf x (or_introl eq_refl)) as (r & ->).
  assert (Hl : forall y, In y l -> exists r, y = Fin r) by (intros y Hy; apply Hf; right; exact Hy). clear Hf. revert r.
  induction l as [|y l IH]; intros r; cbn [fold_left].
  - exists r. split; [reflexivity|]. split; [left; reflexivity|]. intros z [E|[]]. injection E as ->. lra.
  - destruct (Hl y (or_introl eq_refl)) as (t & ->). specialize (IH (fun z Hz => Hl z (or_intror Hz))).
    assert (E : vmax2 xR (Fin r) (Fin t) = Fin (if Rltb r t then t else r)) by (unfold vmax2; cbn; destruct (Rltb r t); reflexivity). rewrite E.
    destruct (IH (if Rltb r t then t else r)) as (m & -> & Hm1 & Hm2). exists m. split; [reflexivity|].
    assert (Hb : (r <= m)%R /\ (t <= m)%R).
    { pose proof (Hm2 _ (or_introl eq_refl)) as H. destruct (Rltb r t) eqn:Eb; [apply Rltb_spec in Eb|apply Rltb_false in Eb]; lra. }
    split.
    + destruct Hm1 as [H|H]; [|right; right; exact H]. destruct (Rltb r t); [right; left|left]; exact H.
    + intros z [H|[H|H]]; [injection H as ->; tauto|injection H as ->; tauto|]. apply Hm2. right. exact H.
Qed.
Lemma py_max_fin (l : list (ext R)) : l <> [] -> (forall x, In x l -> exists r, x = Fin r) ->
  exists m, py_max xR l = Ok (Fin m) /\ largest (fun v => In (Fin v) l) m.
Proof.
  intros Hne Hf. destruct l as [|x l]; [congruence|]. clear Hne. unfold py_max. destruct (Hf x (or_introl eq_refl)) as (r & ->).
  assert (Hl : forall y, In y l -> exists r, y = Fin r) by (intros y Hy; apply Hf; right; exact Hy). clear Hf. revert r.
  induction l as [|y l IH]; intros r; cbn [fold_left].
  - exists r. split; [reflexivity|]. split; [left; reflexivity|]. intros z [E|[]]. injection E as ->. lra.
  - destruct (Hl y (or_introl eq_refl)) as (t & ->). specialize (IH (fun z Hz => Hl z (or_intror Hz))).
    assert (E : (if n_ltb xR (Fin r) (Fin t) then Fin t else Fin r) = Fin (if Rltb r t then t else r)) by (cbn; destruct (Rltb r t); reflexivity). rewrite E.
    destruct (IH (if Rltb r t then t else r)) as (m & -> & Hm1 & Hm2). exists m. split; [reflexivity|].
    assert (Hb : (r <= m)%R /\ (t <= m)%R).
    { pose proof (Hm2 _ (or_introl eq_refl)) as H. destruct (Rltb r t) eqn:Eb; [apply Rltb_spec in Eb|apply Rltb_false in Eb]; lra. }
    split.
    + destruct Hm1 as [H|H]; [|right; right; exact H]. destruct (Rltb r t); [right; left|left]; exact H.
    + intros z [H|[H|H]]; [injection H as ->; tauto|injection H as ->; tauto|]. apply Hm2. right. exact H.
Qed.
Lemma largest_ext (P Q : R -> Prop) m : (forall v, P v <-> Q v) -> largest P m -> largest Q m.
Proof. intros H [H1 H2]. split; [apply H, H1|]. intros y Hy. apply H2, H, Hy. Qed.
Lemma assoc_rev_scores {A} (lower : string -> string) (score : string -> A) index f : In f index ->
  (forall a b, In a index -> In b index -> lower a = lower b -> a = b) ->
  assoc String.eqb (lower f) (rev (map (fun g => (lower g, score g)) index)) = Some (score f).
Proof.
  intros Hf Hinj. rewrite <- map_rev. apply in_rev in Hf.
  assert (Hinj' : forall a b, In a (rev index) -> In b (rev index) -> lower a = lower b -> a = b) by (intros a b Ha Hb; apply in_rev in Ha, Hb; apply Hinj; assumption).
  clear Hinj. induction (rev index) as [|g l IH]; [destruct Hf|]. cbn [map assoc]. destruct (String.eqb_spec (lower f) (lower g)) as [E|E].
  - rewrite (Hinj' f g Hf (or_introl eq_refl) E). reflexivity.
  - destruct Hf as [->|Hf]; [congruence|]. apply IH; [exact Hf|]. intros a b Ha Hb. apply Hinj'; right; assumption.
Qed.

(** finite numbers, every pair of features listed, a positive importance, names that differ when
    written in lower case *)
Definition complete (directed : bool) (ovo : tableR) : Prop := forall r c, occurs r ovo -> occurs c ovo -> r <> c -> exists x, In x ovo /\ fills directed r c x.
Theorem C82_order_partial srt lower (ovo : tableR) fi title ia fa directed k t ic fc labels imp int : sorter_ok srt ->
  plot_heatmap xR srt lower ovo (Some fi) title ia fa directed k = Ok (PHeatmap t ic fc labels imp int) -> good_pairs directed ovo ->
  (forall x, In x ovo -> exists v, snd x = Fin v) -> (forall f v, In (f, v) fi -> exists r, v = Fin r) -> complete directed ovo ->
  (exists v, an_importance ovo fi v /\ (0 < v)%R) -> (forall f g, occurs f ovo -> occurs g ovo -> lower f = lower g -> f = g) ->
  exists score, (forall f, In f labels -> strength directed ovo fi f (score f))
    /\ forall i j f g, i < j -> nth_error labels i = Some f -> nth_error labels j = Some g -> if ia then (score f <= score g)%R else (score g <= score f)%R.
Proof.
  intros Hsrt E0 Hg Hfin Hfi Hcomp Hpos Hlow. pose proof xR_ord as HN. pose proof E0 as E1.
  destruct (C55_heatmap_partial xR srt lower Hsrt HN _ _ _ _ _ _ _ _ _ _ _ _ _ E1 Hg) as (Hnd & Hocc & Hall & _). clear E1.
  assert (Hfd : forall f v, In (f, v) fi -> n_isnan xR v = false) by (intros f v H; destruct (Hfi f v H) as (r & ->); reflexivity).
  specialize (Hall Hfd). unfold plot_heatmap in E0. destruct (all_pairs ovo (Some fi) directed) as [rows|] eqn:E; [|discriminate]. cbn [bind] in E0.
  destruct (square xR ovo fi directed rows E Hfd) as [Esq Hidx]. rewrite <- Esq in E0. set (index := pivot_index xR rows) in *.
  assert (Hni : NoDup index) by apply (np_unique_NoDup Scell Scell_ok).
  destruct (order_heatmap _ _ _ _ _ _ _) as [ind|] eqn:Eo; [|discriminate]. cbn [bind] in E0.
  assert (Hl : ind = labels) by (destruct ind as [|i0 ind0]; [discriminate|]; injection E0 as _ _ _ <- _ _; reflexivity). subst ind. clear E0.
  set (m := cell xR rows) in *.
  (* the cells *)
  assert (Hdiag : forall f, In f index -> exists a, has_importance fi f (Fin a) /\ m f f = Fin a).
  { intros f Hf. apply Hidx in Hf. assert (Hv : exists v, has_importance fi f v).
    { unfold all_pairs in E. destruct (importance_diag ovo fi) as [d|] eqn:Ed; [|discriminate].
      destruct (in_dec string_dec f (map fst fi)) as [Hin|Hin]; [apply (has_importance_ex fi f Hin)|]. rewrite (diag_missing ovo fi f Hf Hin) in Ed. discriminate. }
    destruct Hv as (v & Hv). destruct (Hfi f v (has_importance_In _ _ _ Hv)) as (a & ->). exists a. split; [exact Hv|].
    pose proof (cell_diag xR HN ovo fi directed rows f (Fin a) E Hg Hf Hv) as H. fold m in H. unfold show in H. change (n_isnan xR (Fin a)) with false in H. destruct (n_isnan xR (m f f)); congruence. }
  assert (Hoff : forall r c, In r index -> In c index -> r <> c -> exists x b, In x ovo /\ fills directed r c x /\ snd x = Fin b /\ m r c = Fin b).
  { intros r c Hr Hc Hrc. apply Hidx in Hr. apply Hidx in Hc. destruct (Hcomp r c Hr Hc Hrc) as (x & Hx & Hfx). destruct (Hfin x Hx) as (b & Hb).
    pose proof (cell_off xR HN ovo fi directed rows r c E Hg Hrc (Fin b)) as H. fold m in H. exists x, b. split; [exact Hx|]. split; [exact Hfx|]. split; [exact Hb|].
    assert (H' : show xR (m r c) = Some (Fin b)) by (apply H; split; [reflexivity|]; exists x; auto). unfold show in H'. destruct (n_isnan xR (m r c)); congruence. }
  assert (Hcell : forall r c, In r index -> In c index -> exists b, m r c = Fin b).
  { intros r c Hr Hc. destruct (string_dec r c) as [<-|Hn]; [destruct (Hdiag r Hr) as (a & _ & Ha)|destruct (Hoff r c Hr Hc Hn) as (_ & a & _ & _ & _ & Ha)]; eauto. }
  assert (Hne : index <> []).
  { destruct Hpos as (v & (g & Hgo & _) & _). apply Hidx in Hgo. destruct index; [destruct Hgo|discriminate]. }
  assert (Hdiagl : map (fun rc : string * string => m (fst rc) (snd rc)) (combine index index) = map (fun f => m f f) index).
  { clear. induction index as [|f l IH]; [reflexivity|]. cbn [combine map fst snd]. f_equal. exact IH. }
  (* largest importance *)
  destruct (series_max_fin (map (fun f => m f f) index)) as (A & EA & HA).
  { intros H. apply map_eq_nil in H. contradiction. }
  { intros x Hx. apply in_map_iff in Hx as (f & <- & Hf). apply Hcell; exact Hf. }
  assert (HA' : largest (an_importance ovo fi) A).
  { revert HA. apply largest_ext. intros v. rewrite in_map_iff. split.
    - intros (f & Hv & Hf). destruct (Hdiag f Hf) as (a & H1 & H2). exists f. split; [apply Hidx, Hf|]. congruence.
    - intros (f & Hf & Hv). apply Hidx in Hf. exists f. split; [|exact Hf]. destruct (Hdiag f Hf) as (a & H1 & H2). pose proof (has_importance_fun fi f _ _ Hv H1). congruence. }
  clear HA. assert (HA0 : (0 < A)%R) by (destruct Hpos as (v & Hv & Hv0); destruct HA' as [_ H]; specialize (H v Hv); lra).
  (* largest cell *)
  destruct (series_max_fin (flat_map (fun r => map (m r) index) index)) as (M & EM & HM).
  { destruct index as [|f0 l]; [congruence|]. discriminate. }
  { intros x Hx. apply in_flat_map in Hx as (r & Hr & Hx). apply in_map_iff in Hx as (c & <- & Hc). apply Hcell; assumption. }
  assert (HM' : largest (fun v => an_importance ovo fi v \/ a_value ovo v) M).
  { revert HM. apply largest_ext. intros v. rewrite in_flat_map. split.
    - intros (r & Hr & H). apply in_map_iff in H as (c & Hv & Hc). destruct (string_dec r c) as [<-|Hn].
      + left. destruct (Hdiag r Hr) as (a & H1 & H2). exists r. split; [apply Hidx, Hr|congruence].
      + right. destruct (Hoff r c Hr Hc Hn) as (x & b & H1 & H2 & H3 & H4). exists x. split; [exact H1|congruence].
    - intros [(f & Hf & Hv)|(x & Hx & Hv)].
      + apply Hidx in Hf. exists f. split; [exact Hf|]. apply in_map_iff. exists f. split; [|exact Hf]. destruct (Hdiag f Hf) as (a & H1 & H2). pose proof (has_importance_fun fi f _ _ Hv H1). congruence.
      + assert (H1 : In (fst (fst x)) index) by (apply Hidx; exists x; auto). assert (H2 : In (snd (fst x)) index) by (apply Hidx; exists x; auto).
        exists (fst (fst x)). split; [exact H1|]. apply in_map_iff. exists (snd (fst x)). split; [|exact H2].
        destruct (Hoff _ _ H1 H2 (proj1 Hg x Hx)) as (y & b & Hy & Hfy & Eb & ->). rewrite <- Eb, <- Hv. symmetry. apply (proj2 Hg x y (fst (fst x)) (snd (fst x)) Hx Hy); [left; auto|exact Hfy]. }
  clear HM. assert (HM0 : (0 < M)%R) by (destruct HM' as [_ H]; specialize (H A (or_introl (proj1 HA'))); lra).
  (* scores *)
  unfold order_heatmap in Eo. rewrite Nat.ltb_irrefl in Eo. destruct (mapM _ index) as [scores|] eqn:Es; [|discriminate]. cbn [bind] in Eo.
  assert (Hsc : forall f, In f index -> exists s, heatmap_score xR index index m f = Ok (Fin s) /\ strength directed ovo fi f s).
  { intros f Hf. assert (Hex : exists s, heatmap_score xR index index m f = Ok s).
    { apply mapM_Ok_inv in Es. destruct (Forall2_In_l _ _ _ _ Es Hf) as (y & _ & Hy). destruct (heatmap_score xR index index m f); [eauto|discriminate]. }
    destruct Hex as (s0 & Es0). unfold heatmap_score in Es0. cbv zeta in Es0. rewrite (assoc_diag m index f Hf), Hdiagl, EA, EM in Es0. apply str_in_In in Hf as Hb. rewrite Hb in Es0.
    destruct (Hdiag f Hf) as (a & Ha & Em). destruct (remove1 f index) as [|g0 l0] eqn:Er; [discriminate|]. rewrite <- Er in Es0.
    destruct (py_max_fin (map (fun r => m r f) (remove1 f index))) as (B & EB & HB).
    { rewrite Er. discriminate. }
    { intros x Hx. apply in_map_iff in Hx as (r & <- & Hr). apply (remove1_iff f index r Hni) in Hr as [Hr _]. apply Hcell; assumption. }
    exists (a / A + B / M)%R. split.
    - unfold heatmap_score. cbv zeta. rewrite (assoc_diag m index f Hf), Hdiagl, EA, EM, Hb, Em, EB. cbn [bind]. change (n_mul xR (Fin a) (n_ofZ xR 1)) with (Fin (a * 1)%R). change (n_mul xR (Fin B) (n_ofZ xR 1)) with (Fin (B * 1)%R).
      rewrite !xR_div_fin by lra. cbn. rewrite !Rmult_1_r. reflexivity.
    - exists a, A, B, M. split; [exact Ha|]. split; [exact HA'|]. split; [|split; [exact HM'|reflexivity]]. revert HB. apply largest_ext. intros v. rewrite in_map_iff. split.
      + intros (r & Hv & Hr). apply (remove1_iff f index r Hni) in Hr as [Hr Hn]. destruct (Hoff r f Hr Hf Hn) as (x & b & H1 & H2 & H3 & H4). exists x, r. split; [exact H1|]. split; [exact H2|congruence].
      + intros (x & r & Hx & Hfx & Hv). assert (Hr : In r index) by (apply Hidx; exists x; split; [exact Hx|]; destruct Hfx as [[H _]|(_ & _ & H)]; auto).
        assert (Hrf : r <> f) by (intros ->; apply (proj1 Hg x Hx); destruct Hfx as [[H1 H2]|(_ & H1 & H2)]; congruence).
        exists r. split; [|apply (remove1_iff f index r Hni); auto]. destruct (Hoff r f Hr Hf Hrf) as (y & b & Hy & Hfy & Eb & ->). rewrite <- Eb, <- Hv. apply (proj2 Hg y x r f); assumption. }
  set (sc := fun f => match heatmap_score xR index index m f with Ok (Fin s) => s | _ => 0%R end).
  assert (Esc : scores = map (fun f => (lower f, Fin (sc f))) index).
  { assert (H : mapM (fun f => do s <- heatmap_score xR index index m f; Ok (lower f, s)) index = Ok (map (fun f => (lower f, Fin (sc f))) index)).
    { apply mapM_total. intros f Hf. unfold sc. destruct (Hsc f Hf) as (s & -> & _). reflexivity. }
    congruence. }
  assert (HP : Permutation labels index /\ StronglySorted (fun a b => le_dir xR ia (Fin (sc a)) (Fin (sc b)) = true) labels).
  { match type of Eo with Ok (sort_values _ _ _ ?key _) = _ => destruct (sort_values_ok xR srt ia key index Hsrt HN) as [HP HS]; set (ky := key) in * end.
    assert (El : sort_values xR srt ia ky index = labels) by congruence. rewrite El in HP, HS. split; [exact HP|].
    assert (Hk : forall f, In f labels -> ky f = Fin (sc f)).
    { intros f Hf. apply (Permutation_in _ HP) in Hf. unfold ky. rewrite Esc, (assoc_rev_scores lower (fun g => Fin (sc g)) index f Hf); [reflexivity|]. intros a b Ha Hb. apply Hlow; apply Hidx; assumption. }
    clear -HS Hk. induction HS as [|a l Hl IH Ha]; constructor.
    - apply IH. intros f Hf. apply Hk. right. exact Hf.
    - rewrite Forall_forall in *. intros x Hx. rewrite <- (Hk a (or_introl eq_refl)), <- (Hk x (or_intror Hx)). apply Ha, Hx. }
  destruct HP as [HP HS]. exists sc. split.
  - intros f Hf. apply (Permutation_in _ HP) in Hf. unfold sc. destruct (Hsc f Hf) as (s & -> & H). exact H.
  - clear -HS. induction HS as [|a l Hl IH Ha]; intros i j f g Hij Hi Hj; [destruct i; discriminate|]. destruct j as [|j]; [lia|]. cbn [nth_error] in Hj. destruct i as [|i].
    + cbn [nth_error] in Hi. injection Hi as ->. rewrite Forall_forall in Ha. specialize (Ha g (nth_error_In _ _ Hj)). unfold le_dir, le_asc, le_desc in Ha. destruct ia; cbn in Ha; apply negb_true_iff, Rltb_false in Ha; exact Ha.
    + cbn [nth_error] in Hi. apply (IH i j f g); [lia|exact Hi|exact Hj].
Qed.

(** the hypotheses can be met *)
Definition hmR : tableR := [("a", "b", Fin 4%R); ("a", "c", Fin 1%R); ("b", "c", Fin 2%R)].
Definition hmfiR : list (string * ext R) := [("a", Fin 1%R); ("b", Fin 3%R); ("c", Fin 3%R)].
Lemma hm_has f v : In (f, v) hmfiR -> has_importance hmfiR f v.
Proof.
  intros [H|[H|[H|[]]]]; injection H as <- <-; [exists [], [("b", Fin 3%R); ("c", Fin 3%R)]|exists [("a", Fin 1%R)], [("c", Fin 3%R)]|exists [("a", Fin 1%R); ("b", Fin 3%R)], []];
    (split; [reflexivity|]); cbn; intuition discriminate.
Qed.
Example C82_example : good_pairs false hmR /\ (forall x, In x hmR -> exists v, snd x = Fin v) /\ (forall f v, In (f, v) hmfiR -> exists r, v = Fin r) /\ complete false hmR
  /\ (exists v, an_importance hmR hmfiR v /\ (0 < v)%R) /\ (forall f g, occurs f hmR -> occurs g hmR -> same f = same g -> f = g)
  /\ (exists labels imp int, plot_heatmap xR isort same hmR (Some hmfiR) "default" false false false (no_kwargs (V:=ext R)) = Ok (PHeatmap "Interaction matrix" "Purples" "Greens" labels imp int))
  (* 3/3 + 4/4 *)
  /\ strength false hmR hmfiR "b" 2%R.
Proof.
  split; [split|].
  - intros x [<-|[<-|[<-|[]]]]; discriminate.
  - intros x y r c [<-|[<-|[<-|[]]]] [<-|[<-|[<-|[]]]] H1 H2; unfold fills in *; cbn [fst snd] in *; try reflexivity; exfalso; intuition congruence.
  - split; [intros x [<-|[<-|[<-|[]]]]; eexists; reflexivity|]. split; [intros f v [H|[H|[H|[]]]]; injection H as <- <-; eexists; reflexivity|]. split.
    { intros r c (x & Hx & Hr) (y & Hy & Hc) Hn.
      assert (G : forall f, (exists x, In x hmR /\ (fst (fst x) = f \/ snd (fst x) = f)) -> f = "a" \/ f = "b" \/ f = "c") by (intros f (z & [<-|[<-|[<-|[]]]] & H); cbn in H; intuition congruence).
      destruct (G r (ex_intro _ x (conj Hx Hr))) as [->|[->| ->]], (G c (ex_intro _ y (conj Hy Hc))) as [->|[->| ->]]; try congruence;
        [exists ("a", "b", Fin 4%R)|exists ("a", "c", Fin 1%R)|exists ("a", "b", Fin 4%R)|exists ("b", "c", Fin 2%R)|exists ("a", "c", Fin 1%R)|exists ("b", "c", Fin 2%R)];
        (split; [cbn; auto|]); unfold fills; cbn [fst snd]; auto. }
    split; [exists 3%R; split; [|lra]; exists "b"; split; [exists ("a", "b", Fin 4%R); cbn; auto|apply hm_has; cbn; auto]|].
    split; [intros f g _ _ H; exact H|]. split.
    + destruct (plot_heatmap xR isort same hmR (Some hmfiR) "default" false false false (no_kwargs (V:=ext R))) as [p|e] eqn:E.
      * unfold plot_heatmap in E. destruct (all_pairs _ _ _) as [rows|]; [|discriminate]. cbn [bind] in E. destruct (order_heatmap _ _ _ _ _ _ _) as [ind|]; [|discriminate]. cbn [bind] in E.
        destruct ind as [|i0 ind0]; [discriminate|]. injection E as <-. do 3 eexists. reflexivity.
      * exfalso. unfold plot_heatmap in E. destruct (all_pairs hmR (Some hmfiR) false) as [rows|] eqn:Er; [|vm_compute in Er; discriminate]. cbn [bind] in E.
        assert (Hfd : forall f v, In (f, v) hmfiR -> n_isnan xR v = false) by (intros f v [H|[H|[H|[]]]]; injection H as <- <-; reflexivity).
        destruct (square xR hmR hmfiR false rows Er Hfd) as [Esq Hidx]. rewrite <- Esq in E.
        destruct (order_total xR isort same isort_ok xR_ord (pivot_index xR rows) (cell xR rows) false) as (ind & Ei & Hne).
        { apply (np_unique_NoDup Scell Scell_ok). }
        { exists "a", "b". split; [|split; [|discriminate]]; apply Hidx; exists ("a", "b", Fin 4%R); cbn; auto. }
        rewrite Ei in E. cbn [bind] in E. destruct ind; [congruence|discriminate].
    + assert (HI : forall v, an_importance hmR hmfiR v -> v = 1%R \/ v = 3%R).
      { intros v (g & _ & Hg). apply has_importance_In in Hg. destruct Hg as [H|[H|[H|[]]]]; injection H as _ H; auto. }
      assert (HV : forall x v, In x hmR -> snd x = Fin v -> (v <= 4)%R) by (intros x v [<-|[<-|[<-|[]]]] H; cbn [snd] in H; injection H as <-; lra).
      exists 3%R, 3%R, 4%R, 4%R. split; [apply hm_has; cbn; auto|]. split; [|split; [|split]].
      * split; [exists "b"; split; [exists ("a", "b", Fin 4%R); cbn; auto|apply hm_has; cbn; auto]|]. intros y Hy. destruct (HI y Hy); lra.
      * split; [exists ("a", "b", Fin 4%R), "a"; split; [cbn; auto|]; split; [left; auto|reflexivity]|]. intros y (x & g & Hx & _ & Hv). apply (HV x y Hx Hv).
      * split; [right; exists ("a", "b", Fin 4%R); split; [cbn; auto|reflexivity]|]. intros y [Hy|(x & Hx & Hv)]; [destruct (HI y Hy); lra|apply (HV x y Hx Hv)].
      * lra.
Qed.

(** a feature that is not listed together with the first of the others is put last: here c has the
    largest importance and the strongest interaction *)
Definition hm_ts : list (gtree (ext Q)) :=
  [ GSplit 0 "b" (q 5) (Some (q 4)) (GSplit 1 "c" (q 10) (Some (q 3)) (GLeaf 3) (GLeaf 4)) (GLeaf 2);
    GSplit 0 "a" (q 1) (Some (q 4)) (GSplit 1 "b" (q 2) (Some (q 3)) (GLeaf 3) (GLeaf 4)) (GLeaf 2) ].
Lemma hm_trained : trained (xgb_of hm_ts) Xgboost hm_ts (map bfs_list hm_ts). Proof. xgb_tac. Qed.
Theorem C82_missing_refuted : exists ts imp int, trained (xgb_of ts) Xgboost ts (map bfs_list ts) /\ snd (splitQ ts true) = Ok tt
  /\ ss_ovo (fst (splitQ ts true)) = Some [("b", "c", q 10); ("a", "b", q 2)] /\ ss_fi (fst (splitQ ts true)) = Some [("c", q 10); ("b", q 7); ("a", q 1)]
  /\ split_plot ts true "heatmap" "default" none = Ok (None, [PHeatmap "Interaction matrix" "Purples" "Greens" ["b"; "a"; "c"] imp int]).
Proof. exists hm_ts. do 2 eexists. split; [exact hm_trained|]. split; [vm_compute; reflexivity|]. split; [vm_compute; reflexivity|]. split; [vm_compute; reflexivity|]. vm_compute. reflexivity. Qed.

(** str.lower for ASCII names *)
Definition lower_char (c : Ascii.ascii) : Ascii.ascii := let n := Ascii.nat_of_ascii c in if (65 <=? n) && (n <=? 90) then Ascii.ascii_of_nat (n + 32) else c.
Fixpoint lower_ascii (s : string) : string := match s with EmptyString => EmptyString | String c t => String (lower_char c) (lower_ascii t) end.
(** names that only differ in case share one score: here A is the weakest feature by far (its
    pairs and its importance are the smallest) and is put before b *)
Theorem C82_case_refuted : exists (ovo : list (string * string * ext Q)) fi imp int,
  ovo = [("a", "b", q 8); ("a", "c", q 8); ("b", "c", q 4); ("A", "a", q 1); ("A", "b", q 1); ("A", "c", q 1)] /\ fi = [("a", q 9); ("b", q 5); ("c", q 2); ("A", q 1)]
  /\ plot_heatmap xQ isort lower_ascii ovo (Some fi) "default" false false false (no_kwargs (V:=ext Q)) = Ok (PHeatmap "Interaction matrix" "Purples" "Greens" ["A"; "a"; "b"; "c"] imp int).
Proof. do 4 eexists. split; [reflexivity|]. split; [reflexivity|]. vm_compute. reflexivity. Qed.

(** where smaller is stronger the weakest interaction counts: d comes first, although all features are
    equally important and a and b have the strongest interaction *)
Theorem C82_ascending_refuted : exists (ovo : list (string * string * ext Q)) fi labels imp int,
  ovo = [("a", "b", q 1); ("a", "d", q 2); ("b", "d", q 2); ("c", "d", q 3); ("b", "c", q 9); ("a", "c", q 10)] /\ fi = [("a", q 1); ("b", q 1); ("c", q 1); ("d", q 1)]
  /\ plot_heatmap xQ isort same ovo (Some fi) "default" true true false (no_kwargs (V:=ext Q)) = Ok (PHeatmap "Interaction matrix" "Purples_r" "Greens_r" ("d" :: labels) imp int).
Proof. do 5 eexists. split; [reflexivity|]. split; [reflexivity|]. vm_compute. reflexivity. Qed.

(** ** C83 *)
Section Direction.
  Context {V : Type} (N : num_ops V) (srt : sorter) (lower : string -> string).
  Definition reversed (b : bool) (c : string) : string := if b then String.append c "_r" else c.
  Notation fit := (ss_fit N srt).

  Lemma heatmap_call m d title k fig : visualize N srt lower m d "heatmap" title k = Ok fig ->
    exists labels imp int, fig = (None, [PHeatmap (if String.eqb title "default" then "Interaction matrix" else title)
        (match k_icmap (k_own k) with Some c => c | None => reversed (pd_int_asc d) "Purples" end) (match k_fcmap (k_own k) with Some c => c | None => reversed (pd_imp_asc d) "Greens" end) labels imp int]).
  Proof.
    intros E. assert (E' : (do p <- plot_heatmap N srt lower (pd_ovo d) (pd_fi d) title (pd_int_asc d) (pd_imp_asc d) (pd_directed d) (k_own k); Ok (None, [p])) = Ok fig) by (destruct m; exact E).
    destruct (plot_heatmap _ _ _ _ _ _ _ _ _ _) as [p|] eqn:Ep; [|discriminate]. cbn [bind] in E'. injection E' as <-. assert (Hp : exists t ic fc labels imp int, p = PHeatmap t ic fc labels imp int).
    { unfold plot_heatmap in Ep. destruct (all_pairs _ _ _) as [rows|]; [|discriminate]. cbn [bind] in Ep. destruct (order_heatmap _ _ _ _ _ _ _) as [ind|]; [|discriminate]. cbn [bind] in Ep.
      destruct ind; [discriminate|]. injection Ep as <-. do 6 eexists. reflexivity. }
    destruct Hp as (t & ic & fc & labels & imp & int & ->). destruct (C55_colours N srt lower _ _ _ _ _ _ _ _ _ _ _ _ _ Ep) as (-> & -> & ->).
    exists labels, imp, int. destruct (k_icmap (k_own k)), (k_fcmap (k_own k)), (pd_int_asc d), (pd_imp_asc d); reflexivity.
  Qed.
  Lemma graph_call m d title k fig : visualize N srt lower m d "graph" title k = Ok fig ->
    exists t edges nodes labels, fig = (None, [PGraph t (pd_directed d) edges nodes labels]) /\ (pd_int_asc d = true -> labels = []).
  Proof.
    intros E. assert (E' : (do p <- plot_graph N srt (graph_config_of N m) (pd_ovo d) (pd_fi d) title (pd_int_asc d) (pd_directed d) (k_own k); Ok (None, [p])) = Ok fig) by (destruct m; exact E).
    destruct (plot_graph _ _ _ _ _ _ _ _ _) as [p|] eqn:Ep; [|discriminate]. cbn [bind] in E'. injection E' as <-. unfold plot_graph in Ep.
    assert (Hp : exists t edges nodes labels, p = PGraph t (pd_directed d) edges nodes labels /\ (pd_int_asc d = true -> labels = [])).
    { destruct (pd_fi d) as [fi|]; [destruct (negb _); [discriminate|]; destruct (pd_directed d && _); [discriminate|]|]; injection Ep as <-; do 4 eexists; (split; [reflexivity|]); intros ->; reflexivity. }
    destruct Hp as (t & edges & nodes & labels & -> & H). exists t, edges, nodes, labels. auto.
  Qed.

  (** the split score: the colours are reversed for the depth metrics *)
  Theorem C83_split s arg im fm od title k fig : snd (fit s arg im fm od) = Ok tt -> ss_plot N srt lower (fst (fit s arg im fm od)) "heatmap" title k = Ok fig ->
    k_icmap (k_own k) = None -> k_fcmap (k_own k) = None ->
    exists t ic fc labels imp int, fig = (None, [PHeatmap t ic fc labels imp int])
      /\ (im = "mean_depth" -> ic = "Purples_r") /\ (im <> "mean_depth" -> ic = "Purples")
      /\ (fm = "mean_depth" \/ fm = "mean_weighted_depth" -> fc = "Greens_r") /\ (fm <> "mean_depth" -> fm <> "mean_weighted_depth" -> fc = "Greens").
  Proof.
    intros Hok E Hi Hf. unfold ss_plot in E. destruct (ss_ovo (fst (fit s arg im fm od))) as [ovo|]; [|discriminate].
    destruct (heatmap_call _ _ _ _ _ E) as (labels & imp & int & ->). clear E. cbn [pd_int_asc pd_imp_asc]. rewrite Hi, Hf.
    assert (Hm : ss_metric (fst (fit s arg im fm od)) = Some im /\ ss_fi_metric (fst (fit s arg im fm od)) = Some fm).
    { revert Hok. unfold ss_fit. destruct (match arg with Model m => unify_structure m | Handler h => Ok h end) as [h|]; [|discriminate]. cbv zeta.
      destruct (check_metrics _ _ _); [|discriminate]. destruct (full_result _ _ _) as [full|]; [|discriminate]. destruct (get_ovo _ _ _ _ _) as [o|]; [|discriminate].
      destruct (split_importance _ _ _ _ _) as [fi|]; [|discriminate]. split; reflexivity. }
    destruct Hm as [Hm1 Hm2]. unfold ss_ascending. rewrite Hm1, Hm2. do 6 eexists. split; [reflexivity|]. unfold ascending_metric, importance_ascending.
    split; [intros ->; reflexivity|]. split; [intros H; apply String.eqb_neq in H; rewrite H; reflexivity|]. split; [intros [->| ->]; reflexivity|].
    intros H1 H2. apply String.eqb_neq in H1, H2. rewrite H1, H2. reflexivity.
  Qed.
  Theorem C83_split_graph s arg im fm od title k fig : snd (fit s arg im fm od) = Ok tt -> ss_plot N srt lower (fst (fit s arg im fm od)) "graph" title k = Ok fig ->
    exists t edges nodes labels, fig = (None, [PGraph t false edges nodes labels]) /\ (im = "mean_depth" -> labels = []).
  Proof.
    intros Hok E. unfold ss_plot in E. destruct (ss_ovo (fst (fit s arg im fm od))) as [ovo|]; [|discriminate].
    destruct (graph_call _ _ _ _ _ E) as (t & edges & nodes & labels & -> & Hl). clear E. cbn [pd_int_asc pd_directed] in *. exists t, edges, nodes, labels. split; [reflexivity|]. intros ->. apply Hl.
    revert Hok. unfold ss_fit. destruct (match arg with Model m => unify_structure m | Handler h => Ok h end) as [h|]; [|discriminate]. cbv zeta.
    destruct (check_metrics _ _ _); [|discriminate]. destruct (full_result _ _ _) as [full|]; [|discriminate]. destruct (get_ovo _ _ _ _ _) as [o|]; [|discriminate].
    destruct (split_importance _ _ _ _ _) as [fi|]; [|discriminate]. reflexivity.
  Qed.
  (** conditional minimal depth: both reversed; directed graph without labels *)
  Theorem C83_forest (s : cstate V) title k fig : 
    (cmd_plot N srt lower s "heatmap" title k = Ok fig -> k_icmap (k_own k) = None -> k_fcmap (k_own k) = None ->
       exists t labels imp int, fig = (None, [PHeatmap t "Purples_r" "Greens_r" labels imp int]))
    /\ (cmd_plot N srt lower s "graph" title k = Ok fig -> exists t edges nodes, fig = (None, [PGraph t true edges nodes []])).
  Proof.
    unfold cmd_plot. destruct (cs_ovo s) as [ovo|]; [|split; discriminate]. split.
    - intros E Hi Hf. destruct (heatmap_call _ _ _ _ _ E) as (labels & imp & int & ->). rewrite Hi, Hf. do 4 eexists. reflexivity.
    - intros E. destruct (graph_call _ _ _ _ _ E) as (t & edges & nodes & labels & -> & Hl). rewrite (Hl eq_refl). do 3 eexists. reflexivity.
  Qed.
  (** the other methods: not reversed, undirected *)
  Theorem C83_agnostic {C G} kd (s : mstate C V G) (s' : Perm.sstate C V G) title k fig :
    (pd_plot N srt lower kd s "heatmap" title k = Ok fig \/ sj_plot N srt lower s' "heatmap" title k = Ok fig -> k_icmap (k_own k) = None -> k_fcmap (k_own k) = None ->
       exists t labels imp int, fig = (None, [PHeatmap t "Purples" "Greens" labels imp int]))
    /\ (pd_plot N srt lower kd s "graph" title k = Ok fig \/ sj_plot N srt lower s' "graph" title k = Ok fig -> exists t edges nodes labels, fig = (None, [PGraph t false edges nodes labels])).
  Proof.
    unfold pd_plot, sj_plot. split.
    - intros E Hi Hf. assert (E' : exists m d, visualize N srt lower m d "heatmap" title k = Ok fig /\ pd_int_asc d = false /\ pd_imp_asc d = false).
      { destruct E as [E|E]; [destruct kd|]; [destruct (m_ova s) as [o|]; [|discriminate]|destruct (m_ovo s) as [o|]; [|discriminate]|destruct (sj_ovo s') as [o|]; [|discriminate]];
          try (destruct (m_fi_obj s); [|discriminate]); do 2 eexists; (split; [exact E|]); auto. }
      destruct E' as (m & d & E' & H1 & H2). destruct (heatmap_call _ _ _ _ _ E') as (labels & imp & int & ->). rewrite Hi, Hf, H1, H2. do 4 eexists. reflexivity.
    - intros E. assert (E' : exists m d, visualize N srt lower m d "graph" title k = Ok fig /\ pd_directed d = false).
      { destruct E as [E|E]; [destruct kd|]; [destruct (m_ova s) as [o|]; [|discriminate]|destruct (m_ovo s) as [o|]; [|discriminate]|destruct (sj_ovo s') as [o|]; [|discriminate]];
          try (destruct (m_fi_obj s); [|discriminate]); do 2 eexists; (split; [exact E|]); auto. }
      destruct E' as (m & d & E' & H1). destruct (graph_call _ _ _ _ _ E') as (t & edges & nodes & labels & -> & _). rewrite H1. do 4 eexists. reflexivity.
  Qed.
End Direction.
Example C83_example : exists imp int imp' int', split_plot hm_ts true "heatmap" "default" none = Ok (None, [PHeatmap "Interaction matrix" "Purples" "Greens" ["b"; "a"; "c"] imp int])
  /\ ss_plot xQ isort same (fst (ss_fit xQ isort ss_init (Model (xgb_of hm_ts)) "mean_depth" "mean_depth" true)) "heatmap" "default" none = Ok (None, [PHeatmap "Interaction matrix" "Purples_r" "Greens_r" ["a"; "b"; "c"] imp' int']).
Proof. do 4 eexists. split; vm_compute; reflexivity. Qed.

Print Assumptions C82_order_partial.
Print Assumptions C82_missing_refuted.
Print Assumptions C82_case_refuted.
Print Assumptions C82_ascending_refuted.
Print Assumptions C83_split.
Print Assumptions C83_split_graph.
Print Assumptions C83_forest.
Print Assumptions C83_agnostic.
