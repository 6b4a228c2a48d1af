(** C119: the interaction graph of a fitted model agnostic method, from the input of [fit] to the
    edges, labels and nodes. *)
From Verif Require Import Py Num NumR Sorting Frame Rng PdCalc PdSpec PdFacts PdProofs PdTheorems PdErrors PdApi PdMethods MethodSpec
  PdMethodFacts PdMethodRun PdMethodReal PdMethodReal2 GreenwellFacts Props_Pd Props_Methods Props_Methods2 Perm PermFacts PermRun Props_Perm SplitScore Comparator Props_Split Props_Compare
  Visual VisualFacts Props_Visual Props_Visual2 Props_Visual3 Props_Visual4 Props_Visual5 Compared Props_Zen Props_Zen2 Props_EndToEnd Props_EndToEnd2.
From Coq Require Import Reals Lra.
Notation included := Props_Perm.included.
Open Scope string_scope.
Open Scope nat_scope.
Open Scope list_scope.

(** ** Specification: a graph of the features [fs] whose pairs have the values [val]; [thr] is the
    threshold of relevance, [w] the largest width, [n] the number of labels *)
Section Spec.
  Context (fs : list string) (val : string -> string -> ext R -> Prop) (thr w : R) (n : nat).
  Notation edge := (string * string * ext R)%type.
  Notation of r := (val (fst (fst r)) (snd (fst r))).

  Record graph_shows (edges labels : list edge) : Prop := {
    (* one edge per pair, within the range of widths, which is used; irrelevant pairs get the thinnest *)
    sh_pairs : lists_pairs fs edges;
    sh_range : forall r, In r edges -> exists x u, of r (Fin x) /\ snd r = Fin u /\ (0 <= u <= w)%R /\ (x < thr -> u = 0)%R;
    sh_used : exists r, In r edges /\ snd r = Fin w;
    (* stronger pairs are never thinner, and thicker if relevant *)
    sh_order : forall r1 r2 x1 x2 u1 u2, In r1 edges -> In r2 edges -> of r1 (Fin x1) -> of r2 (Fin x2) -> snd r1 = Fin u1 -> snd r2 = Fin u2 ->
                 ((x1 <= x2 -> u1 <= u2) /\ (thr <= x1 -> x1 < x2 -> 0 < w -> u1 < u2))%R;
    (* the labels are values of relevant pairs, at most [n], strongest first; pairs without label are not stronger *)
    sh_labels : forall r, In r labels -> exists x, of r (Fin x) /\ snd r = Fin x /\ (0 < x)%R /\ (thr <= x)%R;
    sh_sorted : StronglySorted (fun a b => n_ltb xR (snd a) (snd b) = false) labels;
    sh_once : one_edge_each false labels;
    sh_number : length labels <= n;
    sh_rest : forall f1 f2 x, In f1 fs -> In f2 fs -> f1 <> f2 -> val f1 f2 (Fin x) -> (0 < x)%R -> (thr <= x)%R ->
                (exists r, In r labels /\ about f1 f2 r) \/ (length labels = n /\ forall r y, In r labels -> snd r = Fin y -> (x <= y)%R) }.
End Spec.

(** ** From the table of pairs to the graph *)
Definition strip (r : string * string * ext R) : string * string * option R := (fst r, match snd r with Fin x => Some x | _ => None end).
Lemma strip_values t : (forall r, In r t -> exists x, snd r = Fin x) -> with_values (map strip t) = t.
Proof.
  intros H. unfold with_values. rewrite map_map. rewrite <- (map_id t) at 2. apply map_ext_in. intros [p v] Hr. destruct (H _ Hr) as (x & E). cbn in E. subst v. reflexivity.
Qed.
Lemma strip_listed t x : listed (map strip t) x <-> exists r, In r t /\ snd r = Fin x.
Proof.
  unfold listed. split.
  - intros (p & H). apply in_map_iff in H as ([q v] & E & H). unfold strip in E. cbn in E. destruct v; try discriminate. injection E as <- <-. eauto.
  - intros ([p v] & H & E). cbn in E. subst v. exists p. apply in_map_iff. exists (p, Fin x). auto.
Qed.
Lemma lists_pairs_once {V} fs (t : list (string * string * V)) : NoDup fs -> lists_pairs fs t -> one_edge_each false t.
Proof.
  intros Hnd (l & HP & HF).
  assert (HL : ForallOrdPairs (fun a b => ~ same_pair false a b) l).
  { assert (HC : ForallOrdPairs (fun a b => ~ same_pair false a b) (combinations2 fs)).
    { clear -Hnd. induction fs as [|f fs IH]; [constructor|]. inversion Hnd as [|? ? Hf Hnd']; subst. cbn [combinations2].
      assert (Hin : forall p, In p (combinations2 fs) -> fst p <> f /\ snd p <> f) by (intros p Hp; apply combinations2_In in Hp as [A B]; split; intros E; rewrite E in *; contradiction).
      assert (HA : forall gs, (forall x, In x gs -> x <> f) -> NoDup gs -> ForallOrdPairs (fun a b => ~ same_pair false a b) (map (fun y => (f, y)) gs ++ combinations2 fs)).
      { induction gs as [|x gs IHg]; intros Hg Hn; [apply IH, Hnd'|]. cbn [map app]. inversion Hn as [|? ? Hx Hn']; subst. constructor; [|apply IHg; [intros; apply Hg; right; assumption|exact Hn']].
        rewrite Forall_app, !Forall_forall. split.
        - intros p Hp. apply in_map_iff in Hp as (y & <- & Hy). unfold same_pair. cbn [fst snd]. intros [E|[_ E]]; injection E as E1; [subst; contradiction|]. apply (Hg y); [right; exact Hy|congruence].
        - intros p Hp. destruct (Hin p Hp) as [A B]. unfold same_pair. intros [E|[_ E]]; destruct p; cbn [fst snd] in *; injection E as E1 E2; subst; auto. }
      apply HA; [intros x Hx ->; contradiction|exact Hnd']. }
    clear -HC HF. revert HC. induction HF as [|p q ps qs Hq HF IH]; intros HC; [constructor|]. inversion HC as [|? ? Hp HC']; subst. constructor; [|apply IH, HC'].
    rewrite Forall_forall in *. intros q' Hq' Hsp. destruct (Forall2_In_r _ _ _ HF _ Hq') as (p' & Hp' & Eq). apply (Hp p' Hp').
    apply (same_pair_trans _ q); [|apply (same_pair_trans _ q'); [exact Hsp|]]; unfold same_pair; [destruct Hq as [->| ->]|destruct Eq as [->| ->]]; cbn [fst snd]; destruct p, p'; auto. }
  assert (HM : ForallOrdPairs (fun a b => ~ same_pair false a b) (map fst t)).
  { refine (FOP_perm _ _ _ _ (Permutation_sym HP) HL). intros x y Hxy Hyx. apply Hxy, same_pair_sym, Hyx. }
  clear -HM. unfold one_edge_each. induction t as [|r t IH]; [constructor|]. cbn [map] in HM. inversion HM as [|? ? Hr Ht]; subst. constructor; [|apply IH, Ht].
  rewrite Forall_forall in *. intros y Hy. apply Hr, in_map, Hy.
Qed.
Lemma lists_pairs_map {V W} fs (t : list (string * string * V)) (u : list (string * string * W)) : map fst t = map fst u -> lists_pairs fs t -> lists_pairs fs u.
Proof. intros E (l & HP & HF). exists l. rewrite <- E. auto. Qed.

Lemma FOP_sub {A} (P : A -> A -> Prop) (f : A -> bool) n l : ForallOrdPairs P l -> ForallOrdPairs P (firstn n (filter f l)).
Proof.
  intros H. assert (HF : ForallOrdPairs P (filter f l)).
  { induction H as [|x l Hx H IH]; [constructor|]. cbn [filter]. destruct (f x); [|exact IH]. constructor; [|exact IH]. rewrite Forall_forall in *. intros y Hy. apply filter_In in Hy as [Hy _]. auto. }
  clear H. revert n. induction HF as [|x l' Hx H IH]; intros [|n]; try constructor; [|apply IH]. rewrite Forall_forall in *. intros y Hy. apply Hx. rewrite <- (firstn_skipn n). apply in_or_app. left. exact Hy.
Qed.
Lemma labels_once srt cfg fs (t : list (string * string * ext R)) fi title k ti d edges nodes labels : sorter_ok srt -> NoDup fs -> lists_pairs fs t ->
  plot_graph xR srt cfg t (Some fi) title false false k = Ok (PGraph ti d edges nodes labels) -> one_edge_each false labels.
Proof.
  intros Hs Hd HL E. unfold plot_graph in E. destruct (negb _); [discriminate|]. cbn [andb] in E. injection E as _ _ _ _ <-.
  unfold edge_labels. apply FOP_sub. set (u := filter_insignificant _ _ _ _).
  assert (Hu : one_edge_each false u) by (apply (one_edge_map false t); [unfold u, filter_insignificant, on_values; rewrite map_map; reflexivity|exact (lists_pairs_once fs t Hd HL)]).
  destruct (sort_values_ok xR srt false value u Hs xR_ord) as [HP _]. refine (FOP_perm _ _ _ _ (Permutation_sym HP) Hu). intros a b Hab Hba. apply Hab, same_pair_sym, Hba.
Qed.

Lemma graph_of_table srt cfg fs (t : list (string * string * ext R)) fi (val : string -> string -> ext R -> Prop) title k p thr w x y f1 f2 g1 g2 :
  sorter_ok srt -> NoDup fs -> lists_pairs fs t -> (forall r, In r t -> val (fst (fst r)) (snd (fst r)) (snd r)) ->
  (forall a b v, val a b v -> val b a v) -> (forall a b v v', val a b v -> val a b v' -> v = v') ->
  (forall a b v, In a fs -> In b fs -> a <> b -> val a b v -> exists z, v = Fin z) ->
  plot_graph xR srt cfg t (Some fi) title false false k = Ok p ->
  pop (k_threshold k) (g_threshold cfg) = Fin thr -> pop (k_width k) (g_width cfg) = Fin w -> (0 <= thr)%R -> (0 <= w)%R ->
  In f1 fs -> In f2 fs -> f1 <> f2 -> val f1 f2 (Fin x) -> (thr <= x)%R -> x <> 0%R -> In g1 fs -> In g2 fs -> g1 <> g2 -> val g1 g2 (Fin y) -> y <> x ->
  exists edges labels, p = PGraph (pick_title title "Interaction graph") false edges (Some fi) labels
    /\ graph_shows fs val thr w (match k_nlabels k with Some n => n | None => g_nlabels cfg end) edges labels.
Proof.
  intros Hs Hd HL Hv Hsym Huniq Hfin E Et Ew Ht Hw F1 F2 F12 Vx Rx Nx G1 G2 G12 Vy Ny.
  assert (Hf : forall r, In r t -> exists z, snd r = Fin z) by (intros r Hr; destruct (lists_pairs_In _ t r Hd HL Hr) as (A & B & D); exact (Hfin _ _ _ A B D (Hv r Hr))).
  assert (Hp : exists edges labels, p = PGraph (pick_title title "Interaction graph") false edges (Some fi) labels).
  { clear -E. unfold plot_graph in E. destruct (negb _); [discriminate|]. cbn [andb] in E. injection E as <-. eauto. }
  destruct Hp as (edges & labels & ->). exists edges, labels. split; [reflexivity|].
  assert (Hrow : forall a b z, In a fs -> In b fs -> a <> b -> val a b (Fin z) -> exists r, In r t /\ about a b r /\ snd r = Fin z).
  { intros a b z A B D Vz. destruct (lists_pairs_all _ t a b HL A B D) as (r & Hr & Hab). exists r. split; [exact Hr|]. split; [exact Hab|].
    specialize (Hv r Hr). destruct Hab as [[E1 E2]|[E1 E2]]; rewrite E1, E2 in Hv; [|apply Hsym in Hv]; exact (Huniq _ _ _ _ Hv Vz). }
  assert (Hlx : listed (map strip t) x) by (apply strip_listed; destruct (Hrow _ _ _ F1 F2 F12 Vx) as (r & Hr & _ & Er); eauto).
  assert (Hly : listed (map strip t) y) by (apply strip_listed; destruct (Hrow _ _ _ G1 G2 G12 Vy) as (r & Hr & _ & Er); eauto).
  pose proof E as E'. rewrite <- (strip_values t Hf) in E'.
  assert (Hone : one_edge_each false (map strip t)) by (apply (one_edge_map false t); [rewrite map_map; reflexivity|exact (lists_pairs_once fs t Hd HL)]).
  destruct (C57_widths_partial srt cfg (map strip t) (Some fi) title false k _ _ _ _ _ thr w x y E' Et Ew Hone Hw (or_introl Ht) Hlx Rx Nx Hly Ny) as (width & He & W1 & (zw & Hzw & Ezw) & _ & W3 & W4 & W5).
  rewrite map_map in He.
  assert (Hedge : forall r, In r edges -> exists r0 z, In r0 t /\ fst r = fst r0 /\ snd r0 = Fin z /\ snd r = Fin (width z) /\ val (fst (fst r)) (snd (fst r)) (Fin z)).
  { intros r Hr. rewrite He in Hr. apply in_map_iff in Hr as (r0 & <- & Hr0). destruct (Hf r0 Hr0) as (z & Ez). exists r0, z. pose proof (Hv r0 Hr0) as Hv0. rewrite Ez in Hv0.
    unfold strip. cbn [fst snd]. rewrite Ez. cbn. auto. }
  pose proof (C74_labels xR srt Hs xR_ord cfg t (Some fi) title false k _ _ _ _ _ x0 E) as (L1 & L2 & L3 & L4).
  assert (Et2 : match k_threshold k with Some t0 => t0 | None => g_threshold cfg end = Fin thr) by exact Et. rewrite Et2 in L1, L4.
  constructor.
  - apply (lists_pairs_map fs t); [rewrite He, map_map; reflexivity|exact HL].
  - intros r Hr. destruct (Hedge r Hr) as (r0 & z & Hr0 & _ & Ez & Ew' & Vz). exists z, (width z). assert (Hlz : listed (map strip t) z) by (apply strip_listed; eauto).
    split; [exact Vz|]. split; [exact Ew'|]. split; [apply W1, Hlz|]. intros Hz. apply W5; [exact Hlz|]. cbn. lra.
  - apply strip_listed in Hzw as (r0 & Hr0 & E0). exists (fst r0, Fin w). split; [|reflexivity]. rewrite He. apply in_map_iff. exists r0. split; [|exact Hr0]. unfold strip. cbn [fst snd]. rewrite E0. cbn. rewrite Ezw. reflexivity.
  - intros r1 r2 x1 x2 u1 u2 H1 H2 V1 V2 U1 U2. destruct (Hedge r1 H1) as (r01 & z1 & Hr1 & _ & Ez1 & Ew1 & Vz1). destruct (Hedge r2 H2) as (r02 & z2 & Hr2 & _ & Ez2 & Ew2 & Vz2).
    pose proof (Huniq _ _ _ _ V1 Vz1) as Q1. pose proof (Huniq _ _ _ _ V2 Vz2) as Q2. injection Q1 as ->. injection Q2 as ->. rewrite U1 in Ew1. rewrite U2 in Ew2. injection Ew1 as ->. injection Ew2 as ->.
    assert (Hl1 : listed (map strip t) z1) by (apply strip_listed; eauto). assert (Hl2 : listed (map strip t) z2) by (apply strip_listed; eauto).
    split; [intros; apply W3; assumption|intros; apply W4; assumption].
  - intros r Hr. destruct (L1 r Hr) as (Hr0 & Hpos & Hrel). destruct (Hf r Hr0) as (z & Ez). pose proof (Hv r Hr0) as Hv0. rewrite Ez in Hv0, Hpos, Hrel. exists z. split; [exact Hv0|]. split; [exact Ez|].
    change (Rltb 0 z = true) in Hpos. change (Rltb z thr = false) in Hrel. apply Rltb_spec in Hpos. apply Rltb_false in Hrel. lra.
  - exact L2.
  - apply (labels_once srt cfg fs t fi title k _ _ _ _ _ Hs Hd HL E).
  - exact L3.
  - intros a b z A B D Vz Pz Rz. destruct (Hrow a b z A B D Vz) as (r & Hr & Hab & Ez). destruct (L4 r) as [H|[H1 H2]].
    + split; [exact Hr|]. rewrite Ez. split; [apply Rltb_spec; exact Pz|apply Rltb_false; lra].
    + left. eauto.
    + right. split; [exact H1|]. intros r' y' Hr' Ey'. specialize (H2 r' Hr'). rewrite Ez, Ey' in H2. change (Rltb y' z = false) in H2. apply Rltb_false in H2. lra.
Qed.

(** the value of a keyword, or its default *)
Definition asked (o : option (ext R)) (dflt x : R) : Prop := match o with Some v => v = Fin x | None => x = dflt end.
(** some pair of [fs] is relevant, another one differs *)
Definition contrast (fs : list string) (val : string -> string -> ext R -> Prop) (thr : R) : Prop :=
  exists f1 f2 g1 g2 x y, In f1 fs /\ In f2 fs /\ f1 <> f2 /\ val f1 f2 (Fin x) /\ (thr <= x)%R /\ x <> 0%R
    /\ In g1 fs /\ In g2 fs /\ g1 <> g2 /\ val g1 g2 (Fin y) /\ y <> x.
Lemma asked_pop o cfg dflt x : asked o dflt x -> cfg = Fin dflt -> pop o cfg = Fin x.
Proof. unfold asked, pop. destruct o; intros; subst; congruence. Qed.

Section EndToEnd.
  Context {C G : Type} (O : cell_ops C) (HO : cell_ok O) (Rg : rng_ops G) (HR : rng_ok Rg) (srt : sorter) (Hs : sorter_ok srt) (lower : string -> string).

  (** partial dependence methods: threshold 0.05, width 20 and 5 labels by default *)
  Theorem C119_dependence k s a h X title kw thr w : input O Rg k s a h X -> (forall norm, k = Friedman norm -> a_ova a = true) -> usable kw ->
    asked (k_threshold (k_own kw)) (5 / 100) thr -> asked (k_width (k_own kw)) 20 w -> (0 <= thr)%R -> (0 <= w)%R ->
    (k = Friedman true -> forall f1 f2 v, In f1 (fitted_features a) -> In f2 (fitted_features a) -> f1 <> f2 -> pair_value O h X k f1 f2 v -> exists z, v = Fin z) ->
    contrast (fitted_features a) (pair_value O h X k) thr ->
    exists s' edges nodes labels, PdMethods.fit O xR Rg srt k s a = (s', Ok tt)
      /\ pd_plot xR srt lower k s' "graph" title kw = Ok (None, [PGraph (if String.eqb title "default" then "Interaction graph" else title) false edges (Some nodes) labels])
      /\ graph_shows (fitted_features a) (pair_value O h X k) thr w (match k_nlabels (k_own kw) with Some n => n | None => 5 end) edges labels
      /\ Permutation (map fst nodes) (fitted_features a) /\ (forall f v, In (f, v) nodes -> importance_value O h X f v).
  Proof.
    intros Hin Hova Hu At Aw Ht Hw Hfin (f1 & f2 & g1 & g2 & x & y & F1 & F2 & F12 & Vx & Rx & Nx & G1 & G2 & G12 & Vy & Ny).
    destruct (fit_output O HO Rg HR srt Hs k s a h X Hin) as (s' & t & fi & E & HwX & [Et Efi HL Hv _ HP Himp Ho]).
    pose proof (fit_obj O xR Rg srt k s a s' E) as Hobj. destruct Hin as [Hf _ _ _ _ Hd Hcol H2 _].
    assert (Hpl : exists f, pd_plot xR srt lower k s' "graph" title kw = Ok f /\ snd f <> []).
    { destruct k as [norm|]; [apply (C56_friedman_partial O xR Rg srt lower Hs xR_ord x0 norm s a)|apply (C56_greenwell_partial O xR Rg srt lower Hs xR_ord x0 s a)]; eauto; cbn; tauto. }
    assert (Hov : exists ova, forall norm, k = Friedman norm -> m_ova s' = Some ova).
    { destruct k as [norm|]; [|exists []; discriminate]. destruct (Ho norm eq_refl (Hova norm eq_refl)) as (ova & Eo & _). exists ova. intros _ _. exact Eo. }
    destruct Hov as (ova & Hov). pose proof (plot_data_of srt lower k s' t fi ova "graph" title kw Et Efi Hobj Hov) as Epl. rewrite Epl in Hpl. destruct Hpl as (f & Ef & _).
    pose (cfg := graph_config_of xR (match k with Friedman _ => HStatistic | Greenwell => VariableInteraction end)).
    assert (Ef' : (do p <- plot_graph xR srt cfg t (Some fi) title false false (k_own kw); Ok (None, [p])) = Ok f) by (rewrite <- Ef; destruct k; reflexivity).
    destruct (plot_graph xR srt cfg t (Some fi) title false false (k_own kw)) as [p|] eqn:Ep; [|discriminate]. cbn [bind] in Ef'. injection Ef' as <-.
    assert (Ct : g_threshold cfg = Fin (5 / 100)%R) by (destruct k; apply xR_div_fin; lra).
    assert (Cw : g_width cfg = Fin 20%R) by (destruct k; reflexivity).
    assert (Cn : g_nlabels cfg = 5) by (destruct k; reflexivity).
    assert (Hfin' : forall f1 f2 v, In f1 (fitted_features a) -> In f2 (fitted_features a) -> f1 <> f2 -> pair_value O h X k f1 f2 v -> exists z, v = Fin z).
    { intros b1 b2 v A B D V. destruct k as [[|]|]; [exact (Hfin eq_refl b1 b2 v A B D V)| |]; destruct V as (p1 & p2 & _ & -> & _); eexists; reflexivity. }
    destruct (graph_of_table srt cfg (fitted_features a) t fi (pair_value O h X k) title (k_own kw) p thr w x y f1 f2 g1 g2 Hs Hd HL Hv) as (edges & labels & -> & Hshow); try assumption.
    - intros b1 b2 v. apply pair_value_sym.
    - intros b1 b2 v v'. apply pair_value_unique. apply HwX.
    - exact (asked_pop _ _ _ _ At Ct).
    - exact (asked_pop _ _ _ _ Aw Cw).
    - exists s', edges, fi, labels. split; [exact E|]. split; [rewrite Epl, Ef; unfold pick_title; reflexivity|]. rewrite Cn in Hshow. split; [exact Hshow|]. split; [exact HP|exact Himp].
  Qed.

  (** performance based method: threshold 0.1, width 20 and 5 labels by default *)
  Theorem C119_performance c (s : Perm.sstate C (ext R) G) a h X ys g e title kw thr w : sj_input Rg s a h X ys g -> usable kw ->
    asked (k_threshold (k_own kw)) (1 / 10) thr -> asked (k_width (k_own kw)) 20 w -> (0 <= thr)%R -> (0 <= w)%R ->
    contrast (included a) (oh_pair Rg c h X ys (sa_repeat a) (included a) g) thr ->
    exists s' log edges nodes labels, sj_fit xR Rg srt (scoring_metric c) e s a = (s', Ok tt, log)
      /\ sj_plot xR srt lower s' "graph" title kw = Ok (None, [PGraph (if String.eqb title "default" then "Interaction graph" else title) false edges (Some nodes) labels])
      /\ graph_shows (included a) (oh_pair Rg c h X ys (sa_repeat a) (included a) g) thr w (match k_nlabels (k_own kw) with Some n => n | None => 5 end) edges labels
      /\ Permutation (map fst nodes) (included a) /\ (forall f v, In (f, v) nodes -> oh_importance Rg c h X ys (sa_repeat a) (included a) e f v).
  Proof.
    intros Hin Hu At Aw Ht Hw (f1 & f2 & g1 & g2 & x & y & F1 & F2 & F12 & Vx & Rx & Nx & G1 & G2 & G12 & Vy & Ny).
    destruct (sj_fit_output Rg HR srt Hs c s a h X ys g e Hin) as (s' & t & fi & log & E & HwX & [Et Efi HL Hv _ HP Himp]). destruct Hin as [Hf _ _ _ _ _ Hd Hcol H2].
    assert (Hnn : forall f v, In (f, v) fi -> n_isnan xR v = false) by (intros f v Hw'; destruct (Himp f v Hw') as (k & p & _ & _ & ->); reflexivity).
    destruct (C56_sejong_partial xR Rg srt lower Hs xR_ord (scoring_metric c) e s a s' log t fi "graph" title kw E Hd H2 Et Efi (or_introl Hnn) Hu) as (f & Ef & _); [cbn; tauto|].
    pose proof Ef as Ef0. unfold sj_plot in Ef0. rewrite Et, Efi in Ef0. pose (cfg := graph_config_of xR PerformanceBased).
    assert (Ef' : (do p <- plot_graph xR srt cfg t (Some fi) title false false (k_own kw); Ok (None, [p])) = Ok f) by (rewrite <- Ef0; reflexivity).
    destruct (plot_graph xR srt cfg t (Some fi) title false false (k_own kw)) as [p|] eqn:Ep; [|discriminate]. cbn [bind] in Ef'. injection Ef' as <-.
    assert (Ct : g_threshold cfg = Fin (1 / 10)%R) by (apply xR_div_fin; lra).
    destruct (graph_of_table srt cfg (included a) t fi (oh_pair Rg c h X ys (sa_repeat a) (included a) g) title (k_own kw) p thr w x y f1 f2 g1 g2 Hs Hd HL Hv) as (edges & labels & -> & Hshow); try assumption.
    - intros b1 b2 v. apply oh_pair_sym.
    - intros b1 b2 v v'. apply oh_pair_unique; [apply HwX|exact Hd].
    - intros b1 b2 v _ _ _ (i & a0 & b0 & p1 & p2 & _ & _ & _ & _ & ->). eexists; reflexivity.
    - exact (asked_pop _ _ _ _ At Ct).
    - exact (asked_pop _ _ _ _ Aw eq_refl).
    - exists s', log, edges, fi, labels. split; [exact E|]. split; [rewrite Ef; reflexivity|]. split; [exact Hshow|]. split; [exact HP|exact Himp].
  Qed.
End EndToEnd.

(** ** Examples: b * c + a * c, whose pair (a, c) has H = 1/28 and (a, b) has H = 0 *)
Lemma ex_H0 : statistic Zcell rh rX (Friedman true) 0 1 = Fin 0%R.
Proof.
  unfold statistic, Hstat. match goal with |- (if Req_EM_T ?x 0 then if Req_EM_T ?y 0 then _ else _ else _) = _ => assert (Ey : y = 0%R); [|rewrite Ey] end.
  - unfold own2, own1, PD1, PD2, Rmean, Rsum, rh, rpart. cbn. unfold Rsqr. field.
  - destruct (Req_EM_T _ 0) as [_|Hne]; [destruct (Req_EM_T 0 0) as [_|H]; [reflexivity|exfalso; lra]|]. f_equal. field. exact Hne.
Qed.
Definition low : all_kwargs (V := ext R) :=
  {| k_own := {| k_title := None; k_top := None; k_width := None; k_threshold := Some (Fin (1 / 100)%R); k_nlabels := None; k_icmap := None; k_fcmap := None;
                 k_max_trees := None; k_max_depth := None; k_label_threshold := None; k_labels := None |};
     k_heatmap := None; k_graph := None; k_ovo := None; k_ova := None |}.
Lemma ex_finite f1 f2 v : In f1 (fitted_features (rargs rh true)) -> In f2 (fitted_features (rargs rh true)) -> f1 <> f2 -> pair_value Zcell rh rX (Friedman true) f1 f2 v -> exists z, v = Fin z.
Proof.
  intros _ _ _ (p & q & Hpq & -> & H). assert (Hq : q < 3) by (change 3 with (length (f_cols rX)); apply nth_error_Some; destruct H as [[_ H]|[_ H]]; congruence).
  assert (E : (p = 0 /\ q = 1) \/ (p = 0 /\ q = 2) \/ (p = 1 /\ q = 2)) by lia. destruct E as [[-> ->]|[[-> ->]|[-> ->]]]; [rewrite ex_H0; eauto|rewrite ex_H; eauto|].
  unfold statistic, Hstat. match goal with |- exists _, (if Req_EM_T ?x 0 then if Req_EM_T ?y 0 then _ else _ else _) = _ => assert (Ex : x <> 0%R); [|destruct (Req_EM_T x 0); [contradiction|eauto]] end.
  unfold own2, PD2, Rmean, Rsum, rh, rpart. cbn. unfold Rsqr. intros E. field_simplify in E. lra.
Qed.
Lemma ex_ac : pair_value Zcell rh rX (Friedman true) "a" "c" (Fin (1 / 28)%R).
Proof. exists 0, 2. split; [lia|]. split; [symmetry; apply ex_H|left; split; reflexivity]. Qed.
Lemma ex_ab : pair_value Zcell rh rX (Friedman true) "a" "b" (Fin 0%R).
Proof. exists 0, 1. split; [lia|]. split; [symmetry; apply ex_H0|left; split; reflexivity]. Qed.
Example C119_example : exists s' edges nodes labels, PdMethods.fit Zcell xR rotR isort (Friedman true) init0 (rargs rh true) = (s', Ok tt)
  /\ pd_plot xR isort (fun s => s) (Friedman true) s' "graph" "default" low = Ok (None, [PGraph "Interaction graph" false edges (Some nodes) labels])
  /\ graph_shows ["a"; "b"; "c"] (pair_value Zcell rh rX (Friedman true)) (1 / 100) 20 5 edges labels
  /\ (exists r, In r edges /\ about "a" "b" r /\ snd r = Fin 0%R) /\ exists r, In r edges /\ snd r = Fin 20%R.
Proof.
  destruct (C119_dependence Zcell Zcell_ok rotR rotR_ok isort isort_ok (fun s => s) (Friedman true) init0 (rargs rh true) rh rX "default" low (1 / 100) 20)
    as (s' & edges & nodes & labels & E & Ep & Hsh & _ & _); try apply ex_input; try reflexivity; try lra.
  - repeat split; cbn; discriminate.
  - intros _. exact ex_finite.
  - exists "a", "c", "a", "b", (1 / 28)%R, 0%R. split; [cbn; tauto|]. split; [cbn; tauto|]. split; [discriminate|]. split; [exact ex_ac|]. split; [lra|]. split; [lra|].
    split; [cbn; tauto|]. split; [cbn; tauto|]. split; [discriminate|]. split; [exact ex_ab|lra].
  - exists s', edges, nodes, labels. split; [exact E|]. split; [exact Ep|]. split; [exact Hsh|]. split; [|exact (sh_used _ _ _ _ _ _ _ Hsh)].
    destruct (lists_pairs_all _ edges "a" "b" (sh_pairs _ _ _ _ _ _ _ Hsh)) as (r & Hr & Hab); [cbn; tauto..|discriminate|]. exists r. split; [exact Hr|]. split; [exact Hab|].
    destruct (sh_range _ _ _ _ _ _ _ Hsh r Hr) as (z & u & Hz & Eu & _ & H0). rewrite Eu. f_equal. apply H0.
    assert (Ez : Fin z = Fin 0%R); [|injection Ez as ->; lra].
    apply (pair_value_unique Zcell rh rX (Friedman true) "a" "b"); [apply rX_wf| |exact ex_ab]. destruct Hab as [[E1 E2]|[E1 E2]]; rewrite E1, E2 in Hz; [exact Hz|apply pair_value_sym, Hz].
Qed.

(** the performance based method on the same table: two different pairs *)
Definition oh3 : sargs Z (ext R) :=
  {| sa_model := {| md_id := 0; md_proba1 := None; md_predict := Some (rP rh) |};
     sa_X := rX; sa_y := fin_target false [] [1; 0; 5]%R; sa_n := None; sa_repeat := 1; sa_features := None |}.
Lemma oh3_input : sj_input rotR (sj_init (r_seed rotR 1)) oh3 rh rX [1; 0; 5]%R (r_seed rotR 1).
Proof.
  constructor; [exact rX_wf|exists false, []; reflexivity|reflexivity|discriminate| |cbn; lia|apply rX_wf|intros f Hf; exact Hf|cbn; lia].
  eexists. split; [reflexivity|]. split; [intros i rows l H; injection H as <-; reflexivity|intros i rows; eexists; reflexivity].
Qed.
Ltac statistic3 v := unfold oh_statistic; cbn [seq map Nat.mul Nat.add]; unfold shuffled_score, score_on, score_value;
  repeat match goal with |- context [rearranged ?a ?b ?c] => let x := eval vm_compute in (rearranged a b c) in change (rearranged a b c) with x end;
  cbn; unfold Rmse; cbn; unfold Rmean, Rsum, rh, rpart; cbn;
  match goal with |- context [Rabs ?x] => replace x with (- v)%R by (unfold Rsqr; field) end; rewrite Rabs_Ropp, Rabs_pos_eq by lra; field.
Lemma oh3_ab : oh_statistic rotR ByMSE rh rX [1; 0; 5]%R 1 (r_seed rotR 1) 0 1 0 = (8 / 3)%R.
Proof. statistic3 (8 / 3)%R. Qed.
Lemma oh3_ac : oh_statistic rotR ByMSE rh rX [1; 0; 5]%R 1 (r_seed rotR 1) 0 2 1 = (2 / 3)%R.
Proof. statistic3 (2 / 3)%R. Qed.
Example C119_example_performance : sj_input rotR (sj_init (r_seed rotR 1)) oh3 rh rX [1; 0; 5]%R (r_seed rotR 1) /\ usable (no_all_kwargs (V := ext R))
  /\ contrast (included oh3) (oh_pair rotR ByMSE rh rX [1; 0; 5]%R 1 (included oh3) (r_seed rotR 1)) (1 / 10).
Proof.
  split; [exact oh3_input|]. split; [repeat split; cbn; discriminate|]. exists "a", "b", "c", "a", (8 / 3)%R, (2 / 3)%R.
  split; [cbn; tauto|]. split; [cbn; tauto|]. split; [discriminate|]. split; [exists 0, "a", "b", 0, 1; repeat split; auto; f_equal; symmetry; exact oh3_ab|]. split; [lra|]. split; [lra|].
  split; [cbn; tauto|]. split; [cbn; tauto|]. split; [discriminate|]. split; [exists 1, "a", "c", 0, 2; repeat split; auto; f_equal; symmetry; exact oh3_ac|lra].
Qed.

Print Assumptions C119_dependence.
Print Assumptions C119_performance.
