(** C57, C58: widths of the edges in the interaction graph.  C74: edge labels. *)
From Verif Require Import Py Num NumR Sorting Frame PdMethodReal2 CondDepth SplitImp Comparator Props_Compare Visual VisualFacts Props_Visual Props_Visual2.
From Coq Require Import Reals Lra.
Open Scope string_scope.
Open Scope nat_scope.
Open Scope list_scope.

(** tables with real or missing values *)
Definition of_opt (o : option R) : ext R := match o with Some x => Fin x | None => NaN end.
Definition with_values (t : list (string * string * option R)) : list (string * string * ext R) := map (fun r => (fst r, of_opt (snd r))) t.
Definition listed (t : list (string * string * option R)) (x : R) : Prop := exists p, In (p, Some x) t.

(** at most one row per edge *)
Definition same_pair (directed : bool) (a b : string * string) : Prop := a = b \/ (directed = false /\ a = (snd b, fst b)).
Definition one_edge_each {A} (directed : bool) (t : list (string * string * A)) : Prop := ForallOrdPairs (fun a b => ~ same_pair directed (fst a) (fst b)) t.

(** relevant interactions *)
Definition relevant (asc : bool) (threshold x : R) : Prop := if asc then (x <= threshold)%R else (threshold <= x)%R.

Section Edges.
  Context {V : Type}.
  Notation table := (list (string * string * V)).

  Lemma same_edge_iff directed a b : same_edge directed a b = true <-> same_pair directed a b.
  Proof.
    unfold same_edge, same_pair. destruct a as [a1 a2], b as [b1 b2]. cbn [fst snd]. rewrite orb_true_iff, !andb_true_iff, !String.eqb_eq, negb_true_iff. split.
    - intros [[-> ->]|[[-> ->] ->]]; auto.
    - intros [[= -> ->]|[-> [= -> ->]]]; auto.
  Qed.
  Lemma same_pair_sym directed a b : same_pair directed a b -> same_pair directed b a.
  Proof. unfold same_pair. destruct a, b; cbn. intros [H|[-> H]]; [left; congruence|right; split; [reflexivity|congruence]]. Qed.
  Lemma set_edge_new directed (r : string * string * V) l : (forall x, In x l -> ~ same_pair directed (fst x) (fst r)) -> set_edge directed r l = l ++ [r].
  Proof.
    induction l as [|x l IH]; intros H; [reflexivity|]. cbn [set_edge app]. destruct (same_edge directed (fst x) (fst r)) eqn:E.
    - apply same_edge_iff in E. exfalso. apply (H x (or_introl eq_refl) E).
    - f_equal. apply IH. intros y Hy. apply H. right. exact Hy.
  Qed.
  (** without repeated pairs the edges are the rows *)
  Lemma edgelist_id directed (t : table) : one_edge_each directed t -> edgelist directed t = t.
  Proof.
    intros H. unfold edgelist. assert (HG : forall acc, (forall x y, In x acc -> In y t -> ~ same_pair directed (fst x) (fst y)) -> fold_left (fun l r => set_edge directed r l) t acc = acc ++ t).
    { induction H as [|r t Hr Ht IH]; intros acc Ha; [cbn; symmetry; apply app_nil_r|]. cbn [fold_left]. rewrite set_edge_new by (intros x Hx; apply Ha; [exact Hx|left; reflexivity]).
      rewrite IH, <- app_assoc; [reflexivity|]. intros x y Hx Hy. apply in_app_or in Hx as [Hx|[<-|[]]]; [apply Ha; [exact Hx|right; exact Hy]|].
      rewrite Forall_forall in Hr. apply Hr, Hy. }
    rewrite HG; [reflexivity|intros x y []].
  Qed.
End Edges.
Lemma one_edge_map {A B} directed (t : list (string * string * A)) (u : list (string * string * B)) : map fst t = map fst u -> one_edge_each directed t -> one_edge_each directed u.
Proof.
  intros E H. revert u E. induction H as [|a t Ha Ht IH]; intros [|b u] E; try discriminate; [constructor|]. injection E as E1 E2. constructor; [|apply IH, E2].
  rewrite Forall_forall in *. intros y Hy. apply (in_map fst) in Hy. rewrite <- E2 in Hy. apply in_map_iff in Hy as (x & Ex & Hx). rewrite <- E1, <- Ex. apply Ha, Hx.
Qed.

(** ** Real values *)
Definition on_opts (g : R -> R) (t : list (string * string * option R)) : list (string * string * option R) := map (fun r => (fst r, option_map g (snd r))) t.
Lemma on_values_opts f g t : (forall x, f (Fin x) = Fin (g x)) -> f NaN = NaN -> on_values f (with_values t) = with_values (on_opts g t).
Proof. intros H1 H2. unfold on_values, with_values, on_opts. rewrite !map_map. apply map_ext. intros [p [x|]]; cbn; unfold value; cbn [snd]; congruence. Qed.
Lemma on_opts_comp g h t : on_opts g (on_opts h t) = on_opts (fun x => g (h x)) t.
Proof. unfold on_opts. rewrite map_map. apply map_ext. intros [p [x|]]; reflexivity. Qed.
Lemma on_opts_listed g t y : listed (on_opts g t) y <-> exists x, listed t x /\ y = g x.
Proof.
  unfold listed, on_opts. split.
  - intros (p & H). apply in_map_iff in H as ([p' [x|]] & E & H); [|discriminate]. injection E as <- <-. exists x. eauto.
  - intros (x & (p & H) & ->). exists p. apply in_map_iff. exists (p, Some x). auto.
Qed.
Lemma on_opts_ext g h t : (forall x, listed t x -> g x = h x) -> on_opts g t = on_opts h t.
Proof. intros H. unfold on_opts. apply map_ext_in. intros [p [x|]] Hin; [|reflexivity]. cbn. do 2 f_equal. apply H. exists p. exact Hin. Qed.

Lemma values_filter t : filter (fun x => negb (n_isnan xR x)) (map value (with_values t)) = map Fin (somes (map snd t)).
Proof. unfold with_values. rewrite map_map. induction t as [|[p [x|]] t IH]; [reflexivity|exact (f_equal (cons (Fin x)) IH)|exact IH]. Qed.
Lemma listed_somes t x : listed t x <-> In x (somes (map snd t)).
Proof. rewrite somes_In. unfold listed. split; [intros (p & H); apply (in_map snd) in H; exact H|intros H; apply in_map_iff in H as ([p o] & E & H); cbn in E; subst o; eauto]. Qed.
Lemma fold_Rmax_ok l x : (forall y, y = x \/ In y l -> (y <= fold_left Rmax l x)%R) /\ (fold_left Rmax l x = x \/ In (fold_left Rmax l x) l).
Proof.
  revert x. induction l as [|z l IH]; intros x; cbn [fold_left]; [split; [intros y [->|[]]; lra|auto]|]. destruct (IH (Rmax x z)) as [H1 H2]. split.
  - intros y [->|[->|H]]; [| |apply H1; auto]; (eapply Rle_trans; [|apply H1; left; reflexivity]); [apply Rmax_l|apply Rmax_r].
  - destruct H2 as [H2|H2]; [|right; right; exact H2]. rewrite H2. unfold Rmax. destruct (Rle_dec x z); [right; left|left]; reflexivity.
Qed.
Lemma fold_Rmin_ok l x : (forall y, y = x \/ In y l -> (fold_left Rmin l x <= y)%R) /\ (fold_left Rmin l x = x \/ In (fold_left Rmin l x) l).
Proof.
  revert x. induction l as [|z l IH]; intros x; cbn [fold_left]; [split; [intros y [->|[]]; lra|auto]|]. destruct (IH (Rmin x z)) as [H1 H2]. split.
  - intros y [->|[->|H]]; [| |apply H1; auto]; (eapply Rle_trans; [apply H1; left; reflexivity|]); [apply Rmin_l|apply Rmin_r].
  - destruct H2 as [H2|H2]; [|right; right; exact H2]. rewrite H2. unfold Rmin. destruct (Rle_dec x z); [left|right; left]; reflexivity.
Qed.
Lemma series_max_real t x : listed t x -> exists M, series_max xR (map value (with_values t)) = Fin M /\ listed t M /\ forall y, listed t y -> (y <= M)%R.
Proof.
  rewrite listed_somes. intros H. unfold series_max. rewrite values_filter. destruct (somes (map snd t)) as [|z l] eqn:E; [destruct H|]. cbn [map].
  exists (fold_left Rmax l z). split; [clear; revert z; induction l as [|y l IH]; intros z; [reflexivity|]; cbn [map fold_left]; rewrite vmax2_fin; apply IH|].
  destruct (fold_Rmax_ok l z) as [H1 H2]. split; [rewrite listed_somes, E; destruct H2 as [H2|H2]; [left; congruence|right; exact H2]|].
  intros y Hy. rewrite listed_somes, E in Hy. apply H1. destruct Hy as [->|Hy]; auto.
Qed.
Lemma series_min_real t x : listed t x -> exists m, series_min xR (map value (with_values t)) = Fin m /\ listed t m /\ forall y, listed t y -> (m <= y)%R.
Proof.
  rewrite listed_somes. intros H. unfold series_min. rewrite values_filter. destruct (somes (map snd t)) as [|z l] eqn:E; [destruct H|]. cbn [map].
  exists (fold_left Rmin l z). split; [clear; revert z; induction l as [|y l IH]; intros z; [reflexivity|]; cbn [map fold_left]; rewrite vmin2_fin; apply IH|].
  destruct (fold_Rmin_ok l z) as [H1 H2]. split; [rewrite listed_somes, E; destruct H2 as [H2|H2]; [left; congruence|right; exact H2]|].
  intros y Hy. rewrite listed_somes, E in Hy. apply H1. destruct Hy as [->|Hy]; auto.
Qed.

(** irrelevant interactions count as 0 *)
Definition kept (asc : bool) (threshold x : R) : R := if asc then (if Rlt_dec threshold x then 0 else x)%R else (if Rlt_dec x threshold then 0 else x)%R.
Lemma kept_relevant asc thr x : relevant asc thr x -> kept asc thr x = x.
Proof. unfold relevant, kept. destruct asc; intros H; [destruct (Rlt_dec thr x)|destruct (Rlt_dec x thr)]; try reflexivity; lra. Qed.
Lemma kept_irrelevant asc thr x : ~ relevant asc thr x -> kept asc thr x = 0%R.
Proof. unfold relevant, kept. destruct asc; intros H; [destruct (Rlt_dec thr x)|destruct (Rlt_dec x thr)]; try reflexivity; lra. Qed.

Lemma filter_real asc thr t : filter_insignificant xR asc (Fin thr) (with_values t) = with_values (on_opts (kept asc thr) t).
Proof.
  apply on_values_opts; [|destruct asc; reflexivity]. intros x. unfold kept. destruct asc; cbn; unfold Rltb.
  - destruct (Rlt_dec thr x); reflexivity.
  - destruct (Rlt_dec x thr); reflexivity.
Qed.
Definition turned (asc : bool) (s : R) : R := if asc then (if Rlt_dec 0 s then 1 - s else s)%R else s.
Lemma widths_real asc thr w t x y : listed t x -> listed t y -> kept asc thr x <> kept asc thr y ->
  exists m M, (m < M)%R /\ (exists u, listed t u /\ kept asc thr u = m) /\ (exists u, listed t u /\ kept asc thr u = M)
    /\ (forall z, listed t z -> (m <= kept asc thr z <= M)%R)
    /\ edge_widths xR asc (Fin w) (filter_insignificant xR asc (Fin thr) (with_values t)) = with_values (on_opts (fun z => turned asc ((kept asc thr z - m) / (M - m)) * w)%R t).
Proof.
  intros Hx Hy Hne. rewrite filter_real. set (u := on_opts (kept asc thr) t).
  assert (Hu : forall z, listed t z -> listed u (kept asc thr z)) by (intros z Hz; apply on_opts_listed; eauto).
  destruct (series_max_real u _ (Hu x Hx)) as (M & EM & HM & HMax). destruct (series_min_real u _ (Hu x Hx)) as (m & Em & Hm & HMin).
  apply on_opts_listed in HM as (xM & HM1 & HM2). apply on_opts_listed in Hm as (xm & Hm1 & Hm2).
  assert (Hlt : (m < M)%R). { pose proof (HMax _ (Hu x Hx)). pose proof (HMax _ (Hu y Hy)). pose proof (HMin _ (Hu x Hx)). pose proof (HMin _ (Hu y Hy)). lra. }
  exists m, M. split; [exact Hlt|]. split; [eauto|]. split; [eauto|]. split; [intros z Hz; split; [apply HMin|apply HMax]; apply Hu, Hz|].
  unfold edge_widths, map_to_width, scale_to_unit. rewrite EM, Em.
  rewrite (on_values_opts _ (fun v => (v - m) / (M - m))%R); [|intros v; change (n_sub xR (Fin v) (Fin m)) with (Fin (v - m)%R); change (n_sub xR (Fin M) (Fin m)) with (Fin (M - m)%R); apply xR_div_fin; lra|reflexivity].
  assert (Hr : reverse_scale xR asc (with_values (on_opts (fun v => (v - m) / (M - m))%R u)) = with_values (on_opts (turned asc) (on_opts (fun v => (v - m) / (M - m))%R u))).
  { unfold reverse_scale. destruct asc.
    - apply on_values_opts; [|reflexivity]. intros v. unfold turned. cbn. unfold Rltb. destruct (Rlt_dec 0 v); reflexivity.
    - f_equal. unfold turned, on_opts at 2. rewrite <- (map_id (on_opts _ u)) at 1. apply map_ext. intros [p [z|]]; reflexivity. }
  rewrite Hr, (on_values_opts _ (fun v => v * w)%R) by (intros; reflexivity). unfold u. rewrite !on_opts_comp. reflexivity.
Qed.

Section Graph.
  Context (srt : sorter).
  Notation graph := (plot_graph xR srt).

  (** the edges carry the widths *)
  Lemma graph_edges cfg t fi title asc directed k ti d edges nodes labels g thr w : graph cfg (with_values t) fi title asc directed k = Ok (PGraph ti d edges nodes labels) ->
    pop (k_threshold k) (g_threshold cfg) = Fin thr -> pop (k_width k) (g_width cfg) = Fin w -> one_edge_each directed t ->
    edge_widths xR asc (Fin w) (filter_insignificant xR asc (Fin thr) (with_values t)) = with_values (on_opts g t) -> edges = with_values (on_opts g t).
  Proof.
    intros E Et Ew Hone Hg. assert (He : edges = edgelist directed (with_values (on_opts g t))).
    { unfold plot_graph in E. rewrite Et, Ew in E. rewrite <- Hg. destruct fi as [fi|]; [|injection E as _ _ <- _ _; reflexivity].
      destruct (negb _); [discriminate|]. destruct (directed && _); [discriminate|]. injection E as _ _ <- _ _. reflexivity. }
    rewrite He. apply edgelist_id. apply (one_edge_map directed t); [|exact Hone]. unfold with_values, on_opts. rewrite !map_map. reflexivity.
  Qed.

  (** larger values are stronger.  [t] lists the interactions, [thr] is the threshold of relevance
      and [w] the largest width; some interaction is relevant and another one different. *)
  Theorem C57_widths_partial cfg t fi title directed k ti d edges nodes labels thr w x y :
    graph cfg (with_values t) fi title false directed k = Ok (PGraph ti d edges nodes labels) ->
    pop (k_threshold k) (g_threshold cfg) = Fin thr -> pop (k_width k) (g_width cfg) = Fin w -> one_edge_each directed t -> (0 <= w)%R ->
    (0 <= thr)%R \/ (forall z, listed t z -> 0 <= z)%R ->
    listed t x -> relevant false thr x -> x <> 0%R -> listed t y -> y <> x ->
    exists width : R -> R, edges = map (fun r => (fst r, of_opt (option_map width (snd r)))) t
      (* within the range, which is used *)
      /\ (forall z, listed t z -> 0 <= width z <= w)%R
      /\ (exists z, listed t z /\ width z = w) /\ (exists z, listed t z /\ width z = 0%R)
      (* a stronger interaction never gets a thinner edge *)
      /\ (forall a b, listed t a -> listed t b -> (a <= b)%R -> (width a <= width b)%R)
      /\ (forall a b, listed t a -> listed t b -> relevant false thr a -> (a < b)%R -> (0 < w)%R -> (width a < width b)%R)
      (* irrelevant ones get the thinnest *)
      /\ (forall a, listed t a -> ~ relevant false thr a -> width a = 0%R).
  Proof.
    intros E Et Ew Hone Hw Hpos Hx Hrx Hx0 Hy Hyx.
    assert (Hk : forall a b, listed t a -> listed t b -> (a <= b)%R -> (kept false thr a <= kept false thr b)%R).
    { intros a b Ha Hb Hab. unfold kept. destruct (Rlt_dec a thr), (Rlt_dec b thr); try lra. destruct Hpos as [H|H]; [lra|apply H, Hb]. }
    assert (Hk0 : forall a, listed t a -> (0 <= kept false thr a)%R \/ forall b, listed t b -> relevant false thr b).
    { intros a Ha. destruct Hpos as [H|H]; [left; unfold kept; destruct (Rlt_dec a thr); lra|]. left. unfold kept. destruct (Rlt_dec a thr); [lra|apply H, Ha]. }
    assert (Hne : kept false thr x <> kept false thr y). { rewrite (kept_relevant false thr x Hrx). unfold kept. destruct (Rlt_dec y thr); congruence. }
    destruct (widths_real false thr w t x y Hx Hy Hne) as (m & M & Hlt & (um & Hum & Em) & (uM & HuM & EM) & Hrange & EW).
    pose proof (graph_edges cfg t fi title false directed k ti d edges nodes labels _ thr w E Et Ew Hone EW) as He.
    exists (fun z => turned false ((kept false thr z - m) / (M - m)) * w)%R. unfold turned.
    assert (Hd : (0 < / (M - m))%R) by (apply Rinv_0_lt_compat; lra).
    assert (Hone' : ((M - m) / (M - m) = 1)%R) by (apply Rinv_r; lra).
    split; [rewrite He; unfold with_values, on_opts; rewrite map_map; reflexivity|]. split; [|split; [|split; [|split; [|split]]]].
    - intros z Hz. destruct (Hrange z Hz) as [H1 H2]. assert (Hs : (0 <= (kept false thr z - m) / (M - m) <= 1)%R).
      { split; [apply Rmult_le_pos; lra|]. rewrite <- Hone'. apply Rmult_le_compat_r; lra. }
      split; [apply Rmult_le_pos; lra|]. rewrite <- (Rmult_1_l w) at 2. apply Rmult_le_compat_r; lra.
    - exists uM. split; [exact HuM|]. rewrite EM, Hone'. lra.
    - exists um. split; [exact Hum|]. rewrite Em. replace (m - m)%R with 0%R by ring. unfold Rdiv. ring.
    - intros a b Ha Hb Hab. apply Rmult_le_compat_r; [exact Hw|]. apply Rmult_le_compat_r; [lra|]. pose proof (Hk a b Ha Hb Hab). lra.
    - intros a b Ha Hb Hra Hab Hwp. apply Rmult_lt_compat_r; [exact Hwp|]. apply Rmult_lt_compat_r; [exact Hd|]. rewrite (kept_relevant false thr a Hra).
      rewrite kept_relevant by (unfold relevant in *; lra). lra.
    - intros a Ha Hra. rewrite (kept_irrelevant false thr a Hra). assert (m = 0)%R as ->; [|unfold Rdiv; ring].
      destruct (Hrange a Ha) as [H1 _]. rewrite (kept_irrelevant false thr a Hra) in H1. destruct (Hk0 um Hum) as [H2|H2]; [lra|]. exfalso. apply Hra, H2, Ha.
  Qed.

  (** smaller values are stronger: what is drawn when all values are positive and some interaction
      is irrelevant (and some is relevant) *)
  Theorem C58_widths_partial cfg t fi title directed k ti d edges nodes labels thr w x y :
    graph cfg (with_values t) fi title true directed k = Ok (PGraph ti d edges nodes labels) ->
    pop (k_threshold k) (g_threshold cfg) = Fin thr -> pop (k_width k) (g_width cfg) = Fin w -> one_edge_each directed t -> (0 <= w)%R ->
    (forall z, listed t z -> 0 < z)%R -> listed t x -> relevant true thr x -> listed t y -> ~ relevant true thr y ->
    exists width : R -> R, edges = map (fun r => (fst r, of_opt (option_map width (snd r)))) t
      /\ (forall z, listed t z -> 0 <= width z <= w)%R
      (* a stronger relevant interaction gets a thicker edge *)
      /\ (forall a b, listed t a -> listed t b -> relevant true thr b -> (a <= b)%R -> (width b <= width a)%R)
      /\ (forall a b, listed t a -> listed t b -> relevant true thr b -> (a < b)%R -> (0 < w)%R -> (width b < width a)%R)
      (* irrelevant ones get the thinnest *)
      /\ (forall a, listed t a -> ~ relevant true thr a -> width a = 0%R).
  Proof.
    intros E Et Ew Hone Hw Hpos Hx Hrx Hy Hry.
    assert (Hne : kept true thr x <> kept true thr y). { rewrite (kept_relevant true thr x Hrx), (kept_irrelevant true thr y Hry). specialize (Hpos x Hx). lra. }
    destruct (widths_real true thr w t x y Hx Hy Hne) as (m & M & Hlt & (um & Hum & Em) & (uM & HuM & EM) & Hrange & EW).
    pose proof (graph_edges cfg t fi title true directed k ti d edges nodes labels _ thr w E Et Ew Hone EW) as He.
    assert (Hm : m = 0%R).
    { destruct (Hrange y Hy) as [H1 _]. rewrite (kept_irrelevant true thr y Hry) in H1. unfold kept in Em. destruct (Rlt_dec thr um); [lra|]. pose proof (Hpos um Hum). lra. }
    clear Em. subst m. assert (HMt : (M <= thr)%R). { unfold kept in EM. destruct (Rlt_dec thr uM); lra. }
    exists (fun z => turned true ((kept true thr z - 0) / (M - 0)) * w)%R.
    assert (Hd : (0 < / M)%R) by (apply Rinv_0_lt_compat; lra).
    assert (HM1 : (M * / M = 1)%R) by (apply Rinv_r; lra).
    assert (Hrel : forall z, listed t z -> relevant true thr z -> turned true ((kept true thr z - 0) / (M - 0)) = (1 - z * / M)%R /\ (0 <= 1 - z * / M < 1)%R).
    { intros z Hz Hr. rewrite (kept_relevant true thr z Hr). pose proof (Hpos z Hz) as Hz0. destruct (Hrange z Hz) as [_ H2]. rewrite (kept_relevant true thr z Hr) in H2.
      unfold Rdiv. rewrite !Rminus_0_r. assert (Hp : (0 < z * / M)%R) by (apply Rmult_lt_0_compat; lra). unfold turned. destruct (Rlt_dec 0 (z * / M)); [|lra]. split; [reflexivity|].
      assert (z * / M <= 1)%R; [rewrite <- HM1; apply Rmult_le_compat_r; lra|lra]. }
    assert (Hirr : forall z, ~ relevant true thr z -> turned true ((kept true thr z - 0) / (M - 0)) = 0%R).
    { intros z Hr. rewrite (kept_irrelevant true thr z Hr). replace ((0 - 0) / (M - 0))%R with 0%R by (unfold Rdiv; ring). unfold turned. destruct (Rlt_dec 0 0); lra. }
    assert (Hdec : forall z, relevant true thr z \/ ~ relevant true thr z) by (intros z; unfold relevant; lra).
    split; [rewrite He; unfold with_values, on_opts; rewrite map_map; reflexivity|]. split; [|split; [|split]].
    - intros z Hz. destruct (Hdec z) as [Hr|Hr]; [|rewrite (Hirr z Hr); lra]. destruct (Hrel z Hz Hr) as [-> [H1 H2]]. split; [apply Rmult_le_pos; lra|].
      rewrite <- (Rmult_1_l w) at 2. apply Rmult_le_compat_r; lra.
    - intros a b Ha Hb Hrb Hab. assert (Hra : relevant true thr a) by (unfold relevant in *; lra). destruct (Hrel a Ha Hra) as [-> _]. destruct (Hrel b Hb Hrb) as [-> _].
      apply Rmult_le_compat_r; [exact Hw|]. assert (a * / M <= b * / M)%R; [apply Rmult_le_compat_r; lra|lra].
    - intros a b Ha Hb Hrb Hab Hwp. assert (Hra : relevant true thr a) by (unfold relevant in *; lra). destruct (Hrel a Ha Hra) as [-> _]. destruct (Hrel b Hb Hrb) as [-> _].
      apply Rmult_lt_compat_r; [exact Hwp|]. assert (a * / M < b * / M)%R; [apply Rmult_lt_compat_r; lra|lra].
    - intros a Ha Hra. rewrite (Hirr a Hra). ring.
  Qed.

  (** when the only values are relevant and different, the strongest interaction is drawn with width 0,
      thinner than one that is neither the strongest nor the weakest *)
  Theorem C58_strongest_partial cfg t fi title directed k ti d edges nodes labels thr w a b c :
    graph cfg (with_values t) fi title true directed k = Ok (PGraph ti d edges nodes labels) ->
    pop (k_threshold k) (g_threshold cfg) = Fin thr -> pop (k_width k) (g_width cfg) = Fin w -> one_edge_each directed t -> (0 < w)%R ->
    (forall z, listed t z -> a <= z <= c /\ relevant true thr z)%R -> listed t a -> listed t b -> listed t c -> (a < b < c)%R ->
    exists width : R -> R, edges = map (fun r => (fst r, of_opt (option_map width (snd r)))) t /\ width a = 0%R /\ (0 < width b)%R.
  Proof.
    intros E Et Ew Hone Hw Hall Ha Hb Hc Habc.
    assert (Hkept : forall z, listed t z -> kept true thr z = z) by (intros z Hz; apply kept_relevant, Hall, Hz).
    assert (Hne : kept true thr a <> kept true thr c) by (rewrite !Hkept by assumption; lra).
    destruct (widths_real true thr w t a c Ha Hc Hne) as (m & M & Hlt & (um & Hum & Em) & (uM & HuM & EM) & Hrange & EW).
    pose proof (graph_edges cfg t fi title true directed k ti d edges nodes labels _ thr w E Et Ew Hone EW) as He.
    rewrite (Hkept um Hum) in Em. rewrite (Hkept uM HuM) in EM. subst um uM.
    assert (Hma : m = a). { pose proof (Hrange a Ha) as H. rewrite (Hkept a Ha) in H. pose proof (proj1 (Hall m Hum)). lra. }
    assert (HMc : M = c). { pose proof (Hrange c Hc) as H. rewrite (Hkept c Hc) in H. pose proof (proj1 (Hall M HuM)). lra. } subst m M.
    exists (fun z => turned true ((kept true thr z - a) / (c - a)) * w)%R. split; [rewrite He; unfold with_values, on_opts; rewrite map_map; reflexivity|].
    rewrite !Hkept by assumption. split.
    - replace ((a - a) / (c - a))%R with 0%R by (unfold Rdiv; ring). unfold turned. destruct (Rlt_dec 0 0); lra.
    - apply Rmult_lt_0_compat; [|exact Hw]. unfold turned. assert (Hd : (0 < / (c - a))%R) by (apply Rinv_0_lt_compat; lra). assert (H1 : ((c - a) * / (c - a) = 1)%R) by (apply Rinv_r; lra).
      assert (Hs : ((b - a) / (c - a) < 1)%R). { unfold Rdiv. rewrite <- H1. apply Rmult_lt_compat_r; lra. }
      assert (Hp : (0 < (b - a) / (c - a))%R) by (apply Rmult_lt_0_compat; lra). destruct (Rlt_dec 0 ((b - a) / (c - a))); lra.
  Qed.
End Graph.

Print Assumptions C57_widths_partial.
Print Assumptions C58_widths_partial.
Print Assumptions C58_strongest_partial.
