(** C120: the comparison plot of any two fitted methods, the tree based ones included, from the
    inputs of their [fit] to the points. *)
From Verif Require Import Py Num NumR Sorting Frame Rng PdCalc PdSpec PdFacts PdProofs PdTheorems PdErrors PdApi PdMethods MethodSpec
  PdMethodFacts PdMethodRun PdMethodReal PdMethodReal2 GreenwellFacts Props_Pd Props_Methods Props_Methods2 Perm PermFacts PermRun Props_Perm
  CondDepth TreeFacts CondDepthFacts ForestFacts Props_Forest SplitScore SplitFacts SplitTables Comparator Props_Split Props_Split2 Props_Compare
  Visual VisualFacts Props_Visual Props_Visual2 Props_Visual3 Props_Visual4 Props_Visual5 Compared Props_EndToEnd Props_EndToEnd2 Props_EndToEnd3 Props_EndToEnd4 Props_EndToEnd5.
From Verif Require CompareFacts.
From Coq Require Import Reals Lra.
Notation included := Props_Perm.included.
Notation about := Props_Split.about.
Notation same_pair := Props_Visual4.same_pair.
Open Scope string_scope.
Open Scope nat_scope.
Open Scope list_scope.

(** ** Specification *)
(** the strongest first, missing values last *)
Definition before (asc : bool) (x y : ext R) : Prop := y = NaN \/ (x <> NaN /\ if asc then n_ltb xR y x = false else n_ltb xR x y = false).
(** the mean of the two directions, missing if no tree splits on both *)
Definition mean_depth (names : list string) (ts : list btree) (f1 f2 : string) (v : ext R) : Prop :=
  exists p1 p2 x y, p1 <> p2 /\ nth_error names p1 = Some f1 /\ nth_error names p2 = Some f2 /\ cond_depth ts p1 p2 x /\ cond_depth ts p2 p1 y
    /\ ((x = NaN /\ y = NaN /\ v = NaN) \/ exists a b, x = Fin a /\ y = Fin b /\ v = Fin ((a + b) / 2)%R).
(** one direction of a pair of a boosted ensemble, and the stronger direction *)
Definition direction (od : bool) (ts : list rtree) (st : strength) (a b : string) (v : ext R) : Prop :=
  pair_nodes od ts a b <> [] /\ v = Fin (strength_of st (pair_nodes od ts a b)).
Definition strong_direction (od : bool) (ts : list rtree) (st : strength) (f1 f2 : string) (v : ext R) : Prop :=
  exists a b, ((a = f1 /\ b = f2) \/ (a = f2 /\ b = f1)) /\ direction od ts st a b v
    /\ (pair_nodes od ts b a <> [] -> stronger st (strength_of st (pair_nodes od ts a b)) (strength_of st (pair_nodes od ts b a))).

Lemma FOP_of_filter {A} (P : A -> A -> Prop) (f : A -> A -> bool) l : (forall x y, f x y = true <-> P x y) -> (forall x, P x x) -> (forall x, In x l -> length (filter (f x) l) <= 1) ->
  ForallOrdPairs (fun x y => ~ P x y) l.
Proof.
  intros Hf Hr. induction l as [|x l IH]; intros H; [constructor|]. constructor.
  - specialize (H x (or_introl eq_refl)). cbn [filter] in H. rewrite (proj2 (Hf x x) (Hr x)) in H. cbn [length] in H. rewrite Forall_forall. intros y Hy Hxy.
    assert (Hin : In y (filter (f x) l)) by (apply filter_In; split; [exact Hy|apply Hf, Hxy]). destruct (filter (f x) l); [destruct Hin|cbn in H; lia].
  - apply IH. intros y Hy. specialize (H y (or_intror Hy)). cbn [filter] in H. destruct (f y x); cbn [length] in H; lia.
Qed.
Lemma FOP_same {A} (P : A -> A -> Prop) l x y : (forall x y, P x y -> P y x) -> ForallOrdPairs (fun x y => ~ P x y) l -> In x l -> In y l -> P x y -> x = y.
Proof.
  intros Hs. induction 1 as [|a l Ha H IH]; intros Hx Hy Hp; [destruct Hx|]. rewrite Forall_forall in Ha. destruct Hx as [->|Hx], Hy as [->|Hy]; [reflexivity| | |auto]; exfalso.
  - exact (Ha _ Hy Hp).
  - exact (Ha _ Hx (Hs _ _ Hp)).
Qed.

(** fitted methods: [rows] the points when it is the first method, one per direction of a pair if
    [directed]; [value] the other coordinate when it is the second *)
Section Methods.
  Context {C G : Type} (O : cell_ops C) (HO : cell_ok O) (Rg : rng_ops G) (HR : rng_ok Rg) (srt : sorter) (Hs : sorter_ok srt).
  Definition among (fs : list string) (val : string -> string -> ext R -> Prop) (a b : string) (x : ext R) : Prop := In a fs /\ In b fs /\ a <> b /\ val a b x.

  Inductive method_view : mview (ext R) -> bool -> bool -> (string -> string -> ext R -> Prop) -> (string -> string -> ext R -> Prop) -> Prop :=
  | view_agnostic v fs val : agnostic O Rg srt v fs val -> method_view v false false (among fs val) val
  | view_forest s m names ts : forest_input m names ts ->
      (forall a b c d, In a names -> In b names -> In c names -> In d names -> join2 a b = join2 c d -> CompareFacts.same_pair a b c d) ->
      method_view (cmd_compared xR srt (fst (cmd_fit xR srt s m))) true false (mean_depth names ts) (mean_depth names ts)
  | view_split s arg pk ts st w od : split_input arg pk ts st w -> (exists a b, pair_nodes od ts a b <> []) ->
      method_view (ss_compared xR srt (fst (ss_fit xR srt s arg (strength_name st) (weight_name w) od))) (match st with MeanDepth => true | _ => false end) true
        (direction od ts st) (strong_direction od ts st).

  Record compares (v : mview (ext R)) (asc directed : bool) (rows value : string -> string -> ext R -> Prop) : Prop := {
    co_table : exists t, mv_compare v = Ok t /\ t <> [] /\ one_edge_each directed t
      /\ (forall r, In r t -> rows (fst (fst r)) (snd (fst r)) (snd r))
      /\ (forall a b x, rows a b x -> exists r, In r t /\ about a b r /\ snd r = x /\ (directed = true -> fst r = (a, b)))
      /\ StronglySorted (fun r r' => before asc (snd r) (snd r')) t;
    co_value : forall a b x, interaction_value (mv_compare v) a b = Ok x -> value a b x;
    co_asc : mv_ascending v = asc }.

  Lemma before_le asc x y : le_dir xR asc x y = true -> before asc x y.
  Proof.
    unfold le_dir, before. destruct asc; [unfold le_asc|unfold le_desc]; destruct y as [y| | |]; try (left; reflexivity); destruct x as [x| | |]; cbn; intros H; try discriminate H; right; (split; [discriminate|]); try reflexivity; apply negb_true_iff, H.
  Qed.

  Lemma agnostic_unique v fs val : agnostic O Rg srt v fs val -> forall a b x y, val a b x -> val a b y -> x = y.
  Proof.
    intros [k s a h X s' Hin E|c s a h X ys g e s' log Hin E] f1 f2 x y.
    - apply pair_value_unique. destruct (fit_output O HO Rg HR srt Hs k s a h X Hin) as (s0 & t & fi & E0 & HwX & _). apply HwX.
    - destruct (sj_fit_output Rg HR srt Hs c s a h X ys g e Hin) as (s0 & t & fi & log0 & E0 & HwX & _). apply oh_pair_unique; [apply HwX|apply (si_distinct _ _ _ _ _ _ _ Hin)].
  Qed.

  Lemma compares_all v asc directed rows value : method_view v asc directed rows value -> compares v asc directed rows value.
  Proof.
    intros [v0 fs val Ha|s m names ts Hin Hglue|s arg pk ts st w od Hin (a0 & b0 & Hne0)].
    - pose proof (agnostic_seen O HO Rg HR srt Hs _ _ _ Ha) as [Hd H2 Hsym Hnan (t & Et & HL & Hv & Hst) Hasc]. constructor; [| |exact Hasc].
      + exists t. split; [exact Et|]. split; [destruct (lists_pairs_first _ _ Hd H2 HL) as (x & y & z & Hr & _); intros En; rewrite En in Hr; destruct Hr|].
        split; [exact (lists_pairs_once fs t Hd HL)|]. split; [intros r Hr; destruct (lists_pairs_In _ t r Hd HL Hr) as (A & B & D); repeat split; try assumption; apply Hv, Hr|].
        split; [|eapply StronglySorted_impl; [|exact Hst]; intros r r' Hr Hr' H; right; cbn; split; [intros En; specialize (Hnan _ _ _ (Hv r Hr)); rewrite En in Hnan; discriminate|exact H]].
        intros a b x (A & B & D & Hx). destruct (lists_pairs_all _ t a b HL A B D) as (r & Hr & Hab). exists r. split; [exact Hr|]. split; [exact Hab|].
        specialize (Hv r Hr). destruct Hab as [[E1 E2]|[E1 E2]]; rewrite E1, E2 in Hv; [|apply Hsym in Hv]; (split; [|discriminate]); exact (agnostic_unique _ _ _ Ha _ _ _ _ Hv Hx).
      + intros a b x E. rewrite Et in E. pose proof (interaction_value_ok t a b) as Hi. rewrite E in Hi. destruct Hi as (r & Hr & Hab & <-). specialize (Hv r Hr).
        destruct Hab as [[E1 E2]|[E1 E2]]; rewrite E1, E2 in Hv; [exact Hv|apply Hsym, Hv].
    - destruct (forest_output srt Hs s m names ts Hin) as (ovo & fi & Eok & Eo & Ef & Hn1 & Hrow & _ & Hpair & _).
      assert (Hd : NoDup names) by apply Hin.
      assert (Hnc : CompareFacts.no_collisions ovo).
      { intros r r' Hr Hr' E. destruct (Hrow r Hr) as (i & j & _ & Hi & Hj & _). destruct (Hrow r' Hr') as (i' & j' & _ & Hi' & Hj' & _). apply Hglue; try (eapply nth_error_In; eassumption). exact E. }
      destruct (C40_compare_partial xR srt xR_ord Hs _ ovo Eo Hnc) as (tab & Et & Hst & Hval & Hone).
      assert (Ht1 : one_edge_each false tab).
      { apply (FOP_of_filter (fun r r' : string * string * ext R => same_pair false (fst r) (fst r')) (fun r r' => CompareFacts.same_pairb (fst (fst r')) (snd (fst r')) (fst (fst r)) (snd (fst r)))).
        - intros [[a b] u] [[a' b'] u']. cbn [fst snd]. rewrite CompareFacts.same_pairb_iff. unfold CompareFacts.same_pair, Props_Visual4.same_pair. cbn [fst snd]. intuition congruence.
        - intros r. unfold Props_Visual4.same_pair. auto.
        - intros [[a b] u] Hr. destruct (Hval a b u Hr) as [(r & Hro & <- & <-) _]. cbn [fst snd]. rewrite (Hone r Hro). auto. }
      assert (Hpos : forall r, In r tab -> exists i j, i <> j /\ nth_error names i = Some (fst (fst r)) /\ nth_error names j = Some (snd (fst r))).
      { intros [[a b] u] Hr. destruct (Hval a b u Hr) as [(r & Hro & <- & <-) _]. destruct (Hrow r Hro) as (i & j & Hij & Hi & Hj & _). exists i, j. auto. }
      assert (HV : forall i j f1 f2, i <> j -> nth_error names i = Some f1 -> nth_error names j = Some f2 -> exists r, In r tab /\ about f1 f2 r /\ mean_depth names ts f1 f2 (snd r) /\ interaction_value (Ok tab) f1 f2 = Ok (snd r)).
      { intros i j f1 f2 Hij Hi Hj. destruct (C117_value srt Hs s m names ts i j f1 f2 Hin Hij Hi Hj Hglue) as (vv & x & y & Ev & Hx & Hy & Hm). rewrite Et in Ev.
        pose proof (interaction_value_ok tab f1 f2) as Hi'. rewrite Ev in Hi'. destruct Hi' as (r & Hr & Hab & E). exists r. split; [exact Hr|]. split; [exact Hab|]. rewrite E. split; [|exact Ev]. exists i, j, x, y. auto 8. }
      constructor; [| |reflexivity].
      + exists tab. split; [exact Et|]. split.
        { destruct Hin as [_ _ H2 _ _ _ _]. destruct names as [|n1 [|n2 l]]; cbn in H2; [lia|lia|]. destruct (HV 0 1 n1 n2) as (r & Hr & _); [lia|reflexivity|reflexivity|]. intros E. rewrite E in Hr. destruct Hr. }
        split; [exact Ht1|]. split; [|split; [|eapply StronglySorted_impl; [|exact Hst]; intros r r' _ _; apply before_le]].
        * intros r Hr. destruct (Hpos r Hr) as (i & j & Hij & Hi & Hj). destruct (HV i j _ _ Hij Hi Hj) as (r' & Hr' & Hab & Hm & _). replace r with r' at 3; [exact Hm|].
          apply (FOP_same (fun r r' : string * string * ext R => same_pair false (fst r) (fst r')) tab); try assumption.
          -- intros a b. apply same_pair_sym.
          -- destruct r as [[a b] u], r' as [[a' b'] u']. cbn [fst snd] in *. unfold Props_Visual4.same_pair. cbn [fst snd]. destruct Hab as [[A B]|[A B]]; cbn [fst snd] in A, B; subst a' b'; auto.
        * intros a b x (i & j & u & w & Hij & Hi & Hj & Hu & Hw & Hm). destruct (HV i j a b Hij Hi Hj) as (r & Hr & Hab & (i' & j' & u' & w' & _ & Hi' & Hj' & Hu' & Hw' & Hm') & _). exists r. split; [exact Hr|]. split; [exact Hab|].
          split; [|discriminate]. assert (i' = i) by exact (nth_once _ _ _ _ Hd Hi' Hi). assert (j' = j) by exact (nth_once _ _ _ _ Hd Hj' Hj). subst i' j'.
          rewrite (cond_depth_unique _ _ _ _ _ Hu' Hu), (cond_depth_unique _ _ _ _ _ Hw' Hw) in Hm'.
          destruct Hm as [(-> & -> & ->)|(q1 & q2 & -> & -> & ->)], Hm' as [(H1 & H2 & H3)|(q1' & q2' & H1 & H2 & H3)]; congruence.
      + intros a b x E. cbn [mv_compare cmd_compared] in E. rewrite Et in E. pose proof (interaction_value_ok tab a b) as Hi. rewrite E in Hi. destruct Hi as (r & Hr & Hab & Ex).
        destruct (Hpos r Hr) as (i & j & Hij & Hi & Hj). destruct Hab as [[E1 E2]|[E1 E2]]; rewrite E1 in Hi; rewrite E2 in Hj.
        * destruct (HV i j a b Hij Hi Hj) as (r' & _ & _ & Hm & E'). assert (Exx : x = snd r') by congruence. rewrite Exx. exact Hm.
        * destruct (HV j i a b (not_eq_sym Hij) Hj Hi) as (r' & _ & _ & Hm & E'). assert (Exx : x = snd r') by congruence. rewrite Exx. exact Hm.
    - destruct (split_output srt Hs s arg pk ts st w od Hin) as (t & fi & Eok & Et & _ & Easc & Hnd & Ht & Hsort & _).
      assert (Ea : String.eqb (strength_name st) "mean_depth" = match st with MeanDepth => true | _ => false end) by (destruct st; reflexivity).
      set (s' := fst (ss_fit _ _ _ _ _ _ _)) in *.
      destruct (sort_values_ok xR srt (ss_ascending s') (fun r : string * string * ext R => snd r) t Hs xR_ord) as [HP HS]. set (u := sort_values xR srt (ss_ascending s') (fun r : string * string * ext R => snd r) t) in *.
      assert (Eu : mv_compare (ss_compared xR srt s') = Ok u) by (cbn [mv_compare ss_compared]; unfold ss_compare_ovo; rewrite Et; reflexivity).
      constructor; [| |cbn [mv_ascending ss_compared]; rewrite Easc; exact Ea].
      + exists u. split; [exact Eu|]. split.
        { intros E. rewrite E in HP. apply Permutation_nil in HP. assert (H : In (a0, b0, Fin (strength_of st (pair_nodes od ts a0 b0))) t) by (apply Ht; auto). rewrite HP in H. destruct H. }
        split.
        { assert (Hnu : NoDup (map fst u)) by exact (Permutation_NoDup (Permutation_map fst (Permutation_sym HP)) Hnd). clear -Hnu. unfold one_edge_each. induction u as [|r l IH]; [constructor|].
          cbn [map] in Hnu. inversion Hnu as [|? ? Hn Hnu']; subst. constructor; [|apply IH, Hnu']. rewrite Forall_forall. intros y Hy [E|[E _]]; [|discriminate]. apply Hn. rewrite E. apply in_map, Hy. }
        split; [intros [[a b] vv] Hr; apply Ht, (Permutation_in _ HP), Hr|]. split.
        * intros a b x Hx. exists (a, b, x). split; [apply (Permutation_in _ (Permutation_sym HP)), Ht, Hx|]. split; [left; auto|split; [reflexivity|intros _; reflexivity]].
        * rewrite <- Ea, <- Easc. eapply StronglySorted_impl; [|exact HS]. intros r r' _ _. apply before_le.
      + intros a b x E. destruct (C118_value srt Hs s arg pk ts st w od a b Hin) as [_ H]. fold s' in H. rewrite E in H. destruct H as (c & d & Hcd & Hne & Ev & Hstr). exists c, d. unfold direction. auto.
  Qed.

  (** ** C120 *)
  Theorem C120_points v1 asc1 dir1 rows1 value1 v2 asc2 dir2 rows2 value2 df n box :
    method_view v1 asc1 dir1 rows1 value1 -> method_view v2 asc2 dir2 rows2 value2 ->
    (forall a b x, rows1 a b x -> exists y, rows2 a b y \/ rows2 b a y) ->
    exists p pairs, comparison_plot xR df v1 v2 n box = Ok p
      (* the points, each pair (direction) of method 1 once, strongest first *)
      /\ (forall r, In r pairs -> rows1 (fst (fst r)) (snd (fst r)) (snd r))
      /\ (forall a b x, rows1 a b x -> exists r, In r pairs /\ about a b r /\ snd r = x /\ (dir1 = true -> fst r = (a, b)))
      /\ one_edge_each dir1 pairs
      /\ StronglySorted (fun r r' => before asc1 (snd r) (snd r')) pairs
      /\ Forall2 (fun r xy => fst xy = snd r /\ value2 (fst (fst r)) (snd (fst r)) (snd xy)) pairs (cp_points p)
      /\ cp_labels p = combine (map (fun r => fst (fst r) ++ "-" ++ snd (fst r))%string (firstn n pairs)) (firstn n (cp_points p))
      /\ cp_axes p = (mv_name v1, mv_name v2) /\ cp_invert_x p = asc1 /\ cp_invert_y p = asc2.
  Proof.
    intros H1 H2 Hall. destruct (compares_all _ _ _ _ _ H1) as [(t1 & E1 & N1 & O1 & R1 & L1 & S1) _ A1]. destruct (compares_all _ _ _ _ _ H2) as [(t2 & E2 & N2 & O2 & R2 & L2 & S2) Hval2 A2].
    pose proof (C54_points xR df v1 v2 t1 t2 n E1 E2 N1 N2 box) as Hpts. destruct (comparison_plot xR df v1 v2 n box) as [p|e].
    2:{ exfalso. destruct Hpts as (_ & r & Hr & Hno). destruct (Hall _ _ _ (R1 r Hr)) as (y & [Hy|Hy]); apply L2 in Hy as (r2 & Hr2 & Hab & _ & _); apply (Hno r2 Hr2); [exact Hab|destruct Hab as [[]|[]]; [right|left]; auto]. }
    destruct Hpts as (HF & Hl1 & Hl2 & Ix & Iy & Iax & _). exists p, t1. split; [reflexivity|]. split; [exact R1|]. split; [exact L1|]. split; [exact O1|]. split; [exact S1|]. split; [|split; [|split; [exact Iax|split; congruence]]].
    - clear -HF Hval2. induction HF as [|r xy l1 l2 (Hx & Hi & _) HF IH]; [constructor|]. constructor; [|exact IH]. split; [exact Hx|apply Hval2, Hi].
    - rewrite <- Hl1, <- Hl2. clear. induction (cp_labels p) as [|[x y] l IH]; [reflexivity|]. cbn [map combine fst snd]. rewrite <- IH. reflexivity.
  Qed.

  Theorem C120_missing v1 asc1 dir1 rows1 value1 v2 asc2 dir2 rows2 value2 df n box a b x :
    method_view v1 asc1 dir1 rows1 value1 -> method_view v2 asc2 dir2 rows2 value2 ->
    rows1 a b x -> (forall y, ~ rows2 a b y /\ ~ rows2 b a y) -> comparison_plot xR df v1 v2 n box = Err IndexError.
  Proof.
    intros H1 H2 Hx Hno. destruct (compares_all _ _ _ _ _ H1) as [(t1 & E1 & N1 & O1 & R1 & L1 & S1) _ A1]. destruct (compares_all _ _ _ _ _ H2) as [(t2 & E2 & N2 & O2 & R2 & L2 & S2) Hval2 A2].
    pose proof (C54_points xR df v1 v2 t1 t2 n E1 E2 N1 N2 box) as Hpts. destruct (comparison_plot xR df v1 v2 n box) as [p|e]; [|destruct Hpts as [-> _]; reflexivity].
    exfalso. destruct Hpts as (HF & _). destruct (L1 a b x Hx) as (r & Hr & Hab & _).
    assert (Hr2 : exists r2, In r2 t2 /\ about (fst (fst r)) (snd (fst r)) r2).
    { clear -HF Hr. induction HF as [|r0 xy l1 l2 (_ & _ & r2 & Hr2 & Ha & _) HF IH]; [destruct Hr|]. destruct Hr as [->|Hr]; [eauto|exact (IH Hr)]. }
    destruct Hr2 as (r2 & Hr2 & Hab2). pose proof (R2 r2 Hr2) as Hrow. destruct (Hno (snd r2)) as [G1 G2].
    destruct Hab as [[A B]|[A B]], Hab2 as [[A' B']|[A' B']]; rewrite A', B', A, B in Hrow; contradiction.
  Qed.
End Methods.

(** ** Examples: the loss of performance against the split score, and against a forest with other
    features *)
Example C120_example : exists v1 v2 v3 rows1 rows2 rows3 value1 value2 value3,
  method_view Zcell rotR isort v1 false false rows1 value1 /\ method_view Zcell rotR isort v2 false true rows2 value2 /\ method_view Zcell rotR isort v3 true false rows3 value3
  /\ (forall a b x, rows1 a b x -> exists y, rows2 a b y \/ rows2 b a y)
  /\ rows2 "a" "b" (Fin 5%R) /\ rows2 "b" "a" (Fin 7%R) /\ value2 "a" "b" (Fin 7%R)
  /\ rows3 "y" "x" (Fin (1 / 4)%R) /\ (forall y, ~ rows1 "y" "x" y /\ ~ rows1 "x" "y" y).
Proof.
  destruct (C115_value rotR rotR_ok isort isort_ok ByMSE _ oh_args times_r ex_X oh_ys _ 5 "b" "a" oh_input) as (s' & log & E & _).
  destruct boost_ab as [Eab Eba].
  assert (Sab : strength_of TotalGain (pair_nodes true boost_trees "a" "b") = 5%R) by (cbn [strength_of]; rewrite Eab, Rsum_cons, Rsum_nil; lra).
  assert (Sba : strength_of TotalGain (pair_nodes true boost_trees "b" "a") = 7%R) by (cbn [strength_of]; rewrite Eba, Rsum_cons, Rsum_nil; lra).
  assert (Nab : pair_nodes true boost_trees "a" "b" <> []) by (intros H; rewrite H in Eab; discriminate). assert (Nba : pair_nodes true boost_trees "b" "a" <> []) by (intros H; rewrite H in Eba; discriminate).
  do 9 eexists.
  split; [apply view_agnostic, (by_performance Zcell rotR isort ByMSE _ oh_args times_r ex_X oh_ys _ 5 s' log oh_input E)|].
  split; [apply (view_split Zcell rotR isort ss_init _ _ _ TotalGain WMeanGain true (boost_input TotalGain WMeanGain)); eauto|].
  split; [apply (view_forest Zcell rotR isort cs_init e2e_forest _ e2e_trees e2e_input)|].
  { intros a b c d Ha Hb Hc Hd. assert (HC : forall x, In x ["x"; "y"; "z"; "w"] -> x = "x" \/ x = "y" \/ x = "z" \/ x = "w") by (intros x Hx; cbn in Hx; intuition).
    apply HC in Ha, Hb, Hc, Hd. unfold CompareFacts.same_pair.
    destruct Ha as [-> |[-> |[-> | ->]]], Hb as [-> |[-> |[-> | ->]]], Hc as [-> |[-> |[-> | ->]]], Hd as [-> |[-> |[-> | ->]]]; cbn; intros Ej; try discriminate Ej; auto. }
  split; [|split; [split; [exact Nab|f_equal; symmetry; exact Sab]|split; [split; [exact Nba|f_equal; symmetry; exact Sba]|split; [|split]]]].
  - intros a b x ([<-|[<-|[]]] & [<-|[<-|[]]] & Hab & _); try (exfalso; apply Hab; reflexivity); eexists; [left|left]; split; eauto.
  - exists "b", "a". split; [auto|]. split; [split; [exact Nba|f_equal; symmetry; exact Sba]|]. intros _. rewrite Sab, Sba. cbn. lra.
  - destruct C117_example as (H01 & H10 & _). exists 1, 0, (Fin (1 / 2)%R), (Fin 0%R). split; [lia|]. split; [reflexivity|]. split; [reflexivity|]. split; [exact H10|]. split; [exact H01|].
    right. exists (1 / 2)%R, 0%R. split; [reflexivity|]. split; [reflexivity|]. f_equal. field.
  - intros y. split; intros ([H|[H|[]]] & _); discriminate H.
Qed.

Print Assumptions C120_points.
Print Assumptions C120_missing.
