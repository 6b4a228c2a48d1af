(** C103: the nodes of an interaction graph are sized by importance. *)
From Verif Require Import Py Num NumR Sorting Frame Rng PdSpec PdCalc PdFacts PdMethods PdMethodFacts PdMethodReal2 Perm PermRun CondDepth ForestFacts SplitScore SplitFacts SplitTables SplitImp
  Comparator Props_Compare Props_Pd Props_Perm Props_Methods Props_Methods2 Props_Split Props_Split2 Visual VisualFacts Props_Visual Props_Visual2 Props_Visual3 Props_Visual6 Props_Visual7 Nodes.
From Coq Require Import Reals Lra QArith.
Open Scope string_scope.
Open Scope nat_scope.
Open Scope list_scope.

(** a graph of any method draws the features of its importance table; without a table none are listed *)
Lemma graph_figure {V} (N : num_ops V) srt lower m d title k fig : visualize N srt lower m d "graph" title k = Ok fig ->
  exists t e l, fig = (None, [PGraph t (pd_directed d) e (pd_fi d) l]).
Proof.
  intros E. assert (E' : (do p <- plot_graph N srt (graph_config_of N m) (pd_ovo d) (pd_fi d) title (pd_int_asc d) (pd_directed d) (k_own k); Ok (None, [p])) = Ok fig) by (destruct m; exact E).
  destruct (plot_graph _ _ _ _ _ _ _ _ _) as [p|] eqn:Ep; [|discriminate]. cbn [bind] in E'. injection E' as <-. unfold plot_graph in Ep.
  destruct (pd_fi d) as [fi|]; [destruct (negb _); [discriminate|]; destruct (pd_directed d && _); [discriminate|]|]; injection Ep as <-; do 3 eexists; reflexivity.
Qed.

(** the nodes of a picture match a table of real importances: the same features in the same order,
    each area a share of [size] *)
Definition sized (size : R) (imps : list (string * R)) (nodes : list (string * ext R)) : Prop :=
  exists areas : list R, nodes = combine (map fst imps) (map Fin areas) /\ length areas = length imps
    /\ (forall i f v w, nth_error imps i = Some (f, v) -> nth_error areas i = Some w -> (0 <= w <= size)%R
          /\ (v = 0 <-> w = 0)%R
          /\ ((forall g u, In (g, u) imps -> (u <= v)%R) <-> w = size))
    /\ (forall i j f g v v' w w', nth_error imps i = Some (f, v) -> nth_error imps j = Some (g, v') -> nth_error areas i = Some w -> nth_error areas j = Some w' ->
          ((v <= v' <-> w <= w') /\ w * v' = w' * v)%R).

Definition nonneg_table (imps : list (string * R)) : Prop := (forall f v, In (f, v) imps -> (0 <= v)%R) /\ exists f v, In (f, v) imps /\ (0 < v)%R.
Definition fin_table (imps : list (string * R)) : list (string * ext R) := map (fun r => (fst r, Fin (snd r))) imps.

Lemma nodes_of_table size t d e l imps : (0 < size)%R -> nonneg_table imps ->
  sized size imps (graph_nodes xR (Fin size) (PGraph t d e (Some (fin_table imps)) l)).
Proof.
  intros Hs (Hnn & f0 & v0 & H0 & Hp). cbn [graph_nodes].
  destruct (series_max_fin (map snd (fin_table imps))) as (M & EM & HM & HMax).
  { destruct imps; [destruct H0|discriminate]. }
  { intros x Hx. unfold fin_table in Hx. rewrite map_map in Hx. apply in_map_iff in Hx as (r & <- & _). eexists. reflexivity. }
  rewrite EM.
  assert (Hin : forall f v, In (f, v) imps -> In (Fin v) (map snd (fin_table imps))).
  { intros f v H. unfold fin_table. rewrite map_map. apply in_map_iff. exists (f, v). split; [reflexivity|exact H]. }
  assert (HM0 : (0 < M)%R) by (pose proof (HMax v0 (Hin _ _ H0)); lra).
  assert (HMi : exists g, In (g, M) imps).
  { unfold fin_table in HM. rewrite map_map in HM. apply in_map_iff in HM as ([g u] & E & Hg). cbn in E. injection E as ->. exists g. exact Hg. }
  exists (map (fun r => size * snd r / M)%R imps).
  assert (K : (0 < size / M)%R) by (apply Rdiv_lt_0_compat; assumption).
  assert (Kx : forall v, (size * v / M = (size / M) * v)%R) by (intros v; unfold Rdiv; ring).
  assert (KM : (size / M * M = size)%R) by (unfold Rdiv; field; lra).
  split; [|split; [apply map_length|split]].
  - clear - HM0. unfold fin_table. rewrite map_map. induction imps as [|[f v] imps IH]; [reflexivity|]. cbn [map combine fst snd]. rewrite <- IH. f_equal. f_equal.
    change (n_mul xR (Fin size) (Fin v)) with (Fin (size * v)%R). apply xR_div_fin. lra.
  - intros i f v w Hi Hw. rewrite nth_error_map, Hi in Hw. cbn in Hw. injection Hw as <-. pose proof (nth_error_In _ _ Hi) as Hv.
    pose proof (Hnn f v Hv) as H1. pose proof (HMax v (Hin f v Hv)) as H2. rewrite Kx. 
    split; [split; [apply Rmult_le_pos; lra|]; apply Rle_trans with (size / M * M)%R; [apply Rmult_le_compat_l; lra|lra]|].
    split; [split; [intros ->; lra|]; intros E; apply Rmult_integral in E; lra|].
    split.
    + intros H. destruct HMi as (g & Hg). pose proof (H g M Hg). replace v with M by lra. exact KM.
    + intros E g u Hu. pose proof (HMax u (Hin g u Hu)). assert (v = M); [|lra]. apply (Rmult_eq_reg_l (size / M)); lra.
  - intros i j f g v v' w w' Hi Hj Hw Hw'. rewrite nth_error_map, Hi in Hw. rewrite nth_error_map, Hj in Hw'. cbn in Hw, Hw'. injection Hw as <-. injection Hw' as <-.
    rewrite !Kx. split; [split|ring]; intros H; [apply Rmult_le_compat_l; lra|]. apply (Rmult_le_reg_l (size / M)); lra.
Qed.

(** any method: if the importances are numbers, none negative and one positive *)
Theorem C103_sizes_partial srt lower m d title k fig size imps :
  visualize xR srt lower m d "graph" title k = Ok fig -> pd_fi d = Some (fin_table imps) -> (0 < size)%R -> nonneg_table imps ->
  sized size imps (figure_nodes xR (Fin size) fig).
Proof.
  intros E Hfi Hs Hn. destruct (graph_figure _ _ _ _ _ _ _ _ E) as (t & e & l & ->). rewrite Hfi. unfold figure_nodes. cbn [snd flat_map]. rewrite app_nil_r. apply nodes_of_table; assumption.
Qed.

(** the partial dependence methods: importances are never negative, so one positive importance is enough *)
Section Fitted.
  Context {C G : Type} (O : cell_ops C) (R : rng_ops G) (srt : sorter) (lower : string -> string).
  Hypothesis HO : cell_ok O.
  Hypothesis HR : rng_ok R.
  Hypothesis Hsrt : sorter_ok srt.

  Theorem C103_fit_partial kd s a s' h Xs title k fig size :
    wf_frame (a_X a) -> PdMethods.fit O xR R srt kd s a = (s', Ok tt) -> m_X s' = Some Xs -> explains O xR a (fun r => Fin (h r)) Xs ->
    pd_plot xR srt lower kd s' "graph" title k = Ok fig -> (0 < size)%R ->
    exists imps, m_fi s' = Some (fin_table imps) /\ Permutation (map fst imps) (PdMethodFacts.all_features a)
      /\ ((exists f v, In (f, v) imps /\ v <> 0%R) -> sized size imps (figure_nodes xR (Fin size) fig)).
  Proof.
    intros HX H HXs He Hp Hs. destruct (C20_fit_importance O HO R HR srt Hsrt kd s a s' h Xs HX H HXs He) as (t & Ht & HP & Hv & _).
    assert (Hreal : exists imps, t = fin_table imps /\ forall f v, In (f, v) imps -> (0 <= v)%R).
    { clear - Hv. induction t as [|[f v] t IH]; [exists []; split; [reflexivity|intros ? ? []]|].
      destruct IH as (imps & -> & Hn). { intros g w Hg. apply Hv. right. exact Hg. }
      destruct (Hv f v (or_introl eq_refl)) as (p & _ & ->). eexists ((f, _) :: imps). split; [reflexivity|].
      intros g w [E|Hg]; [|exact (Hn g w Hg)]. injection E as <- <-. apply Rspread_nonneg. }
    destruct Hreal as (imps & -> & Hn). exists imps. split; [exact Ht|]. split.
    { unfold fin_table in HP. rewrite map_map in HP. exact HP. }
    intros (f & v & Hf & Hv0). assert (Hnt : nonneg_table imps) by (split; [exact Hn|]; exists f, v; split; [exact Hf|]; pose proof (Hn f v Hf); lra).
    unfold pd_plot in Hp. destruct kd as [norm|].
    - destruct (m_ova s'); [|discriminate]. destruct (m_fi_obj s'); [|discriminate]. eapply C103_sizes_partial; [exact Hp|exact Ht|exact Hs|exact Hnt].
    - destruct (m_ovo s'); [|discriminate]. destruct (m_fi_obj s'); [|discriminate]. eapply C103_sizes_partial; [exact Hp|exact Ht|exact Hs|exact Hnt].
  Qed.
End Fitted.

(** ** Where it fails *)
Definition default_size : ext Q := Fin (1800 # 1).

(** a depth: the feature at the root of every tree is the most important one, and its node has area
    zero; the least important feature has the biggest node *)
Theorem C103_depth_refuted : exists m fig, forest_plot m "graph" "default" none = Ok fig
  /\ cs_fi (fst (forestQ m)) = Some [("x", q 0); ("y", q 1); ("w", q 2); ("z", q 3)]
  /\ figure_nodes xQ default_size fig = [("x", q 0); ("y", q 600); ("w", q 1200); ("z", q 1800)].
Proof. eexists big_forest, _. split; [vm_compute; reflexivity|]. split; vm_compute; reflexivity. Qed.
(** all importances negative (the score improves when either feature is shuffled): the less important
    feature has the bigger node, bigger than the requested size *)
Theorem C103_negative_refuted : exists a s log fig, ex_fit (MSE xQ) 5 (sj_init (r_seed rotR 1)) a = (s, Ok tt, log)
  /\ sj_fi s = Some [("a", Fin (-240 # 1)); ("b", Fin (-2553 # 5))]
  /\ sj_plot xQ isort same s "graph" "default" none = Ok fig
  /\ figure_nodes xQ default_size fig = [("a", q 1800); ("b", Fin (7659 # 2))].
Proof. eexists (ex_args times (ex_y [40; 35; 3; 0; 0]%Z) None 2), _, _, _. split; [vm_compute; reflexivity|]. split; [vm_compute; reflexivity|]. split; vm_compute; reflexivity. Qed.
(** the largest importance is zero: the areas are not numbers *)
Theorem C103_zero_refuted : exists a s log fig, ex_fit (MSE xQ) 5 (sj_init (r_seed rotR 1)) a = (s, Ok tt, log)
  /\ sj_fi s = Some [("b", Fin (0 # 1)); ("a", Fin (-759 # 5))]
  /\ sj_plot xQ isort same s "graph" "default" none = Ok fig
  /\ figure_nodes xQ default_size fig = [("b", NaN); ("a", NInf)].
Proof. eexists (ex_args only_a (ex_y [40; 35; 3; 0; 0]%Z) None 2), _, _, _. split; [vm_compute; reflexivity|]. split; [vm_compute; reflexivity|]. split; vm_compute; reflexivity. Qed.

(** ** Cases meeting the hypotheses *)
Example C103_example : exists fig,
  visualize xR isort same HStatistic {| pd_ovo := [("a", "b", Fin 1%R)]; pd_ova := None; pd_fi := Some (fin_table [("a", 3%R); ("b", 1%R)]); pd_int_asc := false; pd_imp_asc := false;
     pd_directed := false; pd_full := None; pd_cond := [] |} "graph" "default" (no_all_kwargs (V := ext R)) = Ok fig
  /\ nonneg_table [("a", 3%R); ("b", 1%R)] /\ (0 < 1800)%R.
Proof.
  eexists. split; [reflexivity|]. split; [|lra]. split.
  - intros f v [E|[E|[]]]; injection E as _ <-; lra.
  - exists "a", 3%R. split; [left; reflexivity|lra].
Qed.
Example C103_fit_example : exists fig,
  snd (fitQ (Friedman true) init0 (mkargs exP exX None true None)) = Ok tt
  /\ pd_plot xQ isort same (Friedman true) (fst (fitQ (Friedman true) init0 (mkargs exP exX None true None))) "graph" "default" none = Ok fig
  /\ exists f v, In (f, Fin v) (match m_fi (fst (fitQ (Friedman true) init0 (mkargs exP exX None true None))) with Some t => t | None => [] end) /\ Qlt 0 v
  /\ map fst (figure_nodes xQ default_size fig) = ["b"; "a"].
Proof. eexists. split; [vm_compute; reflexivity|]. split; [vm_compute; reflexivity|]. do 2 eexists. split; [vm_compute; left; reflexivity|]. split; vm_compute; reflexivity. Qed.

Print Assumptions C103_sizes_partial.
Print Assumptions C103_fit_partial.
Print Assumptions C103_depth_refuted.
Print Assumptions C103_negative_refuted.
Print Assumptions C103_zero_refuted.
