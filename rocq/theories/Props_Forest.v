(** Properties of the conditional minimal depth method and the minimal depth importance:
    C34 - C40, C69 and the forest part of C47. *)
From Verif Require Import Py Num NumR Sorting Frame CondDepth TreeFacts CondDepthFacts ForestFacts CompareFacts.
From Coq Require Import Reals Lra QArith.
Open Scope string_scope.
Open Scope nat_scope.
Open Scope list_scope.

(** ** Example trees *)
(* 0: splits on feature 0;  1 and 6: on feature 1;  3: on feature 0;  numbered depth-first *)
Definition ex_tree : btree :=
  Split 0 0 (Split 1 1 (Leaf 2) (Split 3 0 (Leaf 4) (Leaf 5))) (Split 6 1 (Leaf 7) (Leaf 8)).
Definition ex_arrays : tree := {|
  tr_left := [1; 2; -1; 4; -1; -1; 7; -1; -1]%Z;
  tr_right := [6; 3; -1; 5; -1; -1; 8; -1; -1]%Z;
  tr_feat := [0; 1; -2; 0; -2; -2; 1; -2; -2]%Z |}.
(* the same shape as numbered by the best-first builder: siblings are consecutive *)
Definition ex_tree_bf : btree :=
  Split 0 0 (Split 1 1 (Split 3 3 (Split 5 2 (Leaf 7) (Leaf 8)) (Leaf 6)) (Leaf 4)) (Leaf 2).
Definition ex_arrays_bf : tree := {|
  tr_left := [1; 3; -1; 5; -1; 7; -1; -1; -1]%Z;
  tr_right := [2; 4; -1; 6; -1; 8; -1; -1; -1]%Z;
  tr_feat := [0; 1; -2; 3; -2; 2; -2; -2; -2]%Z |}.
(* two shallowest 1-nodes, 1 and 7; feature 2 occurs three levels below the first one only *)
Definition ex_tree_two : btree :=
  Split 0 0 (Split 1 1 (Leaf 2) (Split 3 3 (Leaf 4) (Split 5 3 (Leaf 6) (Split 7 2 (Leaf 8) (Leaf 9))))) (Split 10 1 (Leaf 11) (Leaf 12)).
Definition ex_arrays_two : tree := {|
  tr_left := [1; 2; -1; 4; -1; 6; -1; 8; -1; -1; 11; -1; -1]%Z;
  tr_right := [10; 3; -1; 5; -1; 7; -1; 9; -1; -1; 12; -1; -1]%Z;
  tr_feat := [0; 1; -2; 3; -2; 3; -2; 2; -2; -2; 1; -2; -2]%Z |}.

Ltac stored_tac :=
  split; [reflexivity|split; [reflexivity|split; [reflexivity|split]]];
  [apply NoDup_Permutation; [vm_compute; repeat constructor; cbn; intuition discriminate|apply seq_NoDup|];
   intros x; vm_compute; intuition auto
  |intros d s H; vm_compute in H; repeat (destruct H as [H|H]; [injection H as <- <-; vm_compute; auto|]); destruct H].
Lemma ex_stored : stored ex_arrays ex_tree. Proof. stored_tac. Qed.
Lemma ex_stored_bf : stored ex_arrays_bf ex_tree_bf. Proof. stored_tac. Qed.
Lemma ex_stored_two : stored ex_arrays_two ex_tree_two. Proof. stored_tac. Qed.

(** ** C34: breadth-first depths *)
Theorem C34_breadth_first T t : stored T t ->
  exists dep sp, bfs T = Ok (dep, sp)
    (* the loop ends by itself, whatever bound on the iterations is allowed *)
    /\ (exists sp0, forall k, node_count T <= k -> bfs_loop T k [0] 0 (repeat 0 (node_count T)) [] = Ok (dep, sp0))
    (* each node has its distance from the root *)
    /\ length dep = node_count T
    /\ (forall d s, In (d, s) (subs 0 t) -> nth_error dep (root s) = Some d)
    (* the keys are the features used, each once *)
    /\ NoDup (map fst sp)
    /\ (forall k, In k (map fst sp) <-> exists f, k = Z.of_nat f /\ exists d s, In (d, s) (subs 0 t) /\ splits_on f s = true)
    (* and list exactly the nodes splitting on the feature, shallowest first *)
    /\ (forall f l, assoc Z.eqb (Z.of_nat f) sp = Some l ->
          exists nodes, l = map (fun x => root (snd x)) nodes
            /\ Permutation nodes (filter (fun x => splits_on f (snd x)) (subs 0 t))
            /\ StronglySorted (fun a b => fst a <= fst b) nodes).
Proof.
  intros H. destruct (bfs_loop_tree T t H) as (dep & sp0 & E & (l0 & El) & R).
  exists dep, (filter (fun e => negb (Z.eqb (fst e) (-2))) sp0).
  split; [unfold bfs; rewrite E by lia; cbn [bind fst snd]; rewrite El; reflexivity|].
  split; [exists sp0; exact E|]. destruct R as [R1 R2 R3 R4 R5].
  split; [exact R1|split; [exact R2|split; [exact R3|split]]].
  - intros k. rewrite R4. split; intros (f & -> & Hf); exists f; (split; [reflexivity|]).
    + destruct (feature_nodes f t) as [|[d s] L] eqn:EL; [congruence|]. exists d, s.
      assert (Hi : In (d, s) (feature_nodes f t)) by (rewrite EL; left; reflexivity). apply filter_In in Hi. exact Hi.
    + destruct Hf as (d & s & Hs & Hf). intros EL. assert (Hi : In (d, s) (feature_nodes f t)) by (apply filter_In; auto). rewrite EL in Hi. destruct Hi.
  - intros f l Ef. assert (Hne : feature_nodes f t <> []).
    { assert (Hk : In (Z.of_nat f) (map fst (filter (fun e => negb (Z.eqb (fst e) (-2))) sp0))) by (apply (assoc_keys Z.eqb zeqb_eq); eauto).
      apply R4 in Hk as (f' & E' & Hne). apply Nat2Z.inj in E' as <-. exact Hne. }
    destruct (R5 f Hne) as (L & E5 & HP & HS). exists L. split; [congruence|]. split; [exact HP|exact HS].
Qed.
Print Assumptions C34_breadth_first.

Example C34_example :
  stored ex_arrays ex_tree /\ bfs ex_arrays = Ok ([0; 1; 2; 2; 3; 3; 1; 2; 2], [(0%Z, [0; 3]); (1%Z, [1; 6])]).
Proof. split; [exact ex_stored|reflexivity]. Qed.

(** ** C35: id ranges of subtrees *)
Lemma bfs_result_of T t dep sp : stored T t -> bfs T = Ok (dep, sp) -> bfs_result T t dep sp.
Proof. intros H E. destruct (bfs_tree T t H) as (dep' & sp' & E' & R). rewrite E in E'. injection E' as <- <-. exact R. Qed.

Theorem C35_subtree_range T t dep sp d s : stored T t -> depth_first t -> bfs T = Ok (dep, sp) -> In (d, s) (subs 0 t) ->
  forall j, root s <= j <= max_id dep (root s) (depth_of dep (root s)) <-> In j (ids s).
Proof.
  intros Hst Hdf E H j. pose proof (bfs_result_of T t dep sp Hst E) as Hb.
  rewrite (depth_of_node T t dep sp Hb d s H), (max_id_interval T t dep sp Hst Hdf Hb d s H).
  destruct (subtree_interval T t dep sp Hst Hdf Hb d s H) as (Hi & _ & _). rewrite Hi at 2. rewrite in_seq.
  assert (1 <= length (ids s)) by (destruct s; cbn; lia). lia.
Qed.
Print Assumptions C35_subtree_range.

Example C35_example : depth_first ex_tree /\ max_id [0; 1; 2; 2; 3; 3; 1; 2; 2] 1 1 = 5 /\ max_id [0; 1; 2; 2; 3; 3; 1; 2; 2] 6 1 = 8.
Proof. vm_compute; auto. Qed.

(** ** C36: the value of a tree *)
(** what a tree reports for an ordered pair of features *)
Definition reports (t : btree) (f1 f2 : nat) (r : option Z * bool) : Prop :=
  (feature_nodes f1 t = [] \/ feature_nodes f2 t = [] -> r = (None, false))
  /\ (feature_nodes f1 t <> [] -> feature_nodes f2 t <> [] ->
      (exists v, fst r = Some v /\ least_contribution f2 (shallowest f1 t) v)
      /\ (snd r = true <-> exists s, In s (shallowest f1 t) /\ below f2 s <> [])).

Theorem C36_conditional_depth T t dep sp f1 f2 : stored T t -> depth_first t -> bfs T = Ok (dep, sp) ->
  reports t f1 f2 (cmd_pair dep sp f1 f2).
Proof.
  intros Hst Hdf E. pose proof (bfs_result_of T t dep sp Hst E) as Hb. split.
  - intros H. exact (cmd_pair_missing T t dep sp f1 f2 Hb H).
  - intros H1 H2. destruct (cmd_pair_spec T t dep sp Hst Hdf Hb f1 f2 H1 H2) as (v & o & -> & Hv & Ho). cbn [fst snd]. eauto.
Qed.
Print Assumptions C36_conditional_depth.

(** a tree reports exactly one value *)
Lemma contributes_unique f s v w : contributes f s v -> contributes f s w -> v = w.
Proof.
  unfold contributes. destruct (below f s); [congruence|]. intros [A B] [C D]. specialize (B _ C). specialize (D _ A). lia.
Qed.
Theorem C36_reports_unique t f1 f2 r r' : reports t f1 f2 r -> reports t f1 f2 r' -> r = r'.
Proof.
  intros [A B] [A' B']. destruct (feature_nodes f1 t) eqn:E1; [rewrite A, A' by auto; reflexivity|].
  destruct (feature_nodes f2 t) eqn:E2; [rewrite A, A' by auto; reflexivity|].
  destruct B as [(v & Ev & Hv) Ho]; [discriminate|discriminate|]. destruct B' as [(v' & Ev' & Hv') Ho']; [discriminate|discriminate|].
  destruct r as [a o], r' as [a' o']. cbn [fst snd] in *. f_equal.
  - rewrite Ev, Ev'. f_equal. destruct Hv as [(s & Hs & Hc) Hm], Hv' as [(s' & Hs' & Hc') Hm'].
    specialize (Hm s' v' Hs' Hc'). specialize (Hm' s v Hs Hc). lia.
  - destruct o, o'; intuition congruence.
Qed.
Print Assumptions C36_reports_unique.

Example C36_example :
  cmd_pair [0; 1; 2; 2; 3; 3; 1; 2; 2] [(0%Z, [0; 3]); (1%Z, [1; 6])] 1 0 = (Some 0%Z, true)
  /\ below 0 (Split 1 1 (Leaf 2) (Split 3 0 (Leaf 4) (Leaf 5))) = [1] /\ length (shallowest 1 ex_tree) = 2
  /\ cmd_pair [0; 1; 2; 2; 3; 3; 1; 2; 2] [(0%Z, [0; 3]); (1%Z, [1; 6])] 1 2 = (None, false).
Proof. vm_compute; auto 10. Qed.

(** ** C37: minimum over the f2-descendants *)
(** In a depth-first numbered tree the value plus one never exceeds the distance to an f2-node
    below a shallowest f1-node, and it is the least such distance when every shallowest f1-node
    has an f2-node below it.  Missing: the general case, refuted below. *)
Theorem C37_minimum_partial T t dep sp f1 f2 v o : stored T t -> depth_first t -> bfs T = Ok (dep, sp) ->
  cmd_pair dep sp f1 f2 = (Some v, o) ->
  (forall s k, In s (shallowest f1 t) -> In k (below f2 s) -> (v + 1 <= Z.of_nat k)%Z)
  /\ ((forall s, In s (shallowest f1 t) -> below f2 s <> []) ->
      exists s k, In s (shallowest f1 t) /\ In k (below f2 s) /\ Z.of_nat k = (v + 1)%Z).
Proof.
  intros Hst Hdf E Ev. destruct (C36_conditional_depth T t dep sp f1 f2 Hst Hdf E) as [A B]. rewrite Ev in A, B. cbn [fst snd] in B.
  assert (H1 : feature_nodes f1 t <> []) by (intros H; specialize (A (or_introl H)); discriminate).
  assert (H2 : feature_nodes f2 t <> []) by (intros H; specialize (A (or_intror H)); discriminate).
  destruct (B H1 H2) as [(v' & [= <-] & (s0 & Hs0 & Hc0) & Hmin) _]. split.
  - intros s k Hs Hk. assert (exists w, contributes f2 s w) as (w & Hw).
    { unfold contributes. destruct (below f2 s) as [|b bs] eqn:Eb; [eauto|].
      destruct (list_min_spec b bs) as [M1 M2]. exists (Z.of_nat (list_min b bs) - 1)%Z. rewrite Z.sub_add. split; [apply in_map, M1|].
      intros x Hx. apply in_map_iff in Hx as (y & <- & Hy). specialize (M2 y Hy). lia. }
    specialize (Hmin s w Hs Hw). unfold contributes in Hw. destruct (below f2 s) as [|b bs]; [destruct Hk|].
    destruct Hw as [_ Hw]. specialize (Hw (Z.of_nat k) (in_map _ _ _ Hk)). lia.
  - intros Hall. specialize (Hall s0 Hs0). unfold contributes in Hc0. destruct (below f2 s0) as [|b bs] eqn:Eb; [congruence|].
    destruct Hc0 as [Hc0 _]. apply in_map_iff in Hc0 as (k & Ek & Hk). exists s0, k. rewrite Eb. auto.
Qed.
Print Assumptions C37_minimum_partial.

(** A shallowest f1-node without f2 below it pulls the value down to the depth of a leaf. *)
Theorem C37_minimum_refuted : exists T t dep sp f1 f2 v,
  stored T t /\ depth_first t /\ bfs T = Ok (dep, sp) /\ cmd_pair dep sp f1 f2 = (Some v, true)
  /\ (exists s, In s (shallowest f1 t) /\ below f2 s <> [])
  /\ forall s k, In s (shallowest f1 t) -> In k (below f2 s) -> (v + 1 < Z.of_nat k)%Z.
Proof.
  exists ex_arrays_two, ex_tree_two. do 2 eexists. exists 1, 2, 1%Z.
  split; [exact ex_stored_two|split; [reflexivity|split; [reflexivity|split; [reflexivity|split]]]].
  - exists (Split 1 1 (Leaf 2) (Split 3 3 (Leaf 4) (Split 5 3 (Leaf 6) (Split 7 2 (Leaf 8) (Leaf 9))))). split; [left; reflexivity|discriminate].
  - intros s k Hs Hk. vm_compute in Hs. destruct Hs as [<-|[<-|[]]]; vm_compute in Hk; [destruct Hk as [<-|[]]; reflexivity|destruct Hk].
Qed.
Print Assumptions C37_minimum_refuted.

(** Trees grown best-first (max_leaf_nodes) are not numbered depth-first: an f2-node below the
    only f1-node is missed altogether. *)
Theorem C37_best_first_refuted : exists T t dep sp f1 f2 s,
  stored T t /\ bfs T = Ok (dep, sp) /\ shallowest f1 t = [s] /\ below f2 s = [2] /\ cmd_pair dep sp f1 f2 = (Some 0%Z, false).
Proof.
  exists ex_arrays_bf, ex_tree_bf. do 2 eexists. exists 1, 2. eexists. split; [exact ex_stored_bf|]. split; [reflexivity|]. split; [reflexivity|]. split; reflexivity.
Qed.
Print Assumptions C37_best_first_refuted.

(** ** C38: summary of a forest *)
(** A row of the summary describes the ordered pair of the column numbers [i] and [j]. *)
Definition describes {V} (N : num_ops V) (names : list string) (vals : list (option Z * bool)) (i j : nat) (r : cmd_row V) : Prop :=
  nth_error names i = Some (cr_root r) /\ nth_error names j = Some (cr_var r)
  /\ (somes (map fst vals) = [] -> cr_value r = n_nan N)
  /\ (somes (map fst vals) <> [] -> cr_value r = np_mean N (map (n_ofZ N) (somes (map fst vals))))
  /\ cr_occ r = length (filter snd vals).

Definition occ_then_value {V} (N : num_ops V) (a b : cmd_row V) : Prop :=
  cr_occ b < cr_occ a \/ cr_occ a = cr_occ b /\ le_dir N true (cr_value a) (cr_value b) = true.

Theorem C38_summary {V} (N : num_ops V) srt (Hn : num_ord_ok N) (Hs : sorter_ok srt) s m names ts :
  fo_names m = Some names -> NoDup names -> Forall2 stored (fo_trees m) ts -> fo_trees m <> [] ->
  exists ovo, cs_ovo (fst (cmd_fit N srt s m)) = Some ovo
    (* one row per ordered pair of distinct features *)
    /\ Permutation (map (fun r => (cr_root r, cr_var r)) ovo) (filter (fun p => negb (String.eqb (fst p) (snd p))) (list_prod names names))
    (* describing what the trees report *)
    /\ (forall r, In r ovo -> exists i j vals, i <> j /\ describes N names vals i j r
          /\ Forall2 (fun T v => exists dep sp, bfs T = Ok (dep, sp) /\ v = cmd_pair dep sp i j) (fo_trees m) vals)
    (* most frequent first, then smallest value, missing values last *)
    /\ StronglySorted (occ_then_value N) ovo.
Proof.
  intros En Hnd HF Hne. destruct (trees_bfs (fo_trees m) ts HF) as (infos & E & El & HB & HI).
  assert (Hi : infos <> []) by (intros ->; destruct (fo_trees m); [congruence|discriminate]).
  unfold cmd_fit. rewrite En. unfold calculate_cmd. rewrite E. cbn [bind].
  destruct infos as [|i0 is] eqn:Ei; [congruence|]. rewrite <- Ei in *. clear Ei i0 is.
  destruct (summarise_spec N srt infos names Hi Hs Hn Hnd) as [HP HS].
  set (ovo := summarise N srt _ names) in *. exists ovo.
  split; [destruct (minimal_depth_importance N srt names (Some infos)); reflexivity|]. split; [|split].
  - etransitivity; [apply Permutation_map, HP|]. rewrite map_map. cbn [cr_root cr_var summary_row].
    assert (G : forall L, (forall k, In k L -> fst k < length names /\ snd k < length names) ->
      map (fun k => (nth (fst k) names "", nth (snd k) names "")) (filter (fun k => negb (fst k =? snd k)) L)
      = filter (fun p => negb (String.eqb (fst p) (snd p))) (map (fun k => (nth (fst k) names "", nth (snd k) names "")) L)).
    { induction L as [|k L IH]; intros HL; [reflexivity|]. cbn [map filter fst snd].
      assert (Ee : String.eqb (nth (fst k) names "") (nth (snd k) names "") = (fst k =? snd k)).
      { destruct (HL k (or_introl eq_refl)). apply eq_true_iff_eq. rewrite String.eqb_eq, Nat.eqb_eq. split; [|intros ->; reflexivity].
        intros Ex. apply (proj1 (NoDup_nth names "") Hnd); assumption. }
      rewrite Ee. destruct (fst k =? snd k); cbn [negb map]; [|f_equal]; apply IH; intros; apply HL; right; assumption. }
    change (fun x : nat * nat => (cr_root (summary_row N names infos x), cr_var (summary_row N names infos x)))
      with (fun k : nat * nat => (nth (fst k) names "", nth (snd k) names "")).
    rewrite G by (intros k Hk; apply grid2_In, Hk).
    assert (G2 : map (fun k : nat * nat => (nth (fst k) names "", nth (snd k) names "")) (grid2 (length names)) = list_prod names names).
    { assert (Hseq : map (fun i => nth i names "") (seq 0 (length names)) = names).
      { apply nth_ext with (d := "") (d' := ""); [rewrite map_length, seq_length; reflexivity|]. intros n Hlt. rewrite map_length, seq_length in Hlt.
        rewrite (nth_indep _ "" ((fun i => nth i names "") 0)) by (rewrite map_length, seq_length; exact Hlt).
        rewrite (map_nth (fun i => nth i names "")), seq_nth by exact Hlt. reflexivity. }
      transitivity (list_prod (map (fun i => nth i names "") (seq 0 (length names))) (map (fun i => nth i names "") (seq 0 (length names)))); [|rewrite Hseq; reflexivity].
      unfold grid2. clear. generalize (seq 0 (length names)) at 2 4 as B. generalize (seq 0 (length names)) as A. intros A B.
      induction A as [|a A IHA]; [reflexivity|]. cbn [list_prod map]. rewrite map_app, IHA, !map_map. reflexivity. }
    rewrite G2. reflexivity.
  - intros r Hr. apply (Permutation_in _ HP) in Hr. apply in_map_iff in Hr as ([i j] & <- & Hk). apply filter_In in Hk as [Hk Hij].
    apply grid2_In in Hk as [H1 H2]. cbn [fst snd] in *. apply negb_true_iff, Nat.eqb_neq in Hij.
    exists i, j, (map (fun x : tree_info => cmd_pair (fst x) (snd x) i j) infos). split; [exact Hij|]. split.
    + split; [apply nth_error_nth'; exact H1|]. split; [apply nth_error_nth'; exact H2|]. cbn [cr_value cr_occ summary_row fst snd].
      unfold mean_defined. split; [intros ->; reflexivity|]. split; [|reflexivity].
      destruct (somes (map fst (map (fun x : tree_info => cmd_pair (fst x) (snd x) i j) infos))); [congruence|reflexivity].
    + clear -HB. induction HB as [|T x trees infos H HB IH]; cbn; constructor; [|exact IH]. exists (fst x), (snd x). rewrite H. split; [destruct x|]; reflexivity.
  - eapply StronglySorted_impl; [|exact HS]. intros a b _ _. unfold cmd_le, occ_then_value.
    destruct (Nat.ltb_spec (cr_occ b) (cr_occ a)); [auto|]. destruct (Nat.ltb_spec (cr_occ a) (cr_occ b)); [discriminate|]. intros HH. right. split; [lia|exact HH].
Qed.
Print Assumptions C38_summary.

(** With depth-first numbered trees the rows average what the trees report (C36). *)
Theorem C38_values {V} (N : num_ops V) srt (Hn : num_ord_ok N) (Hs : sorter_ok srt) s m names ts :
  fo_names m = Some names -> NoDup names -> Forall2 stored (fo_trees m) ts -> Forall depth_first ts -> fo_trees m <> [] ->
  exists ovo, cs_ovo (fst (cmd_fit N srt s m)) = Some ovo
    /\ forall i j a b, i <> j -> nth_error names i = Some a -> nth_error names j = Some b ->
       exists r vals, In r ovo /\ cr_root r = a /\ cr_var r = b /\ Forall2 (fun t v => reports t i j v) ts vals /\ describes N names vals i j r.
Proof.
  intros En Hnd HF Hdf Hne. destruct (C38_summary N srt Hn Hs s m names ts En Hnd HF Hne) as (ovo & Eo & HP & HD & _).
  exists ovo. split; [exact Eo|]. intros i j a b Hij Ha Hb.
  assert (Hab : a <> b) by (intros ->; apply Hij; apply (proj1 (NoDup_nth_error names) Hnd); [apply nth_error_Some; congruence|congruence]).
  assert (Hin : In (a, b) (map (fun r => (cr_root r, cr_var r)) ovo)).
  { apply (Permutation_in _ (Permutation_sym HP)). apply filter_In. split.
    - apply in_prod; eapply nth_error_In; eassumption.
    - apply negb_true_iff, String.eqb_neq. exact Hab. }
  apply in_map_iff in Hin as (r & Er & Hr). assert (Era : cr_root r = a) by congruence. assert (Erb : cr_var r = b) by congruence.
  destruct (HD r Hr) as (i' & j' & vals & _ & Hd & HV). destruct Hd as (D1 & D2 & D3).
  assert (i' = i) as ->. { apply (proj1 (NoDup_nth_error names) Hnd); [apply nth_error_Some; congruence|congruence]. }
  assert (j' = j) as ->. { apply (proj1 (NoDup_nth_error names) Hnd); [apply nth_error_Some; congruence|congruence]. }
  exists r, vals. split; [exact Hr|split; [exact Era|split; [exact Erb|split; [|split; [exact D1|split; [exact D2|exact D3]]]]]].
  clear -HF Hdf HV. revert vals HV. induction HF as [|T t trees ts H HF IH]; intros vals HV; inversion HV as [|? v ? vs (dep & sp & E & ->) HV']; subst; [constructor|].
  inversion Hdf; subst. constructor; [|auto]. apply (C36_conditional_depth T); assumption.
Qed.
Print Assumptions C38_values.

Definition ex_forest : forest := {| fo_names := Some ["x"; "y"]; fo_trees := [ex_arrays; ex_arrays] |}.
Example C38_example : Forall2 stored (fo_trees ex_forest) [ex_tree; ex_tree] /\
  cs_ovo (fst (cmd_fit xQ isort cs_init ex_forest))
  = Some [{| cr_root := "x"; cr_var := "y"; cr_value := Fin 0%Q; cr_occ := 2 |}; {| cr_root := "y"; cr_var := "x"; cr_value := Fin 0%Q; cr_occ := 2 |}].
Proof. split; [repeat (apply Forall2_cons; [exact ex_stored|]); apply Forall2_nil|vm_compute; reflexivity]. Qed.

(** ** C39: minimal depth importance *)
Theorem C39_importance {V} (N : num_ops V) srt (Hn : num_ord_ok N) (Hs : sorter_ok srt) s m names ts :
  fo_names m = Some names -> Forall2 stored (fo_trees m) ts -> known_features (length names) ts ->
  (exists t f, In t ts /\ feature_nodes f t <> []) ->
  exists fi, snd (cmd_fit N srt s m) = Ok tt /\ cs_fi (fst (cmd_fit N srt s m)) = Some fi
    (* one row per used feature: the mean over the trees using it of the depth of its shallowest split *)
    /\ Permutation fi (map (importance_row N names ts) (filter (used_in ts) (seq 0 (length names))))
    (* ascending *)
    /\ StronglySorted (fun a b => le_dir N true (snd a) (snd b) = true) fi.
Proof.
  intros En HF Hk (t & f & Ht & Hf). destruct (trees_bfs (fo_trees m) ts HF) as (infos & E & El & HB & HI).
  assert (Hi : infos <> []). { intros ->. destruct (fo_trees m); [|discriminate]. inversion HF; subst. destruct Ht. }
  pose proof (importance_spec N srt names (fo_trees m) ts infos HF Hk HI Hs Hn) as HH.
  assert (Hu : In f (filter (used_in ts) (seq 0 (length names)))).
  { apply filter_In. split; [apply in_seq; specialize (Hk f t Ht Hf); lia|]. apply used_in_iff. eauto. }
  unfold cmd_fit. rewrite En. unfold calculate_cmd. rewrite E. cbn [bind]. destruct infos as [|i0 is] eqn:Ei; [congruence|]. rewrite <- Ei in *.
  destruct (filter (used_in ts) (seq 0 (length names))) as [|u us]; [destruct Hu|].
  destruct HH as (fi & Efi & HP & HS). rewrite Efi. exists fi. split; [reflexivity|split; [reflexivity|split; [exact HP|exact HS]]].
Qed.
Print Assumptions C39_importance.

(** the row of a feature, unfolded: [first_use] is the least depth of a node splitting on it *)
Theorem C39_first_use f t d : first_use f t = Some d <->
  (exists s, In (d, s) (subs 0 t) /\ splits_on f s = true) /\ forall d' s', In (d', s') (subs 0 t) -> splits_on f s' = true -> d <= d'.
Proof.
  assert (G : forall d', (exists s, In (d', s) (subs 0 t) /\ splits_on f s = true) <-> In d' (map fst (feature_nodes f t))).
  { intros d'. rewrite in_map_iff. unfold feature_nodes. split.
    - intros (s & H & Hf). exists (d', s). split; [reflexivity|apply filter_In; auto].
    - intros ([d0 s] & <- & H). apply filter_In in H. exists s. exact H. }
  unfold first_use. rewrite G. destruct (map fst (feature_nodes f t)) as [|x l] eqn:E; [split; [discriminate|intros [[] _]]|].
  destruct (list_min_spec x l) as [M1 M2]. split.
  - intros [= <-]. split; [exact M1|]. intros d' s' H Hf. apply M2. rewrite <- E. rewrite E. apply G. eauto.
  - intros [H1 H2]. f_equal. assert (list_min x l <= d) by (apply M2, H1).
    apply G in M1 as (s & Hs & Hf). specialize (H2 _ _ Hs Hf). lia.
Qed.
Print Assumptions C39_first_use.

Theorem C39_needs_trees {V} (N : num_ops V) srt names : minimal_depth_importance N srt names None = Err ImportanceWithoutInteraction.
Proof. reflexivity. Qed.
Print Assumptions C39_needs_trees.

Example C39_example : cs_fi (fst (cmd_fit xQ isort cs_init {| fo_names := Some ["x"; "y"; "z"; "w"]; fo_trees := [ex_arrays; ex_arrays_bf] |}))
  = Some [("x", Fin 0%Q); ("y", Fin 1%Q); ("w", Fin 2%Q); ("z", Fin 3%Q)].
Proof. vm_compute. reflexivity. Qed.

(** ** C69: fitting a forest *)
(** [fit] succeeds exactly when the forest has a tree with a split and carries feature names. *)
Theorem C69_fit_succeeds_partial {V} (N : num_ops V) srt (Hn : num_ord_ok N) (Hs : sorter_ok srt) s m ts :
  Forall2 stored (fo_trees m) ts -> (forall names, fo_names m = Some names -> known_features (length names) ts) ->
  snd (cmd_fit N srt s m) = match fo_names m with
    | None => Err AttributeError
    | Some names =>
        if existsb (fun t => match t with Leaf _ => false | Split _ _ _ _ => true end) ts then Ok tt
        else match ts with [] => Err ValueError | _ => Err KeyError end
    end.
Proof.
  intros HF Hk. destruct (fo_names m) as [names|] eqn:En; [|unfold cmd_fit; rewrite En; reflexivity]. specialize (Hk names eq_refl).
  destruct (existsb _ ts) eqn:Ex.
  - apply existsb_exists in Ex as (t & Ht & Hsplit). destruct t as [i|i f l r]; [discriminate|].
    destruct (C39_importance N srt Hn Hs s m names ts En HF Hk) as (fi & E & _); [|exact E].
    exists (Split i f l r), f. split; [exact Ht|]. unfold feature_nodes. cbn. rewrite Nat.eqb_refl. discriminate.
  - destruct (trees_bfs (fo_trees m) ts HF) as (infos & E & El & HB & HI).
    unfold cmd_fit. rewrite En. unfold calculate_cmd. rewrite E. cbn [bind].
    destruct infos as [|i0 is] eqn:Ei.
    + destruct (fo_trees m); [|discriminate]. inversion HF. reflexivity.
    + rewrite <- Ei in *. pose proof (importance_spec N srt names (fo_trees m) ts infos HF Hk HI Hs Hn) as HH.
      assert (Hno : filter (used_in ts) (seq 0 (length names)) = []).
      { apply filter_none_all. intros f _. apply not_true_iff_false. intros Hu. apply used_in_iff in Hu as (t & Ht & Hf).
        assert (Hl : exists i, t = Leaf i).
        { destruct t as [i|i g l r]; [eauto|]. exfalso. apply not_true_iff_false in Ex. apply Ex. apply existsb_exists. eauto. }
        destruct Hl as (i & ->). apply Hf. reflexivity. }
      rewrite Hno in HH. rewrite HH. destruct ts; [|reflexivity]. inversion HF as [E0|]. rewrite <- E0 in El. rewrite Ei in El. discriminate.
Qed.
Print Assumptions C69_fit_succeeds_partial.

(** A forest that never splits (constant target, or max_depth so small that nothing is gained)
    makes fit raise KeyError. *)
Definition leaf_arrays : tree := {| tr_left := [-1]%Z; tr_right := [-1]%Z; tr_feat := [-2]%Z |}.
Lemma leaf_stored : stored leaf_arrays (Leaf 0). Proof. stored_tac. Qed.
Theorem C69_fit_refuted : exists m ts, Forall2 stored (fo_trees m) ts /\ fo_trees m <> [] /\ fo_names m = Some ["x"; "y"]
  /\ snd (cmd_fit xQ isort cs_init m) = Err KeyError.
Proof.
  exists {| fo_names := Some ["x"; "y"]; fo_trees := [leaf_arrays] |}, [Leaf 0].
  split; [repeat (apply Forall2_cons; [exact leaf_stored|]); apply Forall2_nil|]. split; [discriminate|]. split; reflexivity.
Qed.
Print Assumptions C69_fit_refuted.

(** ** C47, forest part: a model without names or without trees leaves the results alone *)
Theorem C47_forest_partial {V} (N : num_ops V) srt s m ts :
  Forall2 stored (fo_trees m) ts -> fo_names m = None \/ fo_trees m = [] ->
  let s' := fst (cmd_fit N srt s m) in
  (exists e, snd (cmd_fit N srt s m) = Err e) /\ cs_ovo s' = cs_ovo s /\ cs_fi s' = cs_fi s /\ cmd_compare_ovo N srt s' = cmd_compare_ovo N srt s.
Proof.
  intros HF H. unfold cmd_fit. destruct (fo_names m) as [names|]; [destruct H as [H|H]; [discriminate|]|]; cbn [fst snd]; [|eauto].
  rewrite H. cbn. eauto.
Qed.
Print Assumptions C47_forest_partial.

(** The failed fit above replaces [ovo] but keeps the old importance *)
Theorem C47_forest_refuted : exists m1 m2 ts2, Forall2 stored (fo_trees m2) ts2 /\
  let s1 := fst (cmd_fit xQ isort cs_init m1) in
  snd (cmd_fit xQ isort cs_init m1) = Ok tt /\ snd (cmd_fit xQ isort s1 m2) = Err KeyError
  /\ cs_ovo (fst (cmd_fit xQ isort s1 m2)) <> cs_ovo s1 /\ cs_fi (fst (cmd_fit xQ isort s1 m2)) = cs_fi s1 /\ cs_fi s1 <> None.
Proof.
  exists ex_forest, {| fo_names := Some ["x"; "y"]; fo_trees := [leaf_arrays] |}, [Leaf 0].
  split; [repeat (apply Forall2_cons; [exact leaf_stored|]); apply Forall2_nil|]. vm_compute. repeat split; discriminate.
Qed.
Print Assumptions C47_forest_refuted.

(** ** C40: the undirected comparison table *)
Theorem C40_compare_partial {V} (N : num_ops V) srt (Hn : num_ord_ok N) (Hs : sorter_ok srt) s ovo :
  cs_ovo s = Some ovo -> no_collisions ovo ->
  exists tab, cmd_compare_ovo N srt s = Ok tab
    /\ StronglySorted (fun a b => le_dir N true (snd a) (snd b) = true) tab
    (* every row is the mean over the rows of ovo about its pair *)
    /\ (forall a b v, In (a, b, v) tab -> (exists r, In r ovo /\ cr_root r = a /\ cr_var r = b)
          /\ v = mean_skip N (map cr_value (filter (fun r => same_pairb (cr_root r) (cr_var r) a b) ovo)))
    (* every pair listed in ovo has exactly one row *)
    /\ (forall r, In r ovo -> length (filter (fun e => same_pairb (fst (fst e)) (snd (fst e)) (cr_root r) (cr_var r)) tab) = 1).
Proof. intros E H. exact (CompareFacts.compare_spec N srt s ovo E H Hs Hn). Qed.
Print Assumptions C40_compare_partial.

(** for a fitted forest with numbers in both directions: half the sum of the two *)
Theorem C40_mean_of_directions_partial srt (Hs : sorter_ok srt) s m names ts ovo tab r1 r2 x y v :
  fo_names m = Some names -> NoDup names -> Forall2 stored (fo_trees m) ts -> fo_trees m <> [] ->
  cs_ovo (fst (cmd_fit xR srt s m)) = Some ovo -> no_collisions ovo -> cmd_compare_ovo xR srt (fst (cmd_fit xR srt s m)) = Ok tab ->
  In r1 ovo -> In r2 ovo -> cr_root r1 = cr_var r2 -> cr_var r1 = cr_root r2 -> cr_value r1 = Fin x -> cr_value r2 = Fin y ->
  In (cr_root r1, cr_var r1, v) tab -> v = Fin ((x + y) / 2)%R.
Proof.
  intros En Hnd HF Hne Eo Hc Et H1 H2 E1 E2 Ex Ey Hv.
  destruct (C38_summary xR srt xR_ord Hs s m names ts En Hnd HF Hne) as (ovo' & Eo' & HP & _ & _). rewrite Eo in Eo'. injection Eo' as <-.
  destruct (CompareFacts.compare_spec xR srt _ ovo Eo Hc Hs xR_ord) as (tab' & Et' & _ & HR & _). rewrite Et in Et'. injection Et' as <-.
  destruct (HR _ _ _ Hv) as [_ ->].
  assert (Hn1 : NoDup (map (fun r => (cr_root r, cr_var r)) ovo)).
  { apply (Permutation_NoDup (Permutation_sym HP)). apply NoDup_filter, list_prod_NoDup; assumption. }
  assert (Hne1 : cr_root r1 <> cr_var r1).
  { assert (Hi : In (cr_root r1, cr_var r1) (map (fun r => (cr_root r, cr_var r)) ovo)) by (apply (in_map (fun r => (cr_root r, cr_var r)) ovo r1 H1)).
    apply (Permutation_in _ HP) in Hi. apply filter_In in Hi as [_ Hi]. cbn [fst snd] in Hi. apply negb_true_iff, String.eqb_neq in Hi. exact Hi. }
  pose proof (about_two ovo r1 r2 Hn1 H1 H2 E1 E2 Hne1) as HQ.
  assert (HM : Permutation (map cr_value (filter (about (cr_root r1) (cr_var r1)) ovo)) (map Fin [x; y])).
  { etransitivity; [apply Permutation_map, HQ|]. cbn. rewrite Ex, Ey. reflexivity. }
  clear -HM. destruct (Permutation_length_2_inv (Permutation_sym HM)) as [E|E]; rewrite E.
  - change (mean_skip xR [Fin x; Fin y]) with (np_mean xR (map Fin [x; y])). rewrite xR_mean_fin by discriminate. f_equal. unfold Rmean, Rsum. cbn. field.
  - change (mean_skip xR [Fin y; Fin x]) with (np_mean xR (map Fin [y; x])). rewrite xR_mean_fin by discriminate. f_equal. unfold Rmean, Rsum. cbn. field.
Qed.
Print Assumptions C40_mean_of_directions_partial.

(** names of equal length never collide, so then nothing is missing *)
Theorem C40_equal_lengths {V} (ovo : list (cmd_row V)) n :
  (forall r, In r ovo -> String.length (cr_root r) = n /\ String.length (cr_var r) = n) -> no_collisions ovo.
Proof. intros H r r' Hr Hr' E. destruct (H r Hr), (H r' Hr'). eapply join2_inj; eauto. Qed.
Print Assumptions C40_equal_lengths.

Example C40_example :
  cmd_compare_ovo xQ isort (fst (cmd_fit xQ isort cs_init {| fo_names := Some ["x"; "y"; "z"; "w"]; fo_trees := [ex_arrays_two] |}))
  = Ok [("x", "y", Fin (1 # 2)%Q); ("y", "z", Fin 1%Q); ("w", "z", Fin 1%Q); ("y", "w", Fin (3 # 2)%Q); ("x", "w", Fin 2%Q); ("x", "z", Fin 2%Q)].
Proof. vm_compute. reflexivity. Qed.

(** With the features a, b, ab and bb the pairs (a, bb) and (ab, b) are merged into one row. *)
Theorem C40_compare_refuted : exists m ts names ovo tab,
  fo_names m = Some names /\ NoDup names /\ Forall2 stored (fo_trees m) ts /\
  cs_ovo (fst (cmd_fit xQ isort cs_init m)) = Some ovo /\ snd (cmd_fit xQ isort cs_init m) = Ok tt
  /\ cmd_compare_ovo xQ isort (fst (cmd_fit xQ isort cs_init m)) = Ok tab
  /\ (exists r, In r ovo /\ cr_root r = "ab" /\ cr_var r = "b") /\ length ovo = 12 /\ length tab = 5
  /\ filter (fun e => same_pairb (fst (fst e)) (snd (fst e)) "ab" "b") tab = [].
Proof.
  exists {| fo_names := Some ["a"; "b"; "ab"; "bb"]; fo_trees := [ex_arrays_two] |}, [ex_tree_two], ["a"; "b"; "ab"; "bb"].
  do 2 eexists. split; [reflexivity|]. split; [repeat constructor; cbn; intuition discriminate|].
  split; [repeat (apply Forall2_cons; [exact ex_stored_two|]); apply Forall2_nil|]. split; [vm_compute; reflexivity|]. split; [vm_compute; reflexivity|].
  split; [vm_compute; reflexivity|]. split; [|split; [reflexivity|split; reflexivity]].
  match goal with |- exists r, In r ?l /\ _ =>
    destruct (existsb (fun r => String.eqb (cr_root r) "ab" && String.eqb (cr_var r) "b") l) eqn:E; [|discriminate E];
    apply existsb_exists in E as (r & Hr & E); apply andb_true_iff in E as [E1 E2]; apply String.eqb_eq in E1, E2; exists r; auto
  end.
Qed.
Print Assumptions C40_compare_refuted.
