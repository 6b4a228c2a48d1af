(** Facts about the summary of a forest, the minimal depth importance and the comparison table. *)
From Verif Require Import Py Num Sorting Frame CondDepth TreeFacts CondDepthFacts.

(** ** Lists *)
Section Dedup.
  Context {A : Type} (eqb : A -> A -> bool) (eqb_eq : forall a b, eqb a b = true <-> a = b).

  Lemma dedup_by_In x l : In x (dedup_by eqb l) <-> In x l.
  Proof.
    induction l as [|y l IH]; cbn; [tauto|]. rewrite filter_In, IH. split.
    - intros [H|[H _]]; auto.
    - intros [H|H]; [auto|]. destruct (eqb y x) eqn:E; [apply eqb_eq in E; auto|]. right. split; [exact H|]. reflexivity.
  Qed.

  Lemma dedup_by_NoDup l : NoDup (dedup_by eqb l).
  Proof.
    induction l as [|y l IH]; cbn; [constructor|]. constructor; [|apply NoDup_filter, IH].
    intros H. apply filter_In in H as [_ H]. assert (eqb y y = true) as E by (apply eqb_eq; reflexivity). rewrite E in H. discriminate.
  Qed.

  Lemma filter_id_all (p : A -> bool) l : (forall x, In x l -> p x = true) -> filter p l = l.
  Proof. induction l as [|x l IH]; cbn; intros H; [reflexivity|]. rewrite H by auto. f_equal. apply IH. auto. Qed.
  Lemma filter_none_all (p : A -> bool) l : (forall x, In x l -> p x = false) -> filter p l = [].
  Proof. induction l as [|x l IH]; cbn; intros H; [reflexivity|]. rewrite H by auto. apply IH. auto. Qed.

  Lemma dedup_by_id l : NoDup l -> dedup_by eqb l = l.
  Proof.
    induction 1 as [|x l Hx Hn IH]; cbn; [reflexivity|]. rewrite IH. f_equal. apply filter_id_all. intros y Hy.
    apply negb_true_iff. destruct (eqb x y) eqn:E; [|reflexivity]. apply eqb_eq in E. congruence.
  Qed.

  Lemma dedup_by_app l k : NoDup l -> (forall x, In x k -> In x l) -> dedup_by eqb (l ++ k) = l.
  Proof.
    revert k; induction l as [|x l IH]; intros k Hn Hk.
    - destruct k as [|y k]; [reflexivity|]. destruct (Hk y (or_introl eq_refl)).
    - inversion Hn as [|? ? Hx Hn']; subst. cbn. f_equal.
      assert (G : filter (fun y => negb (eqb x y)) (dedup_by eqb (l ++ k)) = dedup_by eqb (l ++ filter (fun y => negb (eqb x y)) k)).
      { assert (Hc : forall m, filter (fun y => negb (eqb x y)) (dedup_by eqb m) = dedup_by eqb (filter (fun y => negb (eqb x y)) m)).
        { clear -eqb_eq. induction m as [|z m IHm]; [reflexivity|]. cbn [dedup_by filter].
          assert (Hcomm : forall l', filter (fun y => negb (eqb x y)) (filter (fun y => negb (eqb z y)) l') = filter (fun y => negb (eqb z y)) (filter (fun y => negb (eqb x y)) l')).
          { induction l' as [|w l' IHl]; cbn; [reflexivity|]. destruct (eqb z w) eqn:E1, (eqb x w) eqn:E2; cbn; rewrite ?E1, ?E2; cbn; rewrite IHl; reflexivity. }
          destruct (eqb x z) eqn:E; cbn.
          - apply eqb_eq in E as <-. rewrite <- IHm. clear. induction (dedup_by eqb m) as [|w l' IHl]; cbn; [reflexivity|]. destruct (eqb x w) eqn:E; cbn; rewrite ?E; cbn; rewrite IHl; reflexivity.
          - rewrite Hcomm, IHm. reflexivity. }
        rewrite Hc, filter_app. f_equal. f_equal. apply filter_id_all. intros y Hy. apply negb_true_iff.
        destruct (eqb x y) eqn:E; [|reflexivity]. apply eqb_eq in E. congruence. }
      rewrite G. apply IH; [exact Hn'|]. intros y Hy. apply filter_In in Hy as [Hy Hne]. destruct (Hk y Hy) as [<-|H]; [|exact H].
      assert (eqb x x = true) as E by (apply eqb_eq; reflexivity). rewrite E in Hne. discriminate.
  Qed.
End Dedup.

Lemma nat2_eqb_eq a b : nat2_eqb a b = true <-> a = b.
Proof.
  destruct a as [a1 a2], b as [b1 b2]. unfold nat2_eqb. cbn. rewrite andb_true_iff, !Nat.eqb_eq.
  split; [intros [-> ->]; reflexivity|intros H; injection H; auto].
Qed.

Lemma NoDup_app_disj {A} (l k : list A) : NoDup l -> NoDup k -> (forall x, In x l -> ~ In x k) -> NoDup (l ++ k).
Proof.
  induction 1 as [|x l Hx Hl IH]; cbn; intros Hk Hd; [exact Hk|]. constructor; [|apply IH; auto].
  intros H. apply in_app_or in H as [H|H]; [auto|]. apply (Hd x); auto.
Qed.

Lemma list_prod_NoDup {A B} (l : list A) (k : list B) : NoDup l -> NoDup k -> NoDup (list_prod l k).
Proof.
  intros Hl Hk. induction Hl as [|x l Hx Hl IH]; cbn; [constructor|].
  apply NoDup_app_disj; [apply FinFun.Injective_map_NoDup; [|exact Hk]; intros a b E; congruence|exact IH|].
  intros [a b] H1 H2. apply in_map_iff in H1 as (y & E & _). injection E as <- _. apply in_prod_iff in H2. tauto.
Qed.

Definition grid2 (c : nat) : list (nat * nat) := list_prod (seq 0 c) (seq 0 c).
Lemma grid2_NoDup c : NoDup (grid2 c). Proof. apply list_prod_NoDup; apply seq_NoDup. Qed.
Lemma grid2_In c k : In k (grid2 c) <-> fst k < c /\ snd k < c.
Proof. destruct k as [a b]. unfold grid2. rewrite in_prod_iff, !in_seq. cbn. lia. Qed.

Lemma filter_concat {A} (p : A -> bool) ls : filter p (concat ls) = concat (map (filter p) ls).
Proof. induction ls as [|l ls IH]; cbn; [reflexivity|]. rewrite filter_app, IH. reflexivity. Qed.

Lemma filter_one {A B} (eqb : A -> A -> bool) (eqb_eq : forall a b, eqb a b = true <-> a = b) (g : A -> B) l k :
  NoDup l -> In k l -> filter (fun r : A * B => eqb (fst r) k) (map (fun p => (p, g p)) l) = [(k, g k)].
Proof.
  induction 1 as [|x l Hx Hn IH]; intros Hk; [destruct Hk|]. cbn. destruct (eqb x k) eqn:E.
  - apply eqb_eq in E as ->. f_equal. apply filter_none_all. intros [y b] Hy. apply in_map_iff in Hy as (z & Ez & Hz). injection Ez as <- <-.
    cbn. destruct (eqb z k) eqn:E; [|reflexivity]. apply eqb_eq in E. congruence.
  - apply IH. destruct Hk as [->|Hk]; [|exact Hk]. assert (eqb k k = true) by (apply eqb_eq; reflexivity). congruence.
Qed.

(** ** The forest *)
Section Forest.
  Context {V : Type} (N : num_ops V) (srt : sorter).

  Lemma trees_bfs trees ts : Forall2 stored trees ts ->
    exists infos, mapM bfs trees = Ok infos /\ length infos = length trees
      /\ Forall2 (fun T i => bfs T = Ok i) trees infos /\ Forall2 (fun i Tt => bfs_result (fst Tt) (snd Tt) (fst i) (snd i)) infos (combine trees ts).
  Proof.
    induction 1 as [|T t trees ts H HF IH]; [exists []; repeat split; constructor|].
    destruct IH as (infos & E & El & E2 & E3). destruct (bfs_tree T t H) as (dep & sp & Eb & Hb).
    exists ((dep, sp) :: infos). cbn [mapM]. rewrite Eb. cbn [bind]. rewrite E. cbn [bind]. split; [reflexivity|split; [cbn; lia|split; constructor; auto]].
  Qed.

  Lemma raw_keys infos c : infos <> [] ->
    dedup_by nat2_eqb (map fst (concat (map (fun i : tree_info => conditional_minimal_depth (snd i) (fst i) c) infos))) = grid2 c.
  Proof.
    destruct infos as [|i infos]; [congruence|]. intros _. cbn [map concat]. rewrite map_app.
    assert (G : forall i : tree_info, map fst (conditional_minimal_depth (snd i) (fst i) c) = grid2 c).
    { intros j. unfold conditional_minimal_depth. rewrite map_map. cbn [fst]. apply map_id. }
    rewrite G. apply (dedup_by_app nat2_eqb nat2_eqb_eq); [apply grid2_NoDup|]. intros x Hx. rewrite concat_map in Hx.
    apply in_concat in Hx as (l & Hl & Hx). apply in_map_iff in Hl as (l0 & <- & Hl). apply in_map_iff in Hl as (j & <- & _). rewrite G in Hx. exact Hx.
  Qed.

  Lemma raw_group infos c k : In k (grid2 c) ->
    map snd (filter (fun r : raw_row => nat2_eqb (fst r) k) (concat (map (fun i : tree_info => conditional_minimal_depth (snd i) (fst i) c) infos)))
    = map (fun i : tree_info => cmd_pair (fst i) (snd i) (fst k) (snd k)) infos.
  Proof.
    intros Hk. rewrite filter_concat, map_map. induction infos as [|i infos IH]; [reflexivity|]. cbn [map concat]. rewrite map_app.
    unfold conditional_minimal_depth at 1. rewrite (filter_one nat2_eqb nat2_eqb_eq (fun p => cmd_pair (fst i) (snd i) (fst p) (snd p))).
    - cbn [map app snd]. f_equal. exact IH.
    - apply grid2_NoDup.
    - exact Hk.
  Qed.

  (** the row of an ordered pair of column numbers *)
  Definition summary_row (names : list string) (infos : list tree_info) (k : nat * nat) : cmd_row V :=
    let vs := map (fun i : tree_info => cmd_pair (fst i) (snd i) (fst k) (snd k)) infos in
    {| cr_root := nth (fst k) names EmptyString; cr_var := nth (snd k) names EmptyString;
       cr_value := mean_defined N (map fst vs); cr_occ := length (filter snd vs) |}.

  Lemma cmd_le_pre : num_ord_ok N -> total_pre (cmd_le N).
  Proof.
    intros Hn. destruct (le_dir_pre N Hn true) as [Ht Htr]. split; unfold cmd_le.
    - intros a b. destruct (Nat.ltb_spec (cr_occ b) (cr_occ a)), (Nat.ltb_spec (cr_occ a) (cr_occ b)); auto; try lia.
    - intros a b c. destruct (Nat.ltb_spec (cr_occ b) (cr_occ a)), (Nat.ltb_spec (cr_occ a) (cr_occ b)), (Nat.ltb_spec (cr_occ c) (cr_occ b)),
        (Nat.ltb_spec (cr_occ b) (cr_occ c)), (Nat.ltb_spec (cr_occ c) (cr_occ a)), (Nat.ltb_spec (cr_occ a) (cr_occ c)); try lia; try congruence.
      apply Htr.
  Qed.

  Lemma summarise_spec infos names : infos <> [] -> sorter_ok srt -> num_ord_ok N -> NoDup names ->
    let tab := summarise N srt (concat (map (fun i : tree_info => conditional_minimal_depth (snd i) (fst i) (length names)) infos)) names in
    Permutation tab (map (summary_row names infos) (filter (fun k => negb (fst k =? snd k)) (grid2 (length names)))) /\ sorted_by (cmd_le N) tab.
  Proof.
    intros Hi Hs Hn Hd. cbv zeta. unfold summarise. cbv zeta. rewrite raw_keys by exact Hi.
    rewrite (map_ext_in _ (summary_row names infos)).
    2:{ intros k Hk. unfold summary_row. rewrite raw_group by exact Hk. reflexivity. }
    destruct (Hs _ (cmd_le N) (cmd_le_pre Hn) (map (summary_row names infos) (grid2 (length names)))) as [HP HS]. split.
    - etransitivity; [apply Permutation_filter, HP|].
      assert (G : forall L, (forall k, In k L -> In k (grid2 (length names))) ->
        filter (fun r => negb (String.eqb (cr_var r) (cr_root r))) (map (summary_row names infos) L)
        = map (summary_row names infos) (filter (fun k => negb (fst k =? snd k)) L)).
      { induction L as [|k L IH]; intros HL; [reflexivity|]. cbn [map filter cr_var cr_root summary_row].
        assert (Hk := HL k (or_introl eq_refl)). apply grid2_In in Hk as [H1 H2].
        assert (E : String.eqb (nth (snd k) names EmptyString) (nth (fst k) names EmptyString) = (fst k =? snd k)).
        { apply eq_true_iff_eq. rewrite String.eqb_eq, Nat.eqb_eq. split; [|intros ->; reflexivity].
          intros E. symmetry. apply (proj1 (NoDup_nth names EmptyString) Hd); assumption. }
        rewrite E. destruct (fst k =? snd k); cbn [negb map]; [|f_equal]; apply IH; intros; apply HL; right; assumption. }
      rewrite G by auto. reflexivity.
    - apply StronglySorted_filter, HS.
  Qed.

  (** *** Minimal depth importance *)
  (** depth of the shallowest node splitting on a feature *)
  Definition first_use (f : nat) (t : btree) : option nat :=
    match map fst (feature_nodes f t) with [] => None | d :: ds => Some (list_min d ds) end.

  Lemma used_head T t dep sp f : bfs_result T t dep sp ->
    match first_use f t with
    | None => assoc Z.eqb (Z.of_nat f) sp = None
    | Some d => exists l, assoc Z.eqb (Z.of_nat f) sp = Some l /\ depth_of dep (hd 0 l) = d
    end.
  Proof.
    intros Hb. unfold first_use. destruct (map fst (feature_nodes f t)) as [|d ds] eqn:E.
    - assert (Hf : feature_nodes f t = []) by (destruct (feature_nodes f t); [reflexivity|discriminate]).
      destruct (assoc Z.eqb (Z.of_nat f) sp) eqn:Ea; [|reflexivity]. exfalso.
      assert (Hk : In (Z.of_nat f) (map fst sp)) by (apply (assoc_keys Z.eqb zeqb_eq); eauto).
      apply (br_keys _ _ _ _ Hb) in Hk as (f' & Ef & Hne). apply Nat2Z.inj in Ef as <-. congruence.
    - assert (Hf : feature_nodes f t <> []) by (intros H; rewrite H in E; discriminate).
      destruct (br_nodes _ _ _ _ Hb f Hf) as (L & El & HP & HS). exists (map (fun x => root (snd x)) L). split; [exact El|].
      destruct L as [|[d0 s0] L]; [apply Permutation_nil in HP; congruence|]. cbn [map hd snd].
      assert (Hin : In (d0, s0) (subs 0 t)).
      { assert (H : In (d0, s0) (feature_nodes f t)) by (apply (Permutation_in _ HP); left; reflexivity). apply filter_In in H. tauto. }
      rewrite (depth_of_node T t dep sp Hb d0 s0 Hin). destruct (list_min_spec d ds) as [M1 M2]. rewrite <- E in M1, M2.
      assert (Hmin : forall y, In y (feature_nodes f t) -> d0 <= fst y).
      { intros y Hy. apply (Permutation_in _ (Permutation_sym HP)) in Hy. inversion HS as [|? ? _ Hfa]; subst. destruct Hy as [<-|Hy]; [cbn; lia|].
        rewrite Forall_forall in Hfa. apply (Hfa y Hy). }
      assert (list_min d ds <= d0).
      { apply M2. apply in_map_iff. exists (d0, s0). split; [reflexivity|]. apply (Permutation_in _ HP). left. reflexivity. }
      apply in_map_iff in M1 as (y & Ey & Hy). specialize (Hmin y Hy). lia.
  Qed.

  Definition entry_list (infos : list tree_info) : list (Z * nat) :=
    flat_map (fun i => map (fun e => (fst e, depth_of (fst i) (hd 0 (snd e)))) (snd i)) infos.

  Lemma filter_assoc_one {B} (k : Z) (g : Z * list nat -> B) (sp : list (Z * list nat)) : NoDup (map fst sp) ->
    map snd (filter (fun e : Z * B => Z.eqb (fst e) k) (map (fun e => (fst e, g e)) sp))
    = match assoc Z.eqb k sp with None => [] | Some l => [g (k, l)] end.
  Proof.
    induction sp as [|[k' l] sp IH]; intros Hn; [reflexivity|]. cbn in Hn. inversion Hn as [|? ? Hx Hn']; subst. cbn [map filter fst assoc].
    destruct (Z.eqb_spec k' k) as [->|Hne].
    - rewrite Z.eqb_refl. cbn [map snd]. f_equal. rewrite IH by exact Hn'.
      destruct (assoc Z.eqb k sp) eqn:E; [|reflexivity]. exfalso. apply Hx. apply (assoc_keys Z.eqb zeqb_eq). eauto.
    - rewrite (proj2 (Z.eqb_neq k k')) by congruence. apply IH, Hn'.
  Qed.

  Lemma entries_of f infos TT : Forall2 (fun i (Tt : tree * btree) => bfs_result (fst Tt) (snd Tt) (fst i) (snd i)) infos TT ->
    map snd (filter (fun e => Z.eqb (fst e) (Z.of_nat f)) (entry_list infos)) = somes (map (fun Tt => first_use f (snd Tt)) TT).
  Proof.
    induction 1 as [|i Tt infos TT H HF IH]; [reflexivity|]. unfold entry_list, somes in *. cbn [flat_map map]. rewrite filter_app, map_app, IH. f_equal.
    rewrite (filter_assoc_one (Z.of_nat f) (fun e => depth_of (fst i) (hd 0 (snd e)))) by apply (br_nodup _ _ _ _ H).
    pose proof (used_head _ _ _ _ f H) as Hu. destruct (first_use f (snd Tt)).
    - destruct Hu as (l & -> & <-). reflexivity.
    - rewrite Hu. reflexivity.
  Qed.

  Lemma entries_keys infos TT : Forall2 (fun i (Tt : tree * btree) => bfs_result (fst Tt) (snd Tt) (fst i) (snd i)) infos TT ->
    forall k, In k (map fst (entry_list infos)) <-> exists f, k = Z.of_nat f /\ exists Tt, In Tt TT /\ feature_nodes f (snd Tt) <> [].
  Proof.
    induction 1 as [|i Tt infos TT H HF IH]; intros k.
    - cbn. split; [tauto|]. intros (f & _ & Tt & [] & _).
    - unfold entry_list in *. cbn [flat_map]. rewrite map_app, in_app_iff, IH, map_map. cbn [fst].
      change (map (fun x : Z * list nat => fst x) (snd i)) with (map fst (snd i)). rewrite (br_keys _ _ _ _ H k). split.
      + intros [(f & -> & Hf)|(f & -> & Tt' & Hin & Hf)]; exists f; (split; [reflexivity|]); [exists Tt|exists Tt']; cbn; auto.
      + intros (f & -> & Tt' & [<-|Hin] & Hf); [left|right]; eauto.
  Qed.

  Lemma first_use_iff f t : first_use f t <> None <-> feature_nodes f t <> [].
  Proof. unfold first_use. destruct (feature_nodes f t); cbn; split; congruence. Qed.

  Definition used_in (ts : list btree) (f : nat) : bool := existsb (fun t => match first_use f t with Some _ => true | None => false end) ts.
  Definition importance_row (names : list string) (ts : list btree) (f : nat) : string * V :=
    (nth f names EmptyString, np_mean N (map (fun d => n_ofZ N (Z.of_nat d)) (somes (map (first_use f) ts)))).

  Lemma used_in_iff ts f : used_in ts f = true <-> exists t, In t ts /\ feature_nodes f t <> [].
  Proof.
    unfold used_in. rewrite existsb_exists. split; intros (t & Ht & H); exists t; (split; [exact Ht|]).
    - apply first_use_iff. destruct (first_use f t); congruence.
    - apply first_use_iff in H. destruct (first_use f t); congruence.
  Qed.

  (** the features used by the trees are columns of the data *)
  Definition known_features (n : nat) (ts : list btree) : Prop := forall f t, In t ts -> feature_nodes f t <> [] -> f < n.

  Lemma combine_snd {A B} (l : list A) (k : list B) (R : A -> B -> Prop) : Forall2 R l k -> map snd (combine l k) = k.
  Proof. induction 1; cbn; congruence. Qed.

  Lemma importance_spec names trees ts infos : Forall2 stored trees ts -> known_features (length names) ts ->
    Forall2 (fun i Tt => bfs_result (fst Tt) (snd Tt) (fst i) (snd i)) infos (combine trees ts) -> sorter_ok srt -> num_ord_ok N ->
    match filter (used_in ts) (seq 0 (length names)) with
    | [] => minimal_depth_importance N srt names (Some infos) = Err KeyError
    | us => exists fi, minimal_depth_importance N srt names (Some infos) = Ok fi
              /\ Permutation fi (map (importance_row names ts) us) /\ StronglySorted (fun a b => le_dir N true (snd a) (snd b) = true) fi
    end.
  Proof.
    intros HF Hk HI Hs Hn. unfold minimal_depth_importance. fold (entry_list infos).
    pose proof (entries_keys _ _ HI) as HK.
    assert (Hts : map snd (combine trees ts) = ts) by (eapply combine_snd; exact HF).
    assert (HK' : forall k, In k (dedup_by Z.eqb (map fst (entry_list infos))) <-> exists f, k = Z.of_nat f /\ f < length names /\ used_in ts f = true).
    { intros k. rewrite (dedup_by_In Z.eqb zeqb_eq), HK. split.
      - intros (f & -> & Tt & Hin & Hf). exists f. assert (Ht : In (snd Tt) ts) by (rewrite <- Hts; apply in_map, Hin).
        split; [reflexivity|split; [eapply Hk; eassumption|]]. apply used_in_iff. eauto.
      - intros (f & -> & _ & Hu). exists f. split; [reflexivity|]. apply used_in_iff in Hu as (t & Ht & Hf). rewrite <- Hts in Ht.
        apply in_map_iff in Ht as (Tt & <- & Hin). eauto. }
    set (ks := dedup_by Z.eqb (map fst (entry_list infos))) in *.
    assert (HP : Permutation ks (map Z.of_nat (filter (used_in ts) (seq 0 (length names))))).
    { apply NoDup_Permutation; [apply (dedup_by_NoDup Z.eqb zeqb_eq)| |].
      - apply FinFun.Injective_map_NoDup; [intros a b; apply Nat2Z.inj|]. apply NoDup_filter, seq_NoDup.
      - intros k. rewrite HK', in_map_iff. split; intros (f & H).
        + exists f. rewrite filter_In, in_seq. intuition lia.
        + exists f. rewrite filter_In, in_seq in H. intuition lia. }
    rewrite (mapM_total _ (fun z => importance_row names ts (Z.to_nat z))).
    2:{ intros z Hz. apply HK' in Hz as (f & -> & Hlt & _). rewrite Nat2Z.id. rewrite (nth_error_nth' names EmptyString Hlt). unfold importance_row. do 2 f_equal. f_equal.
        assert (E := entries_of f infos _ HI). rewrite <- (map_map snd (first_use f)), Hts in E. rewrite <- E, map_map. reflexivity. }
    cbn [bind].
    assert (HP' : Permutation (map (fun z => importance_row names ts (Z.to_nat z)) ks) (map (importance_row names ts) (filter (used_in ts) (seq 0 (length names))))).
    { etransitivity; [apply Permutation_map, HP|]. rewrite map_map. erewrite map_ext; [reflexivity|]. intros f. cbn. rewrite Nat2Z.id. reflexivity. }
    destruct (filter (used_in ts) (seq 0 (length names))) as [|u us] eqn:Eu.
    - apply Permutation_sym, Permutation_nil in HP'. rewrite HP'. reflexivity.
    - destruct (map (fun z => importance_row names ts (Z.to_nat z)) ks) as [|r rs] eqn:Er; [apply Permutation_nil in HP'; discriminate|].
      destruct (sort_values_ok N srt true (fun r : string * V => snd r) (r :: rs) Hs Hn) as [S1 S2].
      eexists. split; [reflexivity|]. split; [etransitivity; [exact S1|exact HP']|exact S2].
  Qed.
End Forest.
