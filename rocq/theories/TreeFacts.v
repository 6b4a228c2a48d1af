(** Specification of binary trees stored in child arrays, and the facts about the breadth-first
    pass of [CondDepth]. *)
From Verif Require Import Py Num Sorting Frame CondDepth.
From Verif Require PdFacts.

(** ** Specification *)

(** A decision tree whose nodes carry the numbers under which they are stored. *)
Inductive btree := Leaf (i : nat) | Split (i f : nat) (l r : btree).
Definition root (t : btree) : nat := match t with Leaf i => i | Split i _ _ _ => i end.
(** what the array [feature] holds for the root *)
Definition tag (t : btree) : Z := match t with Leaf _ => (-2)%Z | Split _ f _ _ => Z.of_nat f end.
Definition splits_on (f : nat) (t : btree) : bool := match t with Leaf _ => false | Split _ g _ _ => f =? g end.

(** all subtrees with the depth of their root, parents before children and left before right *)
Fixpoint subs (d : nat) (t : btree) : list (nat * btree) :=
  (d, t) :: match t with Leaf _ => [] | Split _ _ l r => subs (S d) l ++ subs (S d) r end.
Definition ids (t : btree) : list nat := map (fun x => root (snd x)) (subs 0 t).

(** the arrays [T] store the tree [t], under any numbering with root 0 *)
Definition stored (T : tree) (t : btree) : Prop :=
  length (tr_left T) = node_count T /\ length (tr_right T) = node_count T
  /\ root t = 0 /\ Permutation (ids t) (seq 0 (node_count T))
  /\ forall d s, In (d, s) (subs 0 t) ->
       match s with
       | Leaf i => nth_error (tr_left T) i = Some (-1)%Z /\ nth_error (tr_right T) i = Some (-1)%Z /\ nth_error (tr_feat T) i = Some (-2)%Z
       | Split i f l r => nth_error (tr_left T) i = Some (Z.of_nat (root l)) /\ nth_error (tr_right T) i = Some (Z.of_nat (root r))
                          /\ nth_error (tr_feat T) i = Some (Z.of_nat f)
       end.

(** scikit-learn's default (depth-first) builder numbers the nodes in preorder *)
Definition depth_first (t : btree) : Prop := ids t = seq 0 (length (ids t)).

(** the nodes splitting on a feature, with their depths *)
Definition feature_nodes (f : nat) (t : btree) : list (nat * btree) := filter (fun x => splits_on f (snd x)) (subs 0 t).

(** ** Levels *)
Fixpoint height (t : btree) : nat := match t with Leaf _ => 1 | Split _ _ l r => S (Nat.max (height l) (height r)) end.
Definition lefts (t : btree) : list btree := match t with Leaf _ => [] | Split _ _ l _ => [l] end.
Definition rights (t : btree) : list btree := match t with Leaf _ => [] | Split _ _ _ r => [r] end.
Definition kids (F : list btree) : list btree := flat_map lefts F ++ flat_map rights F.
Fixpoint levels (k d : nat) (F : list btree) : list (nat * btree) :=
  match k with 0 => [] | S k => map (pair d) F ++ levels k (S d) (kids F) end.

Lemma kids_height k F : Forall (fun t => height t <= S k) F -> Forall (fun t => height t <= k) (kids F).
Proof.
  intros H. unfold kids. rewrite Forall_forall in *. intros x Hx. apply in_app_or in Hx.
  assert (exists t, In t F /\ (In x (lefts t) \/ In x (rights t))) as (t & Ht & Hc).
  { destruct Hx as [Hx|Hx]; apply in_flat_map in Hx as (t & ? & ?); eauto. }
  specialize (H t Ht). destruct t as [i|i f l r]; cbn in *; [tauto|]. destruct Hc as [[<-|[]]|[<-|[]]]; lia.
Qed.

Lemma subs_kids d F : Permutation (flat_map (subs d) F) (map (pair d) F ++ flat_map (subs (S d)) (kids F)).
Proof.
  unfold kids. rewrite flat_map_app. induction F as [|t F IH]; [reflexivity|]. cbn [flat_map map].
  destruct t as [i|i f l r]; cbn [subs lefts rights app flat_map]; [constructor; exact IH|].
  constructor. rewrite IH. cbn [flat_map].
  generalize (subs (S d) l) as A, (subs (S d) r) as B, (map (pair d) F) as P, (flat_map (subs (S d)) (flat_map lefts F)) as Q,
    (flat_map (subs (S d)) (flat_map rights F)) as R. intros A B P Q R.
  rewrite <- !app_assoc.
  transitivity (P ++ A ++ B ++ Q ++ R).
  - replace (A ++ B ++ P ++ Q ++ R) with ((A ++ B) ++ P ++ (Q ++ R)) by (rewrite <- !app_assoc; reflexivity).
    replace (P ++ A ++ B ++ Q ++ R) with (P ++ (A ++ B) ++ (Q ++ R)) by (rewrite <- !app_assoc; reflexivity).
    apply Permutation_app_swap_app.
  - apply Permutation_app_head, Permutation_app_head. apply Permutation_app_swap_app.
Qed.

Lemma levels_perm k d F : Forall (fun t => height t <= k) F -> Permutation (levels k d F) (flat_map (subs d) F).
Proof.
  revert d F; induction k as [|k IH]; intros d F H.
  - destruct F as [|t F]; [reflexivity|]. inversion H; subst. destruct t; cbn in *; lia.
  - cbn [levels]. rewrite subs_kids. apply Permutation_app_head. apply IH, kids_height, H.
Qed.

Lemma levels_ge k d F x : In x (levels k d F) -> d <= fst x.
Proof.
  revert d F; induction k as [|k IH]; intros d F H; [destruct H|]. cbn [levels] in H. apply in_app_or in H as [H|H].
  - apply in_map_iff in H as (t & <- & _). cbn. lia.
  - apply IH in H. lia.
Qed.

Lemma levels_sorted k d F : StronglySorted (fun a b => fst a <= fst b) (levels k d F).
Proof.
  revert d F; induction k as [|k IH]; intros d F; [constructor|]. cbn [levels].
  induction F as [|t F IHF]; cbn [map app].
  - apply IH.
  - assert (Hs : forall F' G : list btree, StronglySorted (fun a b : nat * btree => fst a <= fst b) (map (pair d) F' ++ levels k (S d) G)).
    { intros F' G. induction F' as [|x F' IHx]; cbn; [apply IH|]. constructor; [exact IHx|].
      apply Forall_forall. intros y Hy. apply in_app_or in Hy as [Hy|Hy].
      - apply in_map_iff in Hy as (u & <- & _). cbn. lia.
      - apply levels_ge in Hy. cbn. lia. }
    apply (Hs (t :: F)).
Qed.

(** ** Loops over a level *)
Definition assign (l : list (nat * nat)) (dep : list nat) : list nat := fold_left (fun dep e => set_nth (fst e) (snd e) dep) l dep.

Lemma assign_length l dep : length (assign l dep) = length dep.
Proof. unfold assign. revert dep; induction l as [|e l IH]; intros dep; cbn; [reflexivity|]. rewrite IH. apply set_nth_length. Qed.

Lemma assign_app l k dep : assign (l ++ k) dep = assign k (assign l dep).
Proof. unfold assign. apply fold_left_app. Qed.

Lemma assign_other l dep i : ~ In i (map fst l) -> nth_error (assign l dep) i = nth_error dep i.
Proof.
  unfold assign. revert dep; induction l as [|e l IH]; intros dep H; cbn in *; [reflexivity|].
  rewrite IH by tauto. apply set_nth_other. tauto.
Qed.

Lemma assign_get l dep i d : NoDup (map fst l) -> In (i, d) l -> i < length dep -> nth_error (assign l dep) i = Some d.
Proof.
  unfold assign. revert dep; induction l as [|e l IH]; intros dep Hn Hi Hl; [destruct Hi|]. cbn in *. inversion Hn as [|? ? Hx Hn']; subst.
  destruct Hi as [->|Hi].
  - cbn [fst snd] in *. rewrite (assign_other l _ i Hx). apply set_nth_same. exact Hl.
  - apply IH; [exact Hn'|exact Hi|]. rewrite set_nth_length. exact Hl.
Qed.

Lemma set_depths_ok l d dep : (forall i, In i l -> i < length dep) -> set_depths l d dep = Ok (assign (map (fun i => (i, d)) l) dep).
Proof.
  unfold set_depths, assign. revert dep; induction l as [|i l IH]; intros dep H; cbn [fold_left map bind fst snd]; [reflexivity|].
  assert (i <? length dep = true) as -> by (apply Nat.ltb_lt, H; left; reflexivity).
  rewrite IH; [reflexivity|]. intros j Hj. rewrite set_nth_length. apply H. right; exact Hj.
Qed.

Lemma loc_ok {A} (l : list A) (F : list btree) (g : btree -> A) :
  (forall s, In s F -> nth_error l (root s) = Some (g s)) -> loc l (map root F) = Ok (map g F).
Proof.
  intros H. unfold loc. induction F as [|s F IH]; cbn; [reflexivity|]. rewrite H by (left; reflexivity). cbn.
  rewrite IH by (intros; apply H; right; assumption). reflexivity.
Qed.

(** the dictionary after a level *)
Lemma zeqb_eq a b : Z.eqb a b = true <-> a = b. Proof. apply Z.eqb_eq. Qed.

Lemma Znan (z : Z) : c_isnan Zcell z = false.
Proof. unfold c_isnan. cbn. rewrite Z.eqb_refl. reflexivity. Qed.

Lemma dget_set f k l d : dget f (dict_set Z.eqb k l d) = if Z.eqb f k then l else dget f d.
Proof.
  unfold dget. destruct (Z.eqb_spec f k) as [->|Hn].
  - rewrite (PdFacts.assoc_dict_set_same Z.eqb zeqb_eq). reflexivity.
  - rewrite (PdFacts.assoc_dict_set_other Z.eqb zeqb_eq) by congruence. reflexivity.
Qed.

Lemma append_nodes_spec g d : NoDup (map fst g) ->
  (forall f, dget f (append_nodes g d) = dget f d ++ dget f g)
  /\ (forall f, In f (map fst (append_nodes g d)) <-> In f (map fst d) \/ In f (map fst g))
  /\ (NoDup (map fst d) -> NoDup (map fst (append_nodes g d))).
Proof.
  unfold append_nodes. revert d; induction g as [|[k l] g IH]; intros d Hn; cbn [fold_left map fst snd] in *.
  - split; [|split]; [intros f; change (dget f []) with (@nil nat); rewrite app_nil_r; reflexivity|cbn; tauto|auto].
  - inversion Hn as [|? ? Hk Hn']; subst. destruct (IH (dict_set Z.eqb k (dget k d ++ l) d) Hn') as (A & B & D). split; [|split].
    + intros f. rewrite A, dget_set. replace (dget f ((k, l) :: g)) with (if Z.eqb f k then l else dget f g) by (unfold dget; cbn [assoc]; destruct (Z.eqb f k); reflexivity).
      destruct (Z.eqb_spec f k) as [->|Hne]; [|reflexivity].
      replace (dget k g) with (@nil nat); [rewrite app_nil_r; reflexivity|].
      unfold dget. destruct (assoc Z.eqb k g) eqn:E; [|reflexivity]. exfalso. apply Hk. apply (assoc_keys Z.eqb zeqb_eq). eauto.
    + intros f. rewrite B, (dict_set_keys_in Z.eqb zeqb_eq). cbn. intuition auto.
    + intros Hd. apply D. apply (dict_set_NoDup Z.eqb zeqb_eq). exact Hd.
Qed.

Lemma dget_groups l fs f : length l = length fs ->
  dget f (split_var_to_ids l fs) = map fst (filter (fun p => Z.eqb (snd p) f) (combine l fs)).
Proof.
  intros Hlen. unfold split_var_to_ids, dget.
  assert (G : forall ks, In f ks -> assoc Z.eqb f (map (fun f0 => (f0, map fst (filter (fun p : nat * Z => Z.eqb (snd p) f0) (combine l fs)))) ks)
    = Some (map fst (filter (fun p => Z.eqb (snd p) f) (combine l fs)))).
  { induction ks as [|k ks IH]; intros H; [destruct H|]. cbn. destruct (Z.eqb_spec f k) as [->|Hne]; [reflexivity|].
    apply IH. destruct H; congruence. }
  destruct (in_dec Z.eq_dec f (np_unique Zcell fs)) as [Hf|Hf]; [rewrite G by exact Hf; reflexivity|].
  assert (Hf' : ~ In f fs) by (intros H; apply Hf; apply (np_unique_In Zcell Zcell_ok fs f (Znan f)); exact H).
  replace (filter (fun p : nat * Z => Z.eqb (snd p) f) (combine l fs)) with (@nil (nat * Z)).
  - destruct (assoc _ _ _) eqn:E; [|reflexivity]. exfalso. apply Hf.
    assert (In f (map fst (map (fun f0 => (f0, map fst (filter (fun p : nat * Z => Z.eqb (snd p) f0) (combine l fs)))) (np_unique Zcell fs))))
      as H by (apply (assoc_keys Z.eqb zeqb_eq); eauto).
    rewrite map_map in H. cbn [fst] in H. rewrite map_id in H. exact H.
  - symmetry. clear -Hf'. revert fs Hf'; induction l as [|x l IH]; intros [|y fs] H; cbn; try reflexivity.
    destruct (Z.eqb_spec y f) as [->|_]; [exfalso; apply H; left; reflexivity|]. apply IH. intros Hc; apply H; right; exact Hc.
Qed.

Lemma groups_keys l fs : map fst (split_var_to_ids l fs) = np_unique Zcell fs.
Proof. unfold split_var_to_ids. rewrite map_map. cbn [fst]. apply map_id. Qed.

Lemma level_groups (F : list btree) f :
  map fst (filter (fun p => Z.eqb (snd p) f) (combine (map root F) (map tag F))) = map root (filter (fun s => Z.eqb (tag s) f) F).
Proof. induction F as [|s F IH]; cbn; [reflexivity|]. destruct (Z.eqb (tag s) f); cbn; rewrite IH; reflexivity. Qed.

(** ** The breadth-first loop on a forest of stored trees *)
Definition stored_node (T : tree) (s : btree) : Prop :=
  match s with
  | Leaf i => nth_error (tr_left T) i = Some (-1)%Z /\ nth_error (tr_right T) i = Some (-1)%Z /\ nth_error (tr_feat T) i = Some (-2)%Z
  | Split i f l r => nth_error (tr_left T) i = Some (Z.of_nat (root l)) /\ nth_error (tr_right T) i = Some (Z.of_nat (root r))
                     /\ nth_error (tr_feat T) i = Some (Z.of_nat f)
  end.
Definition all_stored (T : tree) (F : list btree) : Prop := forall d d' t s, In t F -> In (d', s) (subs d t) -> stored_node T s.

Lemma subs_shift t d d' s k : In (d', s) (subs d t) -> In (d' + k, s) (subs (d + k) t).
Proof.
  revert d; induction t as [i|i f l IHl r IHr]; intros d H; cbn in *.
  - destruct H as [H|[]]. injection H as <- <-. auto.
  - destruct H as [H|H]; [injection H as <- <-; auto|]. right. apply in_app_or in H. apply in_or_app.
    destruct H as [H|H]; [left; apply (IHl (S d)), H|right; apply (IHr (S d)), H].
Qed.

Lemma subs_ge t d d' s : In (d', s) (subs d t) -> d <= d'.
Proof.
  revert d; induction t as [i|i f l IHl r IHr]; intros d H; cbn in H.
  - destruct H as [H|[]]. injection H as <- <-. lia.
  - destruct H as [H|H]; [injection H as <- <-; lia|]. apply in_app_or in H. destruct H as [H|H]; [apply IHl in H|apply IHr in H]; lia.
Qed.

Lemma all_stored_self T F s : all_stored T F -> In s F -> stored_node T s.
Proof. intros H Hs. apply (H 0 0 s s Hs). destruct s; left; reflexivity. Qed.

Lemma all_stored_kids T F : all_stored T F -> all_stored T (kids F).
Proof.
  intros H d d' t s Ht Hs. unfold kids in Ht. apply in_app_or in Ht.
  assert (exists p, In p F /\ (In t (lefts p) \/ In t (rights p))) as (p & Hp & Hc).
  { destruct Ht as [Ht|Ht]; apply in_flat_map in Ht as (p & ? & ?); eauto. }
  destruct p as [i|i f l r]; cbn in Hc; [tauto|]. apply (H d (d' + 1) (Split i f l r) s Hp). cbn [subs]. right. apply in_or_app.
  apply (subs_shift _ _ _ _ 1) in Hs. replace (S d) with (d + 1) by lia.
  destruct Hc as [[<-|[]]|[<-|[]]]; [left|right]; exact Hs.
Qed.

Lemma next_level_ok T F : all_stored T F -> next_level T (map root F) = Ok (map root (kids F)).
Proof.
  intros H. unfold next_level.
  rewrite (loc_ok _ F (fun s => match s with Leaf _ => (-1)%Z | Split _ _ l _ => Z.of_nat (root l) end))
    by (intros s Hs; pose proof (all_stored_self T F s H Hs) as Hd; destruct s; cbn in *; tauto). cbn [bind].
  rewrite (loc_ok _ F (fun s => match s with Leaf _ => (-1)%Z | Split _ _ _ r => Z.of_nat (root r) end))
    by (intros s Hs; pose proof (all_stored_self T F s H Hs) as Hd; destruct s; cbn in *; tauto). cbn [bind]. f_equal.
  unfold kids. rewrite filter_app, !map_app. f_equal.
  - clear H. induction F as [|s F IH]; [reflexivity|]. destruct s as [i|i f l r]; [exact IH|]. cbn [map flat_map lefts app filter].
    replace (0 <=? Z.of_nat (root l))%Z with true by (symmetry; apply Z.leb_le; lia). cbn [map]. rewrite Nat2Z.id. f_equal. exact IH.
  - clear H. induction F as [|s F IH]; [reflexivity|]. destruct s as [i|i f l r]; [exact IH|]. cbn [map flat_map rights app filter].
    replace (0 <=? Z.of_nat (root r))%Z with true by (symmetry; apply Z.leb_le; lia). cbn [map]. rewrite Nat2Z.id. f_equal. exact IH.
Qed.

Definition entries (L : list (nat * btree)) : list (nat * nat) := map (fun x => (root (snd x), fst x)) L.

Lemma bfs_loop_ok T k h F d dep sp : h <= k -> Forall (fun t => height t <= h) F -> all_stored T F -> length dep = node_count T -> NoDup (map fst sp) ->
  exists sp', bfs_loop T k (map root F) d dep sp = Ok (assign (entries (levels h d F)) dep, sp')
    /\ NoDup (map fst sp')
    /\ (forall f, dget f sp' = dget f sp ++ map (fun x => root (snd x)) (filter (fun x => Z.eqb (tag (snd x)) f) (levels h d F)))
    /\ (forall f, In f (map fst sp') <-> In f (map fst sp) \/ In f (map (fun x => tag (snd x)) (levels h d F))).
Proof.
  revert k F d dep sp; induction h as [|h IH]; intros k F d dep sp Hk Hh Hst Hl Hnd.
  - assert (F = []) as -> by (destruct F as [|t F]; [reflexivity|]; inversion Hh; subst; destruct t; cbn in *; lia).
    exists sp. destruct k; cbn; (split; [reflexivity|split; [exact Hnd|split; [intros; rewrite app_nil_r; reflexivity|tauto]]]).
  - destruct F as [|t F].
    { exists sp. assert (levels (S h) d [] = []) as E.
      { clear. generalize (S h) as k. intros k. revert d. induction k as [|k IH]; intros d; cbn; [reflexivity|apply IH]. }
      rewrite E. destruct k; cbn; (split; [reflexivity|split; [exact Hnd|split; [intros; rewrite app_nil_r; reflexivity|tauto]]]). }
    destruct k as [|k]; [lia|]. remember (t :: F) as F0 eqn:EF. cbn [levels].
    assert (Hne : map root F0 <> []) by (subst; discriminate).
    assert (Hr : forall i, In i (map root F0) -> i < length dep).
    { intros i Hi. apply in_map_iff in Hi as (s & <- & Hs). pose proof (all_stored_self T F0 s Hst Hs) as Hd.
      rewrite Hl. apply nth_error_Some. destruct s; cbn in *; destruct Hd as (_ & _ & ->); discriminate. }
    assert (Hf : loc (tr_feat T) (map root F0) = Ok (map tag F0)).
    { apply loc_ok. intros s Hs. pose proof (all_stored_self T F0 s Hst Hs) as Hd. destruct s; cbn in *; tauto. }
    set (g := split_var_to_ids (map root F0) (map tag F0)).
    destruct (append_nodes_spec g sp) as (A1 & A2 & A3). { unfold g. rewrite groups_keys. apply (np_unique_NoDup Zcell Zcell_ok). }
    assert (E : bfs_loop T (S k) (map root F0) d dep sp
      = bfs_loop T k (map root (kids F0)) (S d) (assign (map (fun i => (i, d)) (map root F0)) dep) (append_nodes g sp)).
    { cbn [bfs_loop]. destruct (map root F0) as [|i0 is] eqn:Ei; [congruence|]. rewrite <- Ei in *.
      rewrite (set_depths_ok _ _ _ Hr). cbn [bind]. rewrite Hf. cbn [bind]. rewrite (next_level_ok T F0 Hst). unfold g. rewrite <- Ei. reflexivity. }
    rewrite E.
    destruct (IH k (kids F0) (S d) (assign (map (fun i => (i, d)) (map root F0)) dep) (append_nodes g sp)) as (sp' & E1 & E2 & E3 & E4);
      [lia|apply kids_height, Hh|apply all_stored_kids, Hst|rewrite assign_length; exact Hl|apply A3, Hnd|].
    exists sp'. split; [|split; [exact E2|split]].
    + rewrite E1. f_equal. f_equal. unfold entries. rewrite map_app, assign_app. f_equal. f_equal. rewrite !map_map. reflexivity.
    + intros f. rewrite E3, A1. unfold g. rewrite dget_groups by (rewrite !map_length; reflexivity). rewrite level_groups.
      rewrite filter_app, map_app, <- app_assoc. f_equal. f_equal.
      clear. induction F0 as [|s F0 IH]; cbn; [reflexivity|]. destruct (Z.eqb (tag s) f); cbn; rewrite IH; reflexivity.
    + intros f. rewrite E4, A2. unfold g. rewrite groups_keys. rewrite map_app, map_map. cbn [snd]. rewrite in_app_iff.
      assert (In f (np_unique Zcell (map tag F0)) <-> In f (map tag F0)) by (apply (np_unique_In Zcell Zcell_ok _ f (Znan f))). tauto.
Qed.

(** ** Results of the breadth-first pass *)
Lemma height_size t d : height t <= length (subs d t).
Proof.
  revert d; induction t as [i|i f l IHl r IHr]; intros d; cbn; [lia|]. rewrite app_length. specialize (IHl (S d)). specialize (IHr (S d)).
  assert (1 <= height l) by (destruct l; cbn; lia). assert (1 <= height r) by (destruct r; cbn; lia). lia.
Qed.

Lemma stored_all T t : stored T t -> all_stored T [t].
Proof.
  intros (_ & _ & _ & _ & H) d d' t' s [<-|[]] Hs. apply (H (d' - d)).
  assert (G : forall u d d' k, k <= d -> In (d', s) (subs d u) -> In (d' - k, s) (subs (d - k) u)).
  { induction u as [i|i f l IHl r IHr]; intros e e' k Hk Hin; cbn in *.
    - destruct Hin as [Hin|[]]. left. congruence.
    - destruct Hin as [Hin|Hin]; [left; congruence|]. right. apply in_app_or in Hin. apply in_or_app.
      replace (S (e - k)) with (S e - k) by lia. destruct Hin; [left; apply IHl|right; apply IHr]; auto; lia. }
  specialize (G t d d' d (le_n d) Hs). rewrite Nat.sub_diag in G. exact G.
Qed.

Lemma stored_count T t : stored T t -> length (subs 0 t) = node_count T.
Proof. intros (_ & _ & _ & H & _). apply Permutation_length in H. unfold ids in H. rewrite map_length, seq_length in H. exact H. Qed.

Lemma tag_splits f s : Z.eqb (tag s) (Z.of_nat f) = splits_on f s.
Proof.
  destruct s as [i|i g l r]; cbn; [destruct f; reflexivity|].
  destruct (Nat.eqb_spec f g) as [->|H]; [apply Z.eqb_refl|]. apply Z.eqb_neq. lia.
Qed.

Lemma has_leaf t d : exists d' i, In (d', Leaf i) (subs d t).
Proof.
  revert d; induction t as [i|i f l IHl r IHr]; intros d; [exists d, i; left; reflexivity|].
  destruct (IHl (S d)) as (d' & j & H). exists d', j. cbn. right. apply in_or_app. left. exact H.
Qed.

(** what the pass returns for the tree [t] *)
Record bfs_result (T : tree) (t : btree) (dep : list nat) (sp : list (Z * list nat)) : Prop := {
  br_len : length dep = node_count T;
  br_depth : forall d s, In (d, s) (subs 0 t) -> nth_error dep (root s) = Some d;
  br_nodup : NoDup (map fst sp);
  br_keys : forall k, In k (map fst sp) <-> exists f, k = Z.of_nat f /\ feature_nodes f t <> [];
  br_nodes : forall f, feature_nodes f t <> [] ->
    exists l, assoc Z.eqb (Z.of_nat f) sp = Some (map (fun x => root (snd x)) l)
              /\ Permutation l (feature_nodes f t) /\ StronglySorted (fun a b => fst a <= fst b) l }.

Lemma assoc_filter_other {A} (k x : Z) (l : list (Z * A)) : k <> x -> assoc Z.eqb k (filter (fun e => negb (Z.eqb (fst e) x)) l) = assoc Z.eqb k l.
Proof.
  intros H. induction l as [|[k' a] l IH]; cbn; [reflexivity|]. destruct (Z.eqb_spec k' x) as [->|Hx]; cbn.
  - destruct (Z.eqb_spec k x); [congruence|exact IH].
  - destruct (Z.eqb k k'); [reflexivity|exact IH].
Qed.

Lemma NoDup_map_filter {A B} (f : A -> B) p l : NoDup (map f l) -> NoDup (map f (filter p l)).
Proof.
  induction l as [|x l IH]; cbn; intros H; [constructor|]. inversion H as [|? ? Hx Hn]; subst. destruct (p x); cbn; [|auto].
  constructor; [|auto]. intros Hi. apply Hx. apply in_map_iff in Hi as (y & E & Hy). apply filter_In in Hy as [Hy _].
  rewrite <- E. apply in_map. exact Hy.
Qed.

Lemma Permutation_filter {A} (p : A -> bool) l k : Permutation l k -> Permutation (filter p l) (filter p k).
Proof.
  induction 1; cbn; [constructor|destruct (p x); [constructor|]; assumption|destruct (p x), (p y); try reflexivity; apply perm_swap|etransitivity; eassumption].
Qed.

Lemma StronglySorted_filter {A} (R : A -> A -> Prop) p l : StronglySorted R l -> StronglySorted R (filter p l).
Proof.
  induction 1 as [|x l Hs IH Hf]; cbn; [constructor|]. destruct (p x); [|exact IH]. constructor; [exact IH|].
  rewrite Forall_forall in *. intros y Hy. apply filter_In in Hy as [Hy _]. auto.
Qed.

Lemma bfs_fuel T n dep sp d is r k : bfs_loop T n is d dep sp = Ok r -> n <= k -> bfs_loop T k is d dep sp = Ok r.
Proof.
  revert dep sp d is k; induction n as [|n IH]; intros dep sp d is k E Hk; destruct is as [|i is].
  - destruct k; exact E.
  - discriminate E.
  - destruct k; exact E.
  - destruct k as [|k]; [lia|]. cbn [bfs_loop] in *. destruct (set_depths _ _ _) as [dep'|]; cbn [bind] in *; [|discriminate].
    destruct (loc _ _) as [fs|]; cbn [bind] in *; [|discriminate]. destruct (next_level _ _) as [is'|]; cbn [bind] in *; [|discriminate].
    apply IH with (1 := E). lia.
Qed.

(** the loop from the root, for every sufficient fuel *)
Lemma bfs_loop_tree T t : stored T t ->
  exists dep sp, (forall k, node_count T <= k -> bfs_loop T k [0] 0 (repeat 0 (node_count T)) [] = Ok (dep, sp))
    /\ (exists l, assoc Z.eqb (-2)%Z sp = Some l) /\ bfs_result T t dep (filter (fun e => negb (Z.eqb (fst e) (-2))) sp).
Proof.
  intros H. pose proof H as (_ & _ & Hr & Hp & _). pose proof (stored_all T t H) as Hst. pose proof (stored_count T t H) as Hc.
  set (n := node_count T) in *.
  assert (Hh : Forall (fun u => height u <= n) [t]).
  { constructor; [|constructor]. rewrite <- Hc. apply height_size. }
  pose proof (levels_perm n 0 [t] Hh) as HP. cbn [flat_map] in HP. rewrite app_nil_r in HP.
  pose proof (levels_sorted n 0 [t]) as HS.
  destruct (bfs_loop_ok T n n [t] 0 (repeat 0 n) [] (le_n n) Hh Hst (repeat_length _ _) (NoDup_nil _)) as (sp & E1 & E2 & E3 & E4).
  cbn [map] in E1. rewrite Hr in E1.
  assert (Ek : forall f, In f (map fst sp) <-> exists d s, In (d, s) (subs 0 t) /\ tag s = f).
  { intros f. rewrite E4. cbn [map In]. split.
    - intros [[]|Hi]. apply in_map_iff in Hi as ([d s] & E & Hi). exists d, s. split; [|exact E]. apply (Permutation_in _ HP), Hi.
    - intros (d & s & Hi & E). right. apply in_map_iff. exists (d, s). split; [exact E|]. apply (Permutation_in _ (Permutation_sym HP)), Hi. }
  exists (assign (entries (levels n 0 [t])) (repeat 0 n)), sp. split; [|split].
  - intros k Hk. apply (bfs_fuel T n); assumption.
  - apply (assoc_keys Z.eqb zeqb_eq). apply Ek. destruct (has_leaf t 0) as (d & i & Hi). exists d, (Leaf i). split; [exact Hi|reflexivity].
  - constructor.
    + rewrite assign_length, repeat_length. reflexivity.
    + intros d s Hs. assert (Hn : NoDup (ids t)) by (apply (Permutation_NoDup (Permutation_sym Hp)), seq_NoDup).
      apply assign_get.
      * unfold entries. rewrite map_map. cbn [fst]. apply (Permutation_NoDup (l := ids t)); [|exact Hn].
        unfold ids. apply Permutation_map, Permutation_sym, HP.
      * unfold entries. apply in_map_iff. exists (d, s). split; [reflexivity|]. apply (Permutation_in _ (Permutation_sym HP)), Hs.
      * rewrite repeat_length. assert (Hi : In (root s) (seq 0 n)).
        { apply (Permutation_in _ Hp). unfold ids. apply in_map_iff. exists (d, s). auto. }
        apply in_seq in Hi. lia.
    + apply NoDup_map_filter, E2.
    + intros k. split.
      * intros Hk. apply in_map_iff in Hk as ([k' l] & E & Hk). cbn [fst] in E. subst k'. apply filter_In in Hk as [Hk Hne]. cbn [fst] in Hne.
        assert (Hk' : In k (map fst sp)) by (apply in_map_iff; exists (k, l); auto). apply Ek in Hk' as (d & s & Hs & Et).
        destruct s as [i|i f l' r']; cbn in Et; [subst; discriminate|]. exists f. split; [auto|]. intros Hf.
        assert (Hi : In (d, Split i f l' r') (feature_nodes f t)) by (apply filter_In; split; [exact Hs|cbn; apply Nat.eqb_refl]).
        rewrite Hf in Hi. destruct Hi.
      * intros (f & -> & Hf). destruct (feature_nodes f t) as [|[d s] L] eqn:EL; [congruence|].
        assert (Hi : In (d, s) (feature_nodes f t)) by (rewrite EL; left; reflexivity). apply filter_In in Hi as [Hs Hf'].
        assert (Hk : In (Z.of_nat f) (map fst sp)).
        { apply Ek. exists d, s. split; [exact Hs|]. apply Z.eqb_eq. rewrite tag_splits. exact Hf'. }
        apply in_map_iff in Hk as ([k l] & E & Hk). cbn [fst] in E. subst k. apply in_map_iff. exists (Z.of_nat f, l). split; [reflexivity|].
        apply filter_In. split; [exact Hk|]. cbn [fst]. apply negb_true_iff, Z.eqb_neq. lia.
    + intros f Hf. assert (Hk : In (Z.of_nat f) (map fst sp)).
      { apply Ek. destruct (feature_nodes f t) as [|[d s] L] eqn:EL; [congruence|].
        assert (Hi : In (d, s) (feature_nodes f t)) by (rewrite EL; left; reflexivity). apply filter_In in Hi as [Hs Hf'].
        exists d, s. split; [exact Hs|]. apply Z.eqb_eq. rewrite tag_splits. exact Hf'. }
      apply (assoc_keys Z.eqb zeqb_eq) in Hk as (l & El). specialize (E3 (Z.of_nat f)). unfold dget in E3. rewrite El in E3. cbn [assoc app] in E3.
      exists (filter (fun x => Z.eqb (tag (snd x)) (Z.of_nat f)) (levels n 0 [t])).
      rewrite assoc_filter_other by lia. split; [rewrite El; f_equal; exact E3|]. split.
      * unfold feature_nodes. rewrite (filter_ext (fun x => splits_on f (snd x)) (fun x => Z.eqb (tag (snd x)) (Z.of_nat f)))
          by (intros; symmetry; apply tag_splits). apply Permutation_filter, HP.
      * apply StronglySorted_filter, HS.
Qed.

Lemma bfs_tree T t : stored T t -> exists dep sp, bfs T = Ok (dep, sp) /\ bfs_result T t dep sp.
Proof.
  intros H. destruct (bfs_loop_tree T t H) as (dep & sp & E & (l & El) & R).
  exists dep, (filter (fun e => negb (Z.eqb (fst e) (-2))) sp). split; [|exact R].
  unfold bfs. rewrite E by lia. cbn [bind fst snd]. rewrite El. reflexivity.
Qed.

(** ** Depth-first numbering: a subtree occupies an interval *)
Lemma subs_split d0 t d s : In (d, s) (subs d0 t) ->
  exists pre post, subs d0 t = pre ++ subs d s ++ post /\ match post with [] => True | x :: _ => fst x <= d end.
Proof.
  revert d0; induction t as [i|i f l IHl r IHr]; intros d0 H; cbn [subs] in H.
  - destruct H as [H|[]]. injection H as <- <-. exists [], []. split; [reflexivity|exact I].
  - destruct H as [H|H].
    + injection H as <- <-. exists [], []. rewrite app_nil_r. split; [reflexivity|exact I].
    + apply in_app_or in H as [H|H].
      * destruct (IHl _ H) as (pre & post & E & Hp). exists ((d0, Split i f l r) :: pre), (post ++ subs (S d0) r). cbn [subs app]. rewrite E, <- ?app_assoc. cbn [app]. rewrite <- ?app_assoc.
        split; [reflexivity|]. destruct post as [|x post]; [|exact Hp]. apply subs_ge in H. destruct r; cbn; lia.
      * destruct (IHr _ H) as (pre & post & E & Hp). exists ((d0, Split i f l r) :: subs (S d0) l ++ pre), post. cbn [subs app]. rewrite E, <- ?app_assoc. cbn [app]. rewrite <- ?app_assoc.
        split; [reflexivity|exact Hp].
Qed.

Lemma subs_tail_gt d t x : In x (tl (subs d t)) -> d < fst x.
Proof.
  destruct t as [i|i f l r]; cbn; [tauto|]. destruct x as [d' s]. intros H. apply in_app_or in H as [H|H]; apply subs_ge in H; cbn; lia.
Qed.

Lemma ids_any d t : map (fun x => root (snd x)) (subs d t) = ids t.
Proof.
  unfold ids. generalize 0 as e. revert d. induction t as [i|i f l IHl r IHr]; intros d e; cbn; [reflexivity|].
  rewrite !map_app. f_equal. f_equal; [apply IHl|apply IHr].
Qed.

Lemma seq_split_at (A : Type) (g : A -> nat) pre x post k n : map g (pre ++ x :: post) = seq k n -> g x = k + length pre.
Proof.
  intros H. assert (E : nth_error (map g (pre ++ x :: post)) (length pre) = Some (g x)).
  { rewrite nth_error_map, nth_error_app2, Nat.sub_diag by lia. reflexivity. }
  rewrite H in E. assert (Hl : length pre < n).
  { apply (f_equal (@length nat)) in H. rewrite map_length, app_length, seq_length in H. cbn in H. lia. }
  rewrite (nth_error_nth' (seq k n) 0) in E by (rewrite seq_length; exact Hl). rewrite seq_nth in E by exact Hl. congruence.
Qed.

Section DepthFirst.
  Context (T : tree) (t : btree) (dep : list nat) (sp : list (Z * list nat)).
  Context (Hst : stored T t) (Hdf : depth_first t) (Hb : bfs_result T t dep sp).

  Lemma node_id_unique d s d' s' : In (d, s) (subs 0 t) -> In (d', s') (subs 0 t) -> root s = root s' -> d = d' /\ s = s'.
  Proof.
    intros H1 H2 E. assert (Hn : NoDup (ids t)).
    { destruct Hst as (_ & _ & _ & Hp & _). apply (Permutation_NoDup (Permutation_sym Hp)), seq_NoDup. }
    unfold ids in Hn. clear -H1 H2 E Hn. induction (subs 0 t) as [|x L IH]; [destruct H1|]. cbn in Hn. inversion Hn as [|? ? Hx Hn']; subst.
    destruct H1 as [->|H1], H2 as [H2|H2].
    - injection H2 as -> ->. auto.
    - exfalso. apply Hx. cbn. rewrite E. apply (in_map (fun x => root (snd x)) L (d', s')), H2.
    - subst. exfalso. apply Hx. cbn. rewrite <- E. apply (in_map (fun x => root (snd x)) L (d, s)), H1.
    - apply IH; assumption.
  Qed.

  Lemma depth_of_node d s : In (d, s) (subs 0 t) -> depth_of dep (root s) = d.
  Proof. intros H. apply (br_depth _ _ _ _ Hb) in H. unfold depth_of. apply nth_error_nth. exact H. Qed.

  (** ids of the subtree and what follows it *)
  Lemma subtree_interval d s : In (d, s) (subs 0 t) ->
    ids s = seq (root s) (length (ids s))
    /\ (forall j, root s < j < root s + length (ids s) -> d < depth_of dep j)
    /\ (root s + length (ids s) = length dep \/ root s + length (ids s) < length dep /\ depth_of dep (root s + length (ids s)) <= d).
  Proof.
    intros H. destruct (subs_split 0 t d s H) as (pre & post & E & Hp).
    assert (Hdf' : map (fun x => root (snd x)) (pre ++ subs d s ++ post) = seq 0 (length (ids t))) by (rewrite <- E; exact Hdf).
    assert (Hlen : length dep = length (pre ++ subs d s ++ post)).
    { rewrite (br_len _ _ _ _ Hb), <- E. symmetry. apply stored_count, Hst. }
    rewrite !app_length in Hlen.
    assert (Hls : length (ids s) = length (subs d s)) by (rewrite <- (ids_any d s), map_length; reflexivity).
    assert (Hroot : root s = length pre).
    { destruct (subs d s) as [|x L] eqn:Es; [destruct s; discriminate|]. cbn [app] in Hdf'.
      apply (seq_split_at _ (fun x => root (snd x))) in Hdf'. destruct s; cbn in Es; injection Es as <- _; exact Hdf'. }
    split; [|split].
    - rewrite Hroot, Hls. rewrite !map_app, ids_any in Hdf'.
      assert (G : forall (a b c : list nat) k n, a ++ b ++ c = seq k n -> b = seq (k + length a) (length b)).
      { clear. intros a b c k n Ha. revert k n Ha; induction a as [|x a IH]; intros k n Ha.
        - cbn [app length] in *. rewrite Nat.add_0_r. revert k n Ha; induction b as [|y b IHb]; intros k n Ha; [reflexivity|].
          destruct n; [discriminate|]. cbn in *. injection Ha as -> Ha. f_equal. apply (IHb (S k) n). exact Ha.
        - destruct n; [discriminate|]. cbn in Ha. injection Ha as -> Ha. cbn [length]. rewrite <- Nat.add_succ_comm. apply (IH (S k) n). exact Ha. }
      specialize (G _ _ _ _ _ Hdf'). rewrite map_length in G. cbn in G. rewrite Hls in G. exact G.
    - intros j Hj. assert (Hx : exists x, nth_error (tl (subs d s)) (j - root s - 1) = Some x).
      { destruct (nth_error (tl (subs d s)) (j - root s - 1)) as [x|] eqn:En; [eauto|]. exfalso. apply nth_error_None in En.
        destruct (subs d s) as [|y L] eqn:Es; [destruct s; discriminate|]. cbn in *. lia. }
      destruct Hx as ([d' s'] & Hx). pose proof (nth_error_In _ _ Hx) as Hin. pose proof (subs_tail_gt d s _ Hin) as Hd. cbn [fst] in Hd.
      assert (Hin' : In (d', s') (subs 0 t)).
      { rewrite E. apply in_or_app. right. apply in_or_app. left. destruct (subs d s); [destruct Hin|right; exact Hin]. }
      assert (Hj' : root s' = j).
      { destruct (subs d s) as [|y L] eqn:Es; [destruct s; discriminate|]. cbn [tl] in Hx. apply nth_error_split in Hx as (l1 & l2 & EL & Hl1).
        rewrite EL in Hdf'. replace (pre ++ (y :: l1 ++ (d', s') :: l2) ++ post) with ((pre ++ y :: l1) ++ (d', s') :: (l2 ++ post)) in Hdf'
          by (rewrite <- !app_assoc; cbn; rewrite <- app_assoc; reflexivity).
        apply (seq_split_at _ (fun x => root (snd x))) in Hdf'. cbn [snd] in Hdf'. rewrite app_length in Hdf'. cbn in Hdf'. lia. }
      rewrite <- Hj', (depth_of_node d' s' Hin'). exact Hd.
    - rewrite Hroot, Hls. destruct post as [|[d' s'] post].
      + left. cbn in Hlen. lia.
      + right. cbn [length] in Hlen. split; [lia|].
        assert (Hin' : In (d', s') (subs 0 t)) by (rewrite E; apply in_or_app; right; apply in_or_app; right; left; reflexivity).
        assert (Hj' : root s' = length pre + length (subs d s)).
        { rewrite app_assoc in Hdf'. apply (seq_split_at _ (fun x => root (snd x))) in Hdf'. cbn [snd] in Hdf'. rewrite app_length in Hdf'. lia. }
        rewrite <- Hj', (depth_of_node d' s' Hin'). exact Hp.
  Qed.

  Lemma list_min_sorted x l : (forall y, In y l -> x <= y) -> list_min x l = x.
  Proof.
    unfold list_min. induction l as [|y l IH]; cbn; intros H; [reflexivity|].
    rewrite Nat.min_l by (apply H; left; reflexivity). apply IH. intros z Hz. apply H. right; exact Hz.
  Qed.

  Lemma first_hit (p : nat -> bool) (k n m : nat) : k <= m -> m < k + n -> p m = true -> (forall j, k <= j < m -> p j = false) ->
    exists l, filter p (seq k n) = m :: l /\ forall y, In y l -> m <= y.
  Proof.
    revert k; induction n as [|n IH]; intros k H1 H2 Hm Hlt; [lia|]. cbn [seq filter].
    destruct (Nat.eq_dec k m) as [->|Hne].
    - rewrite Hm. eexists. split; [reflexivity|]. intros y Hy. apply filter_In in Hy as [Hy _]. apply in_seq in Hy. lia.
    - rewrite Hlt by lia. apply IH; [lia|lia|exact Hm|]. intros j Hj. apply Hlt. lia.
  Qed.

  Lemma max_id_interval d s : In (d, s) (subs 0 t) -> max_id dep (root s) d = root s + length (ids s) - 1.
  Proof.
    intros H. destruct (subtree_interval d s H) as (_ & Hlt & Hend).
    assert (Hpos : 1 <= length (ids s)) by (destruct s; cbn; lia). unfold max_id.
    set (p := fun i => (depth_of dep i <=? d) && (root s <? i)).
    assert (Hbefore : forall j, 0 <= j < root s + length (ids s) -> p j = false).
    { intros j Hj. unfold p. destruct (Nat.ltb_spec (root s) j) as [Hr|Hr]; [|apply andb_false_r].
      rewrite (proj2 (Nat.leb_gt _ _)); [reflexivity|]. apply Hlt. lia. }
    destruct Hend as [Hend|[Hend Hle]].
    - destruct (filter p (seq 0 (length dep))) as [|i l] eqn:Ef; [lia|]. exfalso.
      assert (Hi : In i (filter p (seq 0 (length dep)))) by (rewrite Ef; left; reflexivity).
      apply filter_In in Hi as [Hi Hp]. apply in_seq in Hi. rewrite Hbefore in Hp by lia. discriminate.
    - destruct (first_hit p 0 (length dep) (root s + length (ids s))) as (l & El & Hl); [lia|lia| |exact Hbefore|].
      + unfold p. rewrite (proj2 (Nat.leb_le _ _) Hle), (proj2 (Nat.ltb_lt _ _)) by lia. reflexivity.
      + rewrite El, list_min_sorted by exact Hl. reflexivity.
  Qed.
End DepthFirst.
