(** The pass over the table of a boosted tree. *)
From Verif Require Import Py Num Sorting Frame CondDepth ForestFacts SplitScore.
Open Scope string_scope.
Open Scope nat_scope.
Open Scope list_scope.

(** ** Specification: boosted trees and the order in which their nodes are listed *)
Inductive gtree (V : Type) := GLeaf (i : nat) | GSplit (i : nat) (f : string) (g : V) (c : option V) (l r : gtree V).
Arguments GLeaf {V}. Arguments GSplit {V}.
Definition gid {V} (t : gtree V) : nat := match t with GLeaf i => i | GSplit i _ _ _ _ _ => i end.
Definition gsplit {V} (t : gtree V) : bool := match t with GLeaf _ => false | GSplit _ _ _ _ _ _ => true end.

(** a node with its parent and its depth *)
Record entry (V : Type) := { e_parent : option (gtree V); e_depth : nat; e_node : gtree V }.
Arguments e_parent {V}. Arguments e_depth {V}. Arguments e_node {V}.
Definition eid {V} (e : entry V) : nat := gid (e_node e).
Fixpoint entries {V} (p : option (gtree V)) (d : nat) (t : gtree V) : list (entry V) :=
  {| e_parent := p; e_depth := d; e_node := t |} ::
  match t with GLeaf _ => [] | GSplit _ _ _ _ l r => entries (Some t) (S d) l ++ entries (Some t) (S d) r end.

(** an order of the nodes of [t] in which parents precede their children *)
Record listing {V} (t : gtree V) (L : list (entry V)) : Prop := {
  ls_perm : Permutation L (entries None 0 t);
  ls_ids : NoDup (map eid L);
  ls_first : forall l1 e l2 q, L = l1 ++ e :: l2 -> e_parent e = Some q -> In (gid q) (map eid l1) }.

Lemma Forall2_In_l {A B} (R : A -> B -> Prop) l k a : Forall2 R l k -> In a l -> exists b, In (a, b) (combine l k) /\ R a b.
Proof.
  induction 1 as [|x y l k H HF IH]; intros Hi; [destruct Hi|]. destruct Hi as [<-|Hi]; [exists y; split; [left; reflexivity|exact H]|].
  destruct (IH Hi) as (b & Hb & Hr). exists b. split; [right; exact Hb|exact Hr].
Qed.
Lemma Forall2_len {A B} (R : A -> B -> Prop) l k : Forall2 R l k -> length l = length k.
Proof. induction 1; cbn; auto. Qed.
Lemma Forall2_In_r {A B} (R : A -> B -> Prop) l k b : Forall2 R l k -> In b k -> exists a, In (a, b) (combine l k) /\ R a b.
Proof.
  induction 1 as [|x y l k H HF IH]; intros Hi; [destruct Hi|]. destruct Hi as [<-|Hi]; [exists x; split; [left; reflexivity|exact H]|].
  destruct (IH Hi) as (a & Ha & Hr). exists a. split; [right; exact Ha|exact Hr].
Qed.
Lemma Forall2_combine {A B} (R : A -> B -> Prop) l k a b : Forall2 R l k -> In (a, b) (combine l k) -> R a b.
Proof. induction 1; cbn; [tauto|]. intros [E|Hi]; [injection E as <- <-; assumption|auto]. Qed.
Lemma Forall2_split {A B} (R : A -> B -> Prop) l k b k1 k2 : Forall2 R l k -> k = k1 ++ b :: k2 ->
  exists l1 a l2, l = l1 ++ a :: l2 /\ Forall2 R l1 k1 /\ R a b /\ Forall2 R l2 k2.
Proof.
  intros H ->. apply Forall2_app_inv_r in H as (l1 & l2 & H1 & H2 & ->). inversion H2 as [|a ? l3 ? Ha H3]; subst. eauto 8.
Qed.
Lemma combine_map_fst {A B} (l : list A) (k : list B) : length l = length k -> map fst (combine l k) = l.
Proof. revert k; induction l; intros [|? ?] H; cbn in *; try discriminate; f_equal; auto. Qed.
Lemma combine_map_snd {A B} (l : list A) (k : list B) : length l = length k -> map snd (combine l k) = k.
Proof. revert k; induction l; intros [|? ?] H; cbn in *; try discriminate; f_equal; auto. Qed.
Lemma find_by_id {A} (id : A -> nat) l x : NoDup (map id l) -> In x l -> find (fun y => id y =? id x) l = Some x.
Proof.
  induction l as [|y l IH]; intros Hn Hi; [destruct Hi|]. cbn in *. inversion Hn as [|? ? Hy Hn']; subst.
  destruct (Nat.eqb_spec (id y) (id x)) as [E|E].
  - destruct Hi as [<-|Hi]; [reflexivity|]. exfalso. apply Hy. rewrite E. apply in_map, Hi.
  - destruct Hi as [<-|Hi]; [congruence|]. auto.
Qed.
Lemma id_inj {A} (id : A -> nat) l x y : NoDup (map id l) -> In x l -> In y l -> id x = id y -> x = y.
Proof. intros Hn Hx Hy E. pose proof (find_by_id id l x Hn Hx). pose proof (find_by_id id l y Hn Hy). rewrite E in *. congruence. Qed.

(** ** Structure of [entries] *)
Section Entries.
  Context {V : Type}.
  Implicit Types t q s : gtree V.

  Lemma entries_parent t : forall p d e, In e (entries p d t) ->
    (e = {| e_parent := p; e_depth := d; e_node := t |}) \/
    exists e' i f g c l r, In e' (entries p d t) /\ e_node e' = GSplit i f g c l r /\ e_parent e = Some (e_node e') /\ e_depth e = S (e_depth e') /\ (e_node e = l \/ e_node e = r).
  Proof.
    induction t as [i|i f g c l IHl r IHr]; intros p d e; cbn [entries].
    - intros [<-|[]]. left. reflexivity.
    - intros [<-|H]; [left; reflexivity|]. right. apply in_app_or in H as [H|H].
      + destruct (IHl _ _ _ H) as [->|(e' & i' & f' & g' & c' & l' & r' & H1 & H2)].
        * eexists {| e_parent := p; e_depth := d; e_node := GSplit i f g c l r |}, i, f, g, c, l, r. split; [left; reflexivity|]. cbn. auto.
        * exists e', i', f', g', c', l', r'. split; [right; apply in_or_app; left; exact H1|exact H2].
      + destruct (IHr _ _ _ H) as [->|(e' & i' & f' & g' & c' & l' & r' & H1 & H2)].
        * eexists {| e_parent := p; e_depth := d; e_node := GSplit i f g c l r |}, i, f, g, c, l, r. split; [left; reflexivity|]. cbn. auto.
        * exists e', i', f', g', c', l', r'. split; [right; apply in_or_app; right; exact H1|exact H2].
  Qed.

  Lemma entries_head p d t : In {| e_parent := p; e_depth := d; e_node := t |} (entries p d t).
  Proof. destruct t; left; reflexivity. Qed.

  Lemma entries_kids t : forall p d e i f g c l r, In e (entries p d t) -> e_node e = GSplit i f g c l r ->
    In {| e_parent := Some (e_node e); e_depth := S (e_depth e); e_node := l |} (entries p d t)
    /\ In {| e_parent := Some (e_node e); e_depth := S (e_depth e); e_node := r |} (entries p d t).
  Proof.
    induction t as [i0|i0 f0 g0 c0 l0 IHl r0 IHr]; intros p d e i f g c l r H E; cbn [entries] in *.
    - destruct H as [<-|[]]. discriminate.
    - destruct H as [<-|H].
      + cbn [e_node e_depth] in *. injection E as -> -> -> -> -> ->. split; right; apply in_or_app; [left|right]; apply entries_head.
      + apply in_app_or in H as [H|H].
        * destruct (IHl _ _ _ _ _ _ _ _ _ H E). split; right; apply in_or_app; left; assumption.
        * destruct (IHr _ _ _ _ _ _ _ _ _ H E). split; right; apply in_or_app; right; assumption.
  Qed.

  Lemma entries_root t e : In e (entries None 0 t) -> e_parent e = None -> e = {| e_parent := None; e_depth := 0; e_node := t |}.
  Proof. intros H E. destruct (entries_parent t None 0 e H) as [->|(e' & ? & ? & ? & ? & ? & ? & _ & _ & E' & _)]; [reflexivity|congruence]. Qed.
  Lemma entries_up t e q : In e (entries None 0 t) -> e_parent e = Some q ->
    exists e' i f g c l r, In e' (entries None 0 t) /\ e_node e' = q /\ q = GSplit i f g c l r /\ e_depth e = S (e_depth e') /\ (e_node e = l \/ e_node e = r).
  Proof.
    intros H E. destruct (entries_parent t None 0 e H) as [->|(e' & i & f & g & c & l & r & H1 & H2 & H3 & H4 & H5)]; [discriminate|].
    exists e', i, f, g, c, l, r. rewrite E in H3. injection H3 as ->. auto 10.
  Qed.
End Entries.

Section Pass.
  Context {V : Type} (N : num_ops V) (pk : package).
  Notation urow := (urow V).
  Notation with_parent := (with_parent N).

  Section Abstract.
    Variable R0 : list urow.
    Variable par : nat -> option urow.
    Variable dep : nat -> nat.
    Hypothesis Hids : NoDup (map u_id R0).
    Hypothesis Hkid : forall p c, In p R0 -> u_leaf p = false -> c = u_left p \/ c = u_right p ->
      exists i, c = Some i /\ In i (map u_id R0) /\ par i = Some p.
    Hypothesis Hpar : forall i p, par i = Some p -> In p R0 /\ u_leaf p = false /\ (u_left p = Some i \/ u_right p = Some i).
    Hypothesis Hfirst : forall l1 r l2 p, R0 = l1 ++ r :: l2 -> par (u_id r) = Some p -> In p l1.
    Hypothesis Hroot : is_xgb pk = true -> forall r, In r R0 -> u_leaf r = false -> (par (u_id r) = None <-> u_id r = 0).
    Hypothesis Hdep0 : is_xgb pk = true -> dep 0 = 0.
    Hypothesis HdepS : forall i p, par i = Some p -> dep i = S (dep (u_id p)).

    Definition linked (p r : urow) : urow := with_depth (if is_xgb pk then Some (dep (u_id r)) else u_depth r) (with_parent p r).
    Definition upd (vis : nat -> nat -> bool) (rt : bool) (r : urow) : urow :=
      if u_leaf r then r
      else match par (u_id r) with
           | Some p => if vis (u_id p) (u_id r) then linked p r else r
           | None => if is_xgb pk && rt then with_depth (Some 0) r else r
           end.

    Lemma upd_id vis rt r : u_id (upd vis rt r) = u_id r.
    Proof. unfold upd. destruct (u_leaf r), (par (u_id r)); try destruct (vis _ _); try destruct (is_xgb pk && rt); reflexivity. Qed.
    Lemma upd_leaf vis rt r : u_leaf (upd vis rt r) = u_leaf r.
    Proof. unfold upd. destruct (u_leaf r) eqn:E, (par (u_id r)); try destruct (vis _ _); try destruct (is_xgb pk && rt); cbn; auto. Qed.
    Lemma upd_left vis rt r : u_left (upd vis rt r) = u_left r.
    Proof. unfold upd. destruct (u_leaf r), (par (u_id r)); try destruct (vis _ _); try destruct (is_xgb pk && rt); reflexivity. Qed.
    Lemma upd_right vis rt r : u_right (upd vis rt r) = u_right r.
    Proof. unfold upd. destruct (u_leaf r), (par (u_id r)); try destruct (vis _ _); try destruct (is_xgb pk && rt); reflexivity. Qed.
    Lemma upd_with_parent vis rt p r : with_parent (upd vis rt p) r = with_parent p r.
    Proof. unfold upd. destruct (u_leaf p), (par (u_id p)); try destruct (vis _ _); try destruct (is_xgb pk && rt); reflexivity. Qed.

    Lemma find_row vis rt i : find (has_id (Some i)) (map (upd vis rt) R0) = option_map (upd vis rt) (find (fun r => u_id r =? i) R0).
    Proof.
      clear. induction R0 as [|r l IH]; [reflexivity|]. cbn [map find has_id]. rewrite upd_id. destruct (u_id r =? i); [reflexivity|exact IH].
    Qed.

    Lemma set_nth_at {A} (l1 : list A) x y l2 : set_nth (length l1) y (l1 ++ x :: l2) = l1 ++ y :: l2.
    Proof. induction l1; cbn; [reflexivity|f_equal; assumption]. Qed.
    Lemma nth_at {A} (l1 : list A) x l2 : nth_error (l1 ++ x :: l2) (length l1) = Some x.
    Proof. induction l1; cbn; auto. Qed.

    Lemma visit_spec vis rt l1 p l2 (c : urow -> option nat) : R0 = l1 ++ p :: l2 -> u_leaf p = false ->
      (forall r, c (upd vis rt r) = c r) -> c p = u_left p \/ c p = u_right p ->
      (is_xgb pk = true -> u_depth (upd vis rt p) = Some (dep (u_id p))) ->
      exists i, c p = Some i /\
      visit N pk (length l1) c (map (upd vis rt) R0) = Ok (map (upd (fun a b => vis a b || ((a =? u_id p) && (b =? i))) rt) R0).
    Proof.
      intros E Hl Hc Hcp Hd. assert (Hp : In p R0) by (rewrite E; apply in_elt).
      destruct (Hkid p (c p) Hp Hl Hcp) as (i & Ei & Hi & Hpi). exists i. split; [exact Ei|].
      unfold visit. assert (En : nth_error (map (upd vis rt) R0) (length l1) = Some (upd vis rt p)).
      { rewrite E at 1. rewrite map_app. cbn [map]. rewrite <- (map_length (upd vis rt) l1) at 1. apply nth_at. }
      rewrite En, Hc, Ei, find_row. apply in_map_iff in Hi as (ch & Ech & Hch).
      pose proof (find_by_id u_id R0 ch Hids Hch) as Hf. rewrite Ech in Hf. rewrite Hf. cbn [option_map]. rewrite upd_leaf.
      assert (Huniq : forall r, In r R0 -> u_id r = i -> r = ch) by (intros r Hr Er; apply (id_inj u_id R0); [exact Hids|exact Hr|exact Hch|congruence]).
      destruct (u_leaf ch) eqn:Elf.
      - f_equal. apply map_ext_in. intros r Hr. unfold upd. destruct (u_leaf r) eqn:Er; [reflexivity|].
        destruct (par (u_id r)) as [q|]; [|reflexivity].
        destruct (Nat.eqb_spec (u_id r) i) as [Eri|Eri]; [exfalso; rewrite (Huniq r Hr Eri) in Er; congruence|].
        rewrite andb_false_r, orb_false_r. reflexivity.
      - assert (exists dd, (if is_xgb pk then do d <- depth_succ (upd vis rt p); Ok (fun _ : urow => d) else Ok u_depth) = Ok dd
                 /\ forall r, dd r = if is_xgb pk then Some (dep i) else u_depth r) as (dd & -> & Hdd).
        { destruct (is_xgb pk) eqn:Ex.
          - unfold depth_succ. rewrite (Hd eq_refl). cbn [bind]. exists (fun _ => Some (S (dep (u_id p)))). split; [reflexivity|]. intros _. rewrite (HdepS i p Hpi). reflexivity.
          - exists u_depth. auto. }
        cbn [bind]. rewrite map_map. f_equal. apply map_ext_in. intros r Hr. cbn [has_id]. rewrite upd_id, Hdd, upd_with_parent.
        destruct (Nat.eqb_spec (u_id r) i) as [Eri|Eri].
        + pose proof (Huniq r Hr Eri) as ->. clear Hf. unfold upd. rewrite Elf, Eri, Hpi, Nat.eqb_refl, Nat.eqb_refl. cbn [andb]. rewrite orb_true_r.
          destruct (vis (u_id p) i); [|unfold linked; rewrite Eri; reflexivity].
          unfold linked. rewrite Eri. destruct (is_xgb pk); reflexivity.
        + unfold upd. destruct (u_leaf r); [reflexivity|]. destruct (par (u_id r)); [|reflexivity].
          destruct (Nat.eqb_spec (u_id r) i); [congruence|]. rewrite andb_false_r, orb_false_r. reflexivity.
    Qed.

    Lemma set_root_spec vis rt l1 p l2 : R0 = l1 ++ p :: l2 -> u_leaf p = false ->
      set_root pk (length l1) (map (upd vis rt) R0) = map (upd vis (rt || (u_id p =? 0))) R0.
    Proof.
      intros E Hl. assert (Hp : In p R0) by (rewrite E; apply in_elt). unfold set_root.
      assert (En : nth_error (map (upd vis rt) R0) (length l1) = Some (upd vis rt p)).
      { rewrite E at 1. rewrite map_app. cbn [map]. rewrite <- (map_length (upd vis rt) l1) at 1. apply nth_at. }
      rewrite En, upd_id. destruct (is_xgb pk) eqn:Ex; cbn [andb].
      2:{ apply map_ext_in. intros r Hr. unfold upd. rewrite Ex. reflexivity. }
      destruct (Nat.eqb_spec (u_id p) 0) as [E0|E0]; [|rewrite orb_false_r; reflexivity].
      rewrite orb_true_r. rewrite E at 1. rewrite map_app. cbn [map]. rewrite <- (map_length (upd vis rt) l1), set_nth_at.
      rewrite E at 1. rewrite map_app. cbn [map].
      assert (Hother : forall r, In r R0 -> r <> p -> upd vis rt r = upd vis true r).
      { intros r Hr Hrp. unfold upd. destruct (u_leaf r) eqn:Er; [reflexivity|]. destruct (par (u_id r)) eqn:Epr; [reflexivity|].
        apply (Hroot eq_refl r Hr Er) in Epr. exfalso. apply Hrp. apply (id_inj u_id R0); congruence. }
      assert (Hnp : ~ In p (l1 ++ l2)). { rewrite E in Hids. rewrite map_app in Hids. cbn in Hids. apply NoDup_remove_2 in Hids. rewrite <- map_app in Hids. intros H. apply Hids. apply in_map, H. }
      f_equal; [|f_equal].
      - apply map_ext_in. intros r Hr. apply Hother; [rewrite E; apply in_or_app; auto|]. intros ->. apply Hnp, in_or_app. auto.
      - assert (Epp : par (u_id p) = None) by (apply (Hroot eq_refl p Hp Hl); exact E0).
        unfold upd. rewrite Hl, Epp, Ex. cbn [andb]. destruct rt; reflexivity.
      - apply map_ext_in. intros r Hr. apply Hother; [rewrite E; apply in_or_app; right; right; exact Hr|]. intros ->. apply Hnp, in_or_app. auto.
    Qed.

    (** after the nodes of [l] have been processed *)
    Definition child_of (p : urow) (b : nat) : bool :=
      match u_left p with Some i => i =? b | None => false end || match u_right p with Some i => i =? b | None => false end.
    Definition vis_of (l : list urow) (a b : nat) : bool := existsb (fun p => negb (u_leaf p) && (u_id p =? a) && child_of p b) l.
    Definition rt_of (l : list urow) : bool := existsb (fun p => negb (u_leaf p) && (u_id p =? 0)) l.

    Lemma upd_ext vis vis' rt rt' l : (forall a b, vis a b = vis' a b) -> rt = rt' -> map (upd vis rt) l = map (upd vis' rt') l.
    Proof. intros H ->. apply map_ext. intros r. unfold upd. destruct (u_leaf r); [reflexivity|]. destruct (par (u_id r)); [rewrite H|]; reflexivity. Qed.

    Lemma step_spec l1 p l2 : R0 = l1 ++ p :: l2 -> u_leaf p = false ->
      stats_step N pk (Ok (map (upd (vis_of l1) (rt_of l1)) R0)) (length l1) = Ok (map (upd (vis_of (l1 ++ [p])) (rt_of (l1 ++ [p]))) R0).
    Proof.
      intros E Hl. assert (Hp : In p R0) by (rewrite E; apply in_elt). unfold stats_step. cbn [bind]. rewrite (set_root_spec _ _ l1 p l2 E Hl).
      assert (Hd : forall vis, (forall a b, vis_of l1 a b = true -> vis a b = true) -> is_xgb pk = true ->
                   u_depth (upd vis (rt_of l1 || (u_id p =? 0)) p) = Some (dep (u_id p))).
      { intros vis Hv Ex. unfold upd. rewrite Hl, Ex. cbn [andb]. destruct (par (u_id p)) as [q|] eqn:Eq.
        - destruct (Hpar _ _ Eq) as (Hq & Hlq & Hcq). assert (Hv1 : vis_of l1 (u_id q) (u_id p) = true).
          { apply existsb_exists. exists q. split; [exact (Hfirst l1 p l2 q E Eq)|]. rewrite Hlq, Nat.eqb_refl. cbn [negb andb].
            unfold child_of. destruct Hcq as [->| ->]; rewrite Nat.eqb_refl; [reflexivity|apply orb_true_r]. }
          rewrite (Hv _ _ Hv1). unfold linked. rewrite Ex. reflexivity.
        - apply (Hroot Ex p Hp Hl) in Eq. rewrite Eq. cbn [Nat.eqb]. rewrite orb_true_r. cbn. rewrite (Hdep0 Ex). reflexivity. }
      destruct (visit_spec (vis_of l1) (rt_of l1 || (u_id p =? 0)) l1 p l2 u_left E Hl (upd_left _ _) (or_introl eq_refl) (Hd _ (fun a b H => H))) as (i & Ei & ->).
      cbn [bind].
      destruct (visit_spec (fun a b => vis_of l1 a b || ((a =? u_id p) && (b =? i))) (rt_of l1 || (u_id p =? 0)) l1 p l2 u_right E Hl (upd_right _ _) (or_intror eq_refl)) as (j & Ej & ->).
      { apply Hd. intros a b ->. reflexivity. }
      f_equal. apply upd_ext.
      - intros a b. unfold vis_of. rewrite existsb_app. cbn [existsb]. rewrite Hl, orb_false_r. cbn [negb andb]. unfold child_of. rewrite Ei, Ej.
        rewrite (Nat.eqb_sym a), (Nat.eqb_sym b i), (Nat.eqb_sym b j). destruct (existsb _ l1), (u_id p =? a), (i =? b), (j =? b); reflexivity.
      - unfold rt_of. rewrite existsb_app. cbn [existsb]. rewrite Hl, orb_false_r. reflexivity.
    Qed.

    Lemma leaf_noop l1 p : u_leaf p = true -> map (upd (vis_of (l1 ++ [p])) (rt_of (l1 ++ [p]))) R0 = map (upd (vis_of l1) (rt_of l1)) R0.
    Proof.
      intros Hl. apply upd_ext.
      - intros a b. unfold vis_of. rewrite existsb_app. cbn [existsb]. rewrite Hl. cbn. apply orb_false_r.
      - unfold rt_of. rewrite existsb_app. cbn [existsb]. rewrite Hl. cbn. apply orb_false_r.
    Qed.

    Lemma pass_from l2 : forall l1, R0 = l1 ++ l2 ->
      fold_left (stats_step N pk) (filter (fun i => match nth_error R0 i with Some r => negb (u_leaf r) | None => false end) (seq (length l1) (length l2)))
        (Ok (map (upd (vis_of l1) (rt_of l1)) R0)) = Ok (map (upd (vis_of R0) (rt_of R0)) R0).
    Proof.
      induction l2 as [|p l2 IH]; intros l1 E.
      - rewrite app_nil_r in E. rewrite <- E. reflexivity.
      - cbn [length seq filter]. assert (En : nth_error R0 (length l1) = Some p) by (rewrite E; apply nth_at). rewrite En.
        assert (E' : R0 = (l1 ++ [p]) ++ l2) by (rewrite <- app_assoc; exact E).
        specialize (IH (l1 ++ [p]) E'). rewrite app_length in IH. cbn [length] in IH. rewrite Nat.add_1_r in IH.
        destruct (u_leaf p) eqn:Hl; cbn [negb].
        + rewrite (leaf_noop l1 p Hl) in IH. exact IH.
        + cbn [fold_left]. rewrite (step_spec l1 p l2 E Hl). exact IH.
    Qed.

    (** the finished row *)
    Definition finished (r : urow) : urow :=
      if u_leaf r then r
      else match par (u_id r) with
           | Some p => linked p r
           | None => if is_xgb pk then with_depth (Some 0) r else r
           end.

    Lemma pass_spec : prepare_stats N pk R0 = Ok (map finished R0).
    Proof.
      unfold prepare_stats, non_leaf_nodes. pose proof (pass_from R0 [] eq_refl) as H. cbn [length app] in H.
      assert (E0 : map (upd (vis_of []) (rt_of [])) R0 = R0).
      { rewrite <- (map_id R0) at 2. apply map_ext. intros r. unfold upd. cbn. destruct (u_leaf r); [reflexivity|]. destruct (par (u_id r)); [reflexivity|]. rewrite andb_false_r. reflexivity. }
      rewrite E0 in H. rewrite H. f_equal. apply map_ext_in. intros r Hr. unfold upd, finished. destruct (u_leaf r) eqn:Hl; [reflexivity|].
      destruct (par (u_id r)) as [p|] eqn:Ep.
      - destruct (Hpar _ _ Ep) as (Hp & Hlp & Hc). assert (Hv : vis_of R0 (u_id p) (u_id r) = true).
        { apply existsb_exists. exists p. split; [exact Hp|]. rewrite Hlp, Nat.eqb_refl. cbn [negb andb]. unfold child_of. destruct Hc as [->| ->]; rewrite Nat.eqb_refl; [reflexivity|apply orb_true_r]. }
        rewrite Hv. reflexivity.
      - destruct (is_xgb pk) eqn:Ex; [|reflexivity]. assert (Hv : rt_of R0 = true).
        { apply existsb_exists. exists r. split; [exact Hr|]. rewrite Hl. apply (Hroot eq_refl r Hr Hl) in Ep. rewrite Ep. reflexivity. }
        rewrite Hv. reflexivity.
    Qed.
  End Abstract.

  (** ** Tables of trees *)

  (** the unified row of a node before the pass *)
  Definition fresh_row (z : Z) (e : entry V) (r : urow) : Prop :=
    u_tree r = z /\ u_id r = eid e /\ u_parent r = None /\ u_inter r = None /\ u_depth r = (if is_xgb pk then None else Some (e_depth e))
    /\ match e_node e with
       | GLeaf _ => u_leaf r = true /\ u_feat r = (if is_xgb pk then Some "Leaf" else None)
       | GSplit _ f g c lt rt => u_leaf r = false /\ u_feat r = Some f /\ u_gain r = g /\ u_cover r = c /\ u_left r = Some (gid lt) /\ u_right r = Some (gid rt)
       end.

  (** and after it: the feature, gain and cover of the actual parent, the interaction mark and the true depth *)
  Definition final_row (z : Z) (e : entry V) (r : urow) : Prop :=
    u_tree r = z /\ u_id r = eid e
    /\ match e_node e with
       | GLeaf _ => u_leaf r = true /\ u_feat r = (if is_xgb pk then Some "Leaf" else None) /\ u_parent r = None /\ u_inter r = None /\ u_depth r = (if is_xgb pk then None else Some (e_depth e))
       | GSplit _ f g c _ _ =>
           u_leaf r = false /\ u_feat r = Some f /\ u_gain r = g /\ u_cover r = c /\ u_depth r = Some (e_depth e)
           /\ match e_parent e with
              | Some (GSplit _ pf pg pc _ _) =>
                  u_parent r = Some (Some pf, pg, pc) /\ u_inter r = Some (n_ltb N pg g && negb (String.eqb f pf))
              | _ => u_parent r = None /\ u_inter r = None
              end
       end.

  Section Concrete.
    Variable t : gtree V.
    Variable L : list (entry V).
    Variable z : Z.
    Variable R0 : list urow.
    Hypothesis HL : listing t L.
    Hypothesis HR : Forall2 (fresh_row z) L R0.
    Hypothesis Hx : is_xgb pk = true -> gid t = 0.

    Definition par_of (i : nat) : option urow :=
      match find (fun x : entry V * urow => eid (fst x) =? i) (combine L R0) with
      | Some (e, _) => match e_parent e with Some q => find (fun r => u_id r =? gid q) R0 | None => None end
      | None => None
      end.
    Definition dep_of (i : nat) : nat := match find (fun e => eid e =? i) L with Some e => e_depth e | None => 0 end.

    Lemma conc_len : length L = length R0. Proof. exact (Forall2_len _ _ _ HR). Qed.
    Lemma conc_ids : map u_id R0 = map eid L.
    Proof. clear -HR. induction HR as [|e r l k H HF IH]; [reflexivity|]. cbn. destruct H as (_ & -> & _). f_equal. auto. Qed.
    Lemma conc_nodup : NoDup (map u_id R0). Proof. rewrite conc_ids. exact (ls_ids t L HL). Qed.
    Lemma pairs_nodup : NoDup (map (fun x : entry V * urow => eid (fst x)) (combine L R0)).
    Proof. rewrite <- (map_map fst eid). rewrite combine_map_fst by exact conc_len. exact (ls_ids t L HL). Qed.
    Lemma find_pair e r : In (e, r) (combine L R0) -> find (fun x : entry V * urow => eid (fst x) =? eid e) (combine L R0) = Some (e, r).
    Proof. intros H. exact (find_by_id (fun x : entry V * urow => eid (fst x)) _ (e, r) pairs_nodup H). Qed.
    Lemma pair_fresh e r : In (e, r) (combine L R0) -> fresh_row z e r. Proof. exact (Forall2_combine _ _ _ _ _ HR). Qed.
    Lemma pair_r e r : In (e, r) (combine L R0) -> In r R0 /\ In e L.
    Proof. intros H. split; [exact (in_combine_r _ _ _ _ H)|exact (in_combine_l _ _ _ _ H)]. Qed.
    Lemma entry_row e : In e (entries None 0 t) -> exists r, In (e, r) (combine L R0).
    Proof. intros H. apply (Permutation_in _ (Permutation_sym (ls_perm t L HL))) in H. destruct (Forall2_In_l _ _ _ _ HR H) as (r & Hr & _). eauto. Qed.
    Lemma row_entry r : In r R0 -> exists e, In (e, r) (combine L R0).
    Proof. intros H. destruct (Forall2_In_r _ _ _ _ HR H) as (e & He & _). eauto. Qed.
    Lemma pair_entry e r : In (e, r) (combine L R0) -> In e (entries None 0 t).
    Proof. intros H. apply (Permutation_in _ (ls_perm t L HL)). exact (proj2 (pair_r e r H)). Qed.

    Lemma par_pair e r : In (e, r) (combine L R0) ->
      match e_parent e with
      | None => par_of (u_id r) = None
      | Some q => exists e' r', In (e', r') (combine L R0) /\ e_node e' = q /\ par_of (u_id r) = Some r' /\ e_depth e = S (e_depth e')
      end.
    Proof.
      intros H. pose proof (pair_fresh e r H) as (_ & Eid & _). unfold par_of. rewrite Eid, (find_pair e r H).
      destruct (e_parent e) as [q|] eqn:Eq; [|reflexivity].
      destruct (entries_up t e q (pair_entry e r H) Eq) as (e' & i & f & g & c & l & rr & H1 & H2 & _ & H4 & _).
      destruct (entry_row e' H1) as (r' & Hr'). exists e', r'. split; [exact Hr'|]. split; [exact H2|]. split; [|exact H4].
      pose proof (pair_fresh e' r' Hr') as (_ & Eid' & _). unfold eid in Eid'. rewrite H2 in Eid'. rewrite <- Eid'.
      apply (find_by_id u_id R0 r' conc_nodup). exact (proj1 (pair_r e' r' Hr')).
    Qed.
    Lemma dep_pair e r : In (e, r) (combine L R0) -> dep_of (u_id r) = e_depth e.
    Proof.
      intros H. pose proof (pair_fresh e r H) as (_ & Eid & _). unfold dep_of. rewrite Eid, (find_by_id eid L e (ls_ids t L HL) (proj2 (pair_r e r H))). reflexivity.
    Qed.
    Lemma par_inv i p : par_of i = Some p -> exists e r q, In (e, r) (combine L R0) /\ u_id r = i /\ e_parent e = Some q.
    Proof.
      unfold par_of. destruct (find _ (combine L R0)) as [[e r]|] eqn:E; [|discriminate]. apply find_some in E as [H Hi]. apply Nat.eqb_eq in Hi. cbn [fst] in Hi.
      destruct (e_parent e) as [q|] eqn:Eq; [|discriminate]. intros _. exists e, r, q. pose proof (pair_fresh e r H) as (_ & Eid & _). split; [exact H|]. split; [congruence|exact Eq].
    Qed.

    Lemma conc_kid p c : In p R0 -> u_leaf p = false -> c = u_left p \/ c = u_right p -> exists i, c = Some i /\ In i (map u_id R0) /\ par_of i = Some p.
    Proof.
      intros Hp Hl Hc. destruct (row_entry p Hp) as (e & He). pose proof (pair_fresh e p He) as (_ & Ee & _ & _ & _ & Hm).
      destruct (e_node e) as [|i f g c0 lt rt] eqn:En; [destruct Hm; congruence|]. destruct Hm as (_ & _ & _ & _ & Hlt & Hrt).
      destruct (entries_kids t None 0 e i f g c0 lt rt (pair_entry e p He) En) as [Kl Kr]. rewrite En in Kl, Kr.
      assert (G : forall s, In {| e_parent := Some (GSplit i f g c0 lt rt); e_depth := S (e_depth e); e_node := s |} (entries None 0 t) ->
                  In (gid s) (map u_id R0) /\ par_of (gid s) = Some p).
      { intros s Hs. destruct (entry_row _ Hs) as (r & Hr). pose proof (pair_fresh _ _ Hr) as (_ & Er & _). change (u_id r = gid s) in Er.
        split; [rewrite <- Er; apply in_map; exact (proj1 (pair_r _ _ Hr))|].
        pose proof (par_pair _ _ Hr) as HH. cbn [e_parent] in HH. destruct HH as (e' & r' & H1 & H2 & H3 & _). rewrite Er in H3. rewrite H3. f_equal.
        apply (id_inj u_id R0); [exact conc_nodup|exact (proj1 (pair_r _ _ H1))|exact Hp|].
        pose proof (pair_fresh _ _ H1) as (_ & E1 & _). rewrite E1, Ee. unfold eid. rewrite H2, En. reflexivity. }
      destruct Hc as [->| ->].
      - exists (gid lt). split; [exact Hlt|]. apply G, Kl.
      - exists (gid rt). split; [exact Hrt|]. apply G, Kr.
    Qed.

    Lemma conc_par i p : par_of i = Some p -> In p R0 /\ u_leaf p = false /\ (u_left p = Some i \/ u_right p = Some i).
    Proof.
      intros H. destruct (par_inv i p H) as (e & r & q & He & Ei & Eq). pose proof (par_pair e r He) as HH. rewrite Eq in HH.
      destruct HH as (e' & r' & H1 & H2 & H3 & _). rewrite Ei, H in H3. injection H3 as <-. split; [exact (proj1 (pair_r _ _ H1))|].
      destruct (entries_up t e q (pair_entry e r He) Eq) as (e2 & i2 & f & g & c & l & rr & _ & _ & Eqs & _ & Hk).
      pose proof (pair_fresh _ _ H1) as (_ & _ & _ & _ & _ & Hm). rewrite H2, Eqs in Hm. destruct Hm as (Hm1 & _ & _ & _ & Hm5 & Hm6).
      split; [exact Hm1|]. pose proof (pair_fresh _ _ He) as (_ & Eid & _). rewrite Ei in Eid. unfold eid in Eid. rewrite Eid, Hm5, Hm6.
      destruct Hk as [->| ->]; auto.
    Qed.

    Lemma conc_first l1 r l2 p : R0 = l1 ++ r :: l2 -> par_of (u_id r) = Some p -> In p l1.
    Proof.
      intros E H. destruct (Forall2_split _ _ _ _ _ _ HR E) as (k1 & e & k2 & EL & F1 & Fe & F2).
      assert (He : In (e, r) (combine L R0)).
      { rewrite EL, E. clear -F1. induction F1; cbn; [left; reflexivity|right; assumption]. }
      pose proof (par_pair e r He) as HH. destruct (e_parent e) as [q|] eqn:Eq; [|congruence].
      destruct HH as (e' & r' & H1 & H2 & H3 & _). rewrite H in H3. injection H3 as <-.
      pose proof (ls_first t L HL k1 e k2 q EL Eq) as Hq. apply in_map_iff in Hq as (e2 & E2 & Hq2).
      destruct (Forall2_In_l _ _ _ _ F1 Hq2) as (r2 & Hr2 & (_ & Er2 & _)).
      assert (r2 = p) as <-.
      { apply (id_inj u_id R0); [exact conc_nodup| |exact (proj1 (pair_r _ _ H1))|].
        - rewrite E. apply in_or_app. left. exact (in_combine_r _ _ _ _ Hr2).
        - pose proof (pair_fresh _ _ H1) as (_ & Ep & _). rewrite Er2, Ep, E2. unfold eid. rewrite H2. reflexivity. }
      exact (in_combine_r _ _ _ _ Hr2).
    Qed.

    Lemma conc_root : is_xgb pk = true -> forall r, In r R0 -> u_leaf r = false -> (par_of (u_id r) = None <-> u_id r = 0).
    Proof.
      intros Ex r Hr _. destruct (row_entry r Hr) as (e & He). pose proof (par_pair e r He) as HH. pose proof (pair_fresh _ _ He) as (_ & Eid & _).
      destruct (e_parent e) as [q|] eqn:Eq.
      - destruct HH as (e' & r' & _ & _ & -> & _). split; [discriminate|]. intros E0. exfalso.
        destruct (entry_row _ (entries_head None 0 t)) as (r0 & Hr0). pose proof (pair_fresh _ _ Hr0) as (_ & Eid0 & _). change (u_id r0 = gid t) in Eid0. rewrite (Hx Ex) in Eid0.
        assert (r0 = r) as -> by (apply (id_inj u_id R0); [exact conc_nodup|exact (proj1 (pair_r _ _ Hr0))|exact Hr|congruence]).
        assert (e = {| e_parent := None; e_depth := 0; e_node := t |}) as ->.
        { apply (id_inj eid L); [exact (ls_ids t L HL)|exact (proj2 (pair_r _ _ He))|exact (proj2 (pair_r _ _ Hr0))|]. rewrite <- Eid. pose proof (pair_fresh _ _ Hr0) as (_ & Ex0 & _). exact Ex0. }
        discriminate.
      - split; [|intros _; exact HH]. intros _. pose proof (entries_root t e (pair_entry e r He) Eq) as ->. rewrite Eid. exact (Hx Ex).
    Qed.
    Lemma conc_dep0 : is_xgb pk = true -> dep_of 0 = 0.
    Proof.
      intros Ex. destruct (entry_row _ (entries_head None 0 t)) as (r0 & Hr0). pose proof (pair_fresh _ _ Hr0) as (_ & Eid0 & _).
      change (u_id r0 = gid t) in Eid0. rewrite (Hx Ex) in Eid0. pose proof (dep_pair _ _ Hr0) as HD. rewrite Eid0 in HD. exact HD.
    Qed.
    Lemma conc_depS i p : par_of i = Some p -> dep_of i = S (dep_of (u_id p)).
    Proof.
      intros H. destruct (par_inv i p H) as (e & r & q & He & Ei & Eq). pose proof (par_pair e r He) as HH. rewrite Eq in HH.
      destruct HH as (e' & r' & H1 & H2 & H3 & H4). rewrite Ei, H in H3. injection H3 as <-. rewrite <- Ei, (dep_pair _ _ He), (dep_pair _ _ H1). exact H4.
    Qed.

    Theorem prepare_stats_spec : exists R1, prepare_stats N pk R0 = Ok R1 /\ Forall2 (final_row z) L R1.
    Proof.
      exists (map (finished par_of dep_of) R0).
      split; [exact (pass_spec R0 par_of dep_of conc_nodup conc_kid conc_par conc_first conc_root conc_dep0 conc_depS)|].
      assert (G : forall l k, Forall2 (fresh_row z) l k -> (forall e r, In (e, r) (combine l k) -> In (e, r) (combine L R0)) ->
                  Forall2 (final_row z) l (map (finished par_of dep_of) k)).
      { induction 1 as [|e r l k H HF IH]; intros Hin; [constructor|]. cbn [map]. constructor; [|apply IH; intros; apply Hin; right; assumption].
        assert (He : In (e, r) (combine L R0)) by (apply Hin; left; reflexivity).
        destruct H as (H1 & H2 & H3 & H4 & H5 & H6). unfold finished, final_row. pose proof (par_pair e r He) as HP. pose proof (dep_pair e r He) as HD.
        destruct (e_node e) as [i|i f g c lt rt] eqn:En.
        - destruct H6 as [H6 H7]. rewrite H6. auto 10.
        - destruct H6 as (K1 & K2 & K3 & K4 & K5 & K6). rewrite K1. destruct (e_parent e) as [q|] eqn:Eq.
          + destruct HP as (e' & r' & P1 & P2 & P3 & P4). rewrite P3. unfold linked. rewrite HD. cbn.
            destruct (entries_up t e q (pair_entry e r He) Eq) as (e2 & i2 & f2 & g2 & c2 & l2 & r2 & _ & _ & Eqs & _). subst q.
            pose proof (pair_fresh _ _ P1) as (_ & _ & _ & _ & _ & Hm). rewrite Eqs in Hm. destruct Hm as (M1 & M2 & M3 & M4 & _). rewrite Eqs, M2, M3, M4, K2, K3.
            split; [exact H1|]. split; [exact H2|]. split; [exact K1|]. split; [reflexivity|]. split; [reflexivity|]. split; [exact K4|].
            split; [destruct (is_xgb pk); [reflexivity|exact H5]|]. split; reflexivity.
          + rewrite HP. pose proof (entries_root t e (pair_entry e r He) Eq) as ->. cbn [e_depth] in *.
            destruct (is_xgb pk); cbn; auto 12. }
      apply G; [exact HR|auto].
    Qed.
  End Concrete.
End Pass.
