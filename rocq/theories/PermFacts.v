(** Facts about the permutation based methods. *)
From Verif Require Import Py Num Sorting Frame Rng PdCalc PdSpec PdProofs PdMethods PdMethodRun Perm.

(** ** Rearranged data: the specification *)

(** the row [r] with its cells at the positions [sel] replaced by those of [r'] *)
Definition graft {C} (sel : list nat) (r r' : list C) : list C :=
  fold_left (fun acc k => match nth_error r' k with Some v => with_value k v acc | None => acc end) sel r.
(** the data with the columns [sel] rearranged by the permutation [p] *)
Definition rearranged {C} (rows : list (list C)) (sel p : list nat) : list (list C) :=
  map (fun rr => graft sel (fst rr) (snd rr)) (combine rows (picks rows p)).

Lemma graft_length {C} sel (r r' : list C) : length r = length r' -> length (graft sel r r') = length r.
Proof.
  intros H. unfold graft. assert (Hi : forall acc, length acc = length r -> length (fold_left (fun acc k => match nth_error r' k with Some v => with_value k v acc | None => acc end) sel acc) = length r).
  { induction sel as [|k t IH]; intros acc Ha; cbn; [exact Ha|]. apply IH.
    destruct (nth_error r' k) eqn:E; [|exact Ha]. rewrite with_value_length; [exact Ha|].
    rewrite Ha, H. apply nth_error_Some. congruence. }
  apply Hi; reflexivity.
Qed.

(** exactly the cells at [sel] come from [r'] *)
Lemma graft_nth {C} sel (r r' : list C) j : length r = length r' ->
  nth_error (graft sel r r') j = if existsb (Nat.eqb j) sel then nth_error r' j else nth_error r j.
Proof.
  intros H. unfold graft.
  assert (Hi : forall acc, length acc = length r ->
    nth_error (fold_left (fun acc k => match nth_error r' k with Some v => with_value k v acc | None => acc end) sel acc) j
    = if existsb (Nat.eqb j) sel then nth_error r' j else nth_error acc j).
  { induction sel as [|k t IH]; intros acc Ha; cbn; [reflexivity|].
    destruct (nth_error r' k) as [v|] eqn:E.
    - assert (Hk : k < length acc) by (rewrite Ha, H; apply nth_error_Some; congruence).
      rewrite IH by (rewrite with_value_length; assumption).
      destruct (existsb (Nat.eqb j) t); [rewrite orb_true_r; reflexivity|]. rewrite orb_false_r.
      rewrite with_value_nth by exact Hk. destruct (Nat.eqb_spec j k); [subst; congruence|reflexivity].
    - rewrite IH by exact Ha. destruct (existsb (Nat.eqb j) t); [rewrite orb_true_r; reflexivity|]. rewrite orb_false_r.
      destruct (Nat.eqb_spec j k); [subst|reflexivity]. rewrite E. apply nth_error_None in E. apply nth_error_None. lia. }
  apply Hi; reflexivity.
Qed.

Lemma nth_error_combine {A B} (a : list A) (b : list B) i :
  nth_error (combine a b) i = match nth_error a i, nth_error b i with Some x, Some y => Some (x, y) | _, _ => None end.
Proof.
  revert b i; induction a as [|x a IH]; intros [|y b] [|i]; cbn; auto.
  - destruct (nth_error a i); reflexivity.
Qed.

Lemma perm_seq_lt p n i : Permutation p (seq 0 n) -> In i p -> i < n.
Proof. intros H Hi. apply (Permutation_in _ H), in_seq in Hi. lia. Qed.

Lemma perm_picks_length {A} (l : list A) p : Permutation p (seq 0 (length l)) -> length (picks l p) = length l.
Proof. intros H. apply Permutation_length, picks_perm, H. Qed.

Lemma rearranged_nth {C} (rows : list (list C)) sel p i r k r' : Permutation p (seq 0 (length rows)) ->
  nth_error rows i = Some r -> nth_error p i = Some k -> nth_error rows k = Some r' ->
  nth_error (rearranged rows sel p) i = Some (graft sel r r').
Proof.
  intros Hp Hr Hk Hr'. unfold rearranged. rewrite nth_error_map, nth_error_combine, Hr.
  destruct (picks_nth rows p) as [_ H]; [intros j; apply perm_seq_lt, Hp|]. rewrite (H i k Hk), Hr'. reflexivity.
Qed.

Lemma rearranged_length {C} (rows : list (list C)) sel p : Permutation p (seq 0 (length rows)) -> length (rearranged rows sel p) = length rows.
Proof. intros H. unfold rearranged. rewrite map_length, combine_length, perm_picks_length by exact H. apply Nat.min_id. Qed.

Lemma rearranged_width {C} (rows : list (list C)) w sel p : (forall r, In r rows -> length r = w) ->
  forall r, In r (rearranged rows sel p) -> length r = w.
Proof.
  intros Hw r Hr. apply in_map_iff in Hr as ([a b] & <- & Hin). cbn [fst snd].
  pose proof (in_combine_l _ _ _ _ Hin) as Ha. pose proof (in_combine_r _ _ _ _ Hin) as Hb.
  apply picks_In in Hb. rewrite graft_length by (rewrite (Hw a Ha), (Hw b Hb); reflexivity). apply Hw, Ha.
Qed.

Lemma nth_error_eq {A} (a b : list A) : length a = length b -> (forall i, i < length a -> nth_error a i = nth_error b i) -> a = b.
Proof.
  revert b; induction a as [|x a IH]; intros [|y b] Hl H; cbn in *; try lia; [reflexivity|].
  pose proof (H 0 ltac:(lia)) as H0. injection H0 as ->. f_equal. apply IH; [lia|]. intros i Hi. apply (H (S i)). lia.
Qed.

Section Rearrange.
  Context {C : Type} (rows : list (list C)) (w : nat) (Hw : forall r, In r rows -> length r = w).

  Lemma Forall_width : Forall (fun r => length r = w) rows.
  Proof. apply Forall_forall, Hw. Qed.

  Lemma permute_at_length k p : k < w -> Permutation p (seq 0 (length rows)) -> length (permute_at k p rows) = length rows.
  Proof.
    intros Hk Hp. unfold permute_at. rewrite map_length, combine_length, perm_picks_length.
    - rewrite (col_at_length k w rows Forall_width Hk). apply Nat.min_id.
    - rewrite (col_at_length k w rows Forall_width Hk). exact Hp.
  Qed.

  Lemma permute_at_nth k p i r j r' : k < w -> Permutation p (seq 0 (length rows)) ->
    nth_error rows i = Some r -> nth_error p i = Some j -> nth_error rows j = Some r' ->
    nth_error (permute_at k p rows) i = Some (graft [k] r r').
  Proof.
    intros Hk Hp Hr Hj Hr'. unfold permute_at. rewrite nth_error_map, nth_error_combine, Hr.
    destruct (picks_nth (col_at k rows) p) as [_ H].
    { intros x Hx. rewrite (col_at_length k w rows Forall_width Hk). eapply perm_seq_lt; eassumption. }
    rewrite (H i j Hj), (col_at_nth k w rows j Forall_width Hk), Hr'.
    destruct (nth_error r' k) as [v|] eqn:E; [|apply nth_error_None in E; rewrite (Hw r' (nth_error_In _ _ Hr')) in E; lia].
    cbn. rewrite E, set_nth_with_value by (rewrite (Hw r (nth_error_In _ _ Hr)); exact Hk). reflexivity.
  Qed.

  Lemma perm_nth_ex p i : Permutation p (seq 0 (length rows)) -> i < length rows ->
    exists r j r', nth_error rows i = Some r /\ nth_error p i = Some j /\ nth_error rows j = Some r'.
  Proof.
    intros Hp Hi. destruct (nth_error rows i) as [r|] eqn:Er; [|apply nth_error_None in Er; lia].
    destruct (nth_error p i) as [j|] eqn:Ej.
    - pose proof (perm_seq_lt _ _ _ Hp (nth_error_In _ _ Ej)) as Hj.
      destruct (nth_error rows j) as [r'|] eqn:Er'; [|apply nth_error_None in Er'; lia]. eauto 8.
    - apply nth_error_None in Ej. apply Permutation_length in Hp. rewrite seq_length in Hp. lia.
  Qed.

  Lemma permute_at_spec k p : k < w -> Permutation p (seq 0 (length rows)) -> permute_at k p rows = rearranged rows [k] p.
  Proof.
    intros Hk Hp. apply nth_error_eq; rewrite permute_at_length by assumption.
    - symmetry. apply rearranged_length, Hp.
    - intros i Hi. destruct (perm_nth_ex p i Hp Hi) as (r & j & r' & Hr & Hj & Hr').
      rewrite (permute_at_nth k p i r j r'), (rearranged_nth rows [k] p i r j r') by assumption. reflexivity.
  Qed.
End Rearrange.

Lemma permute_two {C} (rows : list (list C)) w k1 k2 p : (forall r, In r rows -> length r = w) -> k1 < w -> k2 < w -> k1 <> k2 ->
  Permutation p (seq 0 (length rows)) -> permute_at k2 p (permute_at k1 p rows) = rearranged rows [k1; k2] p.
Proof.
  intros Hw H1 H2 Hne Hp. rewrite (permute_at_spec rows w Hw k1 p H1 Hp). set (rows1 := rearranged rows [k1] p).
  assert (Hw1 : forall r, In r rows1 -> length r = w) by apply (rearranged_width rows w [k1] p Hw).
  assert (Hl : length rows1 = length rows) by (apply rearranged_length, Hp).
  assert (Hp1 : Permutation p (seq 0 (length rows1))) by (rewrite Hl; exact Hp).
  apply nth_error_eq; rewrite (permute_at_length rows1 w Hw1) by assumption; rewrite Hl.
  - symmetry; apply rearranged_length, Hp.
  - intros i Hi. destruct (perm_nth_ex rows p i Hp Hi) as (r & j & r' & Hr & Hj & Hr').
    rewrite (rearranged_nth rows [k1; k2] p i r j r') by assumption.
    assert (Hj' : j < length rows) by (eapply perm_seq_lt; [exact Hp|eapply nth_error_In, Hj]).
    destruct (perm_nth_ex rows p j Hp Hj') as (r'' & j2 & r3 & Hr'' & Hj2 & Hr3).
    assert (r'' = r') by congruence. subst r''.
    assert (Lr : length r = w) by (eapply Hw, nth_error_In, Hr). assert (Lr' : length r' = w) by (eapply Hw, nth_error_In, Hr').
    assert (Lr3 : length r3 = w) by (eapply Hw, nth_error_In, Hr3).
    rewrite (permute_at_nth rows1 w Hw1 k2 p i (graft [k1] r r') j (graft [k1] r' r3)); auto.
    + f_equal. apply nth_error_eq.
      * rewrite !graft_length; rewrite ?graft_length; congruence.
      * intros q _. rewrite !graft_nth by (rewrite ?graft_length; congruence). cbn [existsb]. rewrite !orb_false_r.
        destruct (Nat.eqb_spec q k2), (Nat.eqb_spec q k1); cbn; congruence.
    + apply rearranged_nth with j; assumption.
    + apply rearranged_nth with j2; assumption.
Qed.

(** restoring the column gives back the original rows *)
Lemma restore_rows {C} (rows : list (list C)) w k p : (forall r, In r rows -> length r = w) -> k < w -> Permutation p (seq 0 (length rows)) ->
  map (fun rv => set_nth k (snd rv) (fst rv)) (combine (rearranged rows [k] p) (col_at k rows)) = rows.
Proof.
  intros Hw Hk Hp. apply nth_error_eq.
  - rewrite map_length, combine_length, rearranged_length, (col_at_length k w rows) by (assumption || apply Forall_forall, Hw). apply Nat.min_id.
  - intros i Hi. rewrite map_length, combine_length, rearranged_length, (col_at_length k w rows), Nat.min_id in Hi by (assumption || apply Forall_forall, Hw).
    destruct (perm_nth_ex rows p i Hp Hi) as (r & j & r' & Hr & Hj & Hr').
    rewrite nth_error_map, nth_error_combine, (rearranged_nth rows [k] p i r j r'), (col_at_nth k w rows) by (assumption || apply Forall_forall, Hw).
    rewrite Hr. assert (Lr : length r = w) by (eapply Hw, nth_error_In, Hr). assert (Lr' : length r' = w) by (eapply Hw, nth_error_In, Hr').
    destruct (nth_error r k) as [v|] eqn:E; [|apply nth_error_None in E; lia]. cbn [option_map fst snd]. f_equal.
    assert (Lg : length (graft [k] r r') = w) by (rewrite graft_length; congruence).
    rewrite set_nth_with_value by (rewrite Lg; exact Hk). apply nth_error_eq.
    + rewrite with_value_length; rewrite Lg; congruence.
    + intros q _. rewrite with_value_nth by (rewrite Lg; exact Hk). rewrite graft_nth by congruence. cbn.
      destruct (Nat.eqb_spec q k); [subst; congruence|reflexivity].
Qed.

(** ** Reasoning about actions *)
Section Actions.
  Context {C G : Type}.
  Notation act A := (act (C := C) (G := G) A).

  (** an invariant of the state kept by the action whatever its outcome, and a property of the
      value when there is one *)
  Definition hoare {A} (I : pst C G -> Prop) (m : act A) (post : A -> Prop) : Prop :=
    forall s, I s -> I (fst (m s)) /\ forall a, snd (m s) = Ok a -> post a.

  Lemma hoare_andthen {A B} I (m : act A) (k : A -> act B) post1 post :
    hoare I m post1 -> (forall a, post1 a -> hoare I (k a) post) -> hoare I (andthen m k) post.
  Proof.
    intros Hm Hk s Hs. unfold andthen. destruct (Hm s Hs) as [H1 H2]. destruct (m s) as [s' [a|e]]; cbn in *.
    - apply Hk; auto.
    - split; [exact H1|discriminate].
  Qed.
  Lemma hoare_ret {A} I (x : A) (post : A -> Prop) : post x -> hoare I (ret x) post.
  Proof. intros H s Hs. cbn. split; [exact Hs|]. intros a Ha. injection Ha as <-. exact H. Qed.
  Lemma hoare_raise {A} I e (post : A -> Prop) : hoare I (raise e) post.
  Proof. intros s Hs. cbn. split; [exact Hs|discriminate]. Qed.
  Lemma hoare_lift {A} I (r : result A) (post : A -> Prop) : (forall a, r = Ok a -> post a) -> hoare I (lift r) post.
  Proof. intros H s Hs. cbn. split; [exact Hs|exact H]. Qed.
  Lemma hoare_weaken {A} I (m : act A) (p q : A -> Prop) : (forall a, p a -> q a) -> hoare I m p -> hoare I m q.
  Proof. intros H Hm s Hs. destruct (Hm s Hs). split; auto. Qed.
  Lemma hoare_traverse {A B} I (f : A -> act B) l : (forall x, In x l -> hoare I (f x) (fun _ => True)) -> hoare I (traverse f l) (fun _ => True).
  Proof.
    induction l as [|x t IH]; intros H; cbn [traverse]; [apply hoare_ret; trivial|]. 
    eapply hoare_andthen; [apply H; left; reflexivity|]. intros y _.
    eapply hoare_andthen; [apply IH; intros; apply H; right; assumption|]. intros ys _. apply hoare_ret; trivial.
  Qed.
End Actions.
