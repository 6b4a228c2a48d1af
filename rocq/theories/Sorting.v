(** Sorting, as used by [DataFrame.sort_values].  pandas' single-key sort is not stable,
    so the model takes the sorting function as a parameter and theorems assume only that
    it returns a sorted permutation ([sorter_ok]); insertion sort is an instance. *)
From Verif Require Import Py Num.

Definition sorter := forall A : Type, (A -> A -> bool) -> list A -> list A.

Definition total_pre {A} (le : A -> A -> bool) : Prop :=
  (forall a b, le a b = true \/ le b a = true) /\
  (forall a b c, le a b = true -> le b c = true -> le a c = true).

Definition sorted_by {A} (le : A -> A -> bool) (l : list A) : Prop :=
  StronglySorted (fun a b => le a b = true) l.

Definition sorter_ok (srt : sorter) : Prop :=
  forall A (le : A -> A -> bool), total_pre le ->
  forall l, Permutation (srt A le l) l /\ sorted_by le (srt A le l).

(** Insertion sort (stable). *)
Fixpoint insert_by {A} (le : A -> A -> bool) (x : A) (l : list A) : list A :=
  match l with
  | [] => [x]
  | y :: t => if le x y then x :: l else y :: insert_by le x t
  end.
Definition isort : sorter := fun A le l => fold_right (insert_by le) [] l.

Lemma insert_by_perm {A} (le : A -> A -> bool) x l : Permutation (insert_by le x l) (x :: l).
Proof.
  induction l as [|y t IH]; cbn; [reflexivity|].
  destruct (le x y); [reflexivity|]. rewrite IH; apply perm_swap.
Qed.

Lemma insert_by_sorted {A} (le : A -> A -> bool) x l :
  total_pre le -> sorted_by le l -> sorted_by le (insert_by le x l).
Proof.
  intros [Ht Htr] H; induction H as [|y t Hs IH Hf]; cbn; [repeat constructor|].
  destruct (le x y) eqn:E.
  - constructor; [constructor; assumption|]. constructor; [exact E|].
    apply (Forall_impl _ (fun z Hz => Htr _ _ _ E Hz) Hf).
  - constructor; [exact IH|].
    apply (Permutation_Forall (Permutation_sym (insert_by_perm le x t))). constructor; [|exact Hf].
    destruct (Ht x y); congruence.
Qed.

Lemma isort_ok : sorter_ok isort.
Proof.
  intros A le Hle l; unfold isort; induction l as [|x t [IHp IHs]]; cbn; [split; constructor|].
  split; [rewrite insert_by_perm, IHp; reflexivity|apply insert_by_sorted; assumption].
Qed.

(** Orders of [sort_values(by=key, ascending=...)]: NaN keys always go last. *)
Section Orders.
  Context {V : Type} (N : num_ops V).
  Definition le_asc (a b : V) : bool :=
    if n_isnan N b then true else if n_isnan N a then false else negb (n_ltb N b a).
  Definition le_desc (a b : V) : bool :=
    if n_isnan N b then true else if n_isnan N a then false else negb (n_ltb N a b).
  Definition le_dir (ascending : bool) : V -> V -> bool := if ascending then le_asc else le_desc.

  Hypothesis Hord : num_ord_ok N.

  Lemma le_asc_pre : total_pre le_asc.
  Proof.
    destruct Hord as [_ Hi Ht Hn _ _]. split; unfold le_asc.
    - intros a b. destruct (n_isnan N b) eqn:Eb; [auto|]. destruct (n_isnan N a) eqn:Ea; [auto|].
      destruct (n_ltb N b a) eqn:E1, (n_ltb N a b) eqn:E2; auto.
      pose proof (Ht _ _ _ E1 E2) as H; rewrite Hi in H; congruence.
    - intros a b c. destruct (n_isnan N c) eqn:Ec; [auto|].
      destruct (n_isnan N b) eqn:Eb; [congruence|]. destruct (n_isnan N a) eqn:Ea; [congruence|].
      intros H1 H2. apply negb_true_iff in H1, H2. apply negb_true_iff. apply (Hn c b a); assumption.
  Qed.

  Lemma le_desc_pre : total_pre le_desc.
  Proof.
    destruct Hord as [_ Hi Ht Hn _ _]. split; unfold le_desc.
    - intros a b. destruct (n_isnan N b) eqn:Eb; [auto|]. destruct (n_isnan N a) eqn:Ea; [auto|].
      destruct (n_ltb N b a) eqn:E1, (n_ltb N a b) eqn:E2; auto.
      pose proof (Ht _ _ _ E1 E2) as H; rewrite Hi in H; congruence.
    - intros a b c. destruct (n_isnan N c) eqn:Ec; [auto|].
      destruct (n_isnan N b) eqn:Eb; [congruence|]. destruct (n_isnan N a) eqn:Ea; [congruence|].
      intros H1 H2. apply negb_true_iff in H1, H2. apply negb_true_iff. apply (Hn a b c); assumption.
  Qed.

  Lemma le_dir_pre asc : total_pre (le_dir asc).
  Proof. destruct asc; [apply le_asc_pre|apply le_desc_pre]. Qed.
End Orders.

Lemma total_pre_on {A B} (key : A -> B) (le : B -> B -> bool) :
  total_pre le -> total_pre (fun a b => le (key a) (key b)).
Proof. intros [Ht Htr]; split; intros; [apply Ht|eapply Htr; eassumption]. Qed.

(** [df.sort_values(by=key, ascending=asc)] *)
Definition sort_values {V A} (N : num_ops V) (srt : sorter) (asc : bool) (key : A -> V) (l : list A) : list A :=
  srt A (fun a b => le_dir N asc (key a) (key b)) l.

Lemma sort_values_ok {V A} (N : num_ops V) srt asc (key : A -> V) l :
  sorter_ok srt -> num_ord_ok N ->
  Permutation (sort_values N srt asc key l) l /\
  StronglySorted (fun a b => le_dir N asc (key a) (key b) = true) (sort_values N srt asc key l).
Proof. intros Hs Hn; apply (Hs A), (total_pre_on key), le_dir_pre, Hn. Qed.

Lemma StronglySorted_map {A B} (R : B -> B -> Prop) (f : A -> B) l :
  StronglySorted (fun a b => R (f a) (f b)) l -> StronglySorted R (map f l).
Proof.
  induction 1 as [|x t Hs IH Hf]; cbn; [constructor|]. constructor; [exact IH|].
  apply Forall_map; exact Hf.
Qed.

Lemma StronglySorted_impl {A} (R S : A -> A -> Prop) l :
  (forall a b, In a l -> In b l -> R a b -> S a b) -> StronglySorted R l -> StronglySorted S l.
Proof.
  intros H Hs; induction Hs as [|x t Hs IH Hf]; [constructor|].
  constructor.
  - apply IH; intros a b Ha Hb; apply H; right; assumption.
  - rewrite Forall_forall in *. intros y Hy. apply H; [left; reflexivity|right; exact Hy|auto].
Qed.
