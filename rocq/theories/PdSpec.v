(** Specification of partial dependence, directly on the rows of the data and the
    row-wise function [g] computed by the model.  Nothing here mentions the cache. *)
From Verif Require Import Py.

Section PdSpec.
  Context {C V : Type} (mean : list V -> V) (g : list C -> V).

  (** the row with its [p]-th cell replaced *)
  Definition with_value (p : nat) (v : C) (row : list C) : list C := firstn p row ++ v :: skipn (S p) row.

  (** average prediction with column [p] set to [v] everywhere *)
  Definition PD1 (rows : list (list C)) (p : nat) (v : C) : V :=
    mean (map (fun r => g (with_value p v r)) rows).

  (** average prediction with columns [p], [q] set to [v], [w] everywhere *)
  Definition PD2 (rows : list (list C)) (p q : nat) (v w : C) : V :=
    mean (map (fun r => g (with_value q w (with_value p v r))) rows).

  (** average prediction of [row] with its [p]-th cell ranging over column [p] *)
  Definition PDminus (rows : list (list C)) (p : nat) (row : list C) : V :=
    mean (flat_map (fun r => match nth_error r p with
                             | Some v => [g (with_value p v row)]
                             | None => []
                             end) rows).
End PdSpec.

Lemma set_nth_with_value {A} (p : nat) (v : A) row : p < length row -> set_nth p v row = with_value p v row.
Proof.
  unfold with_value; revert p; induction row as [|x t IH]; intros [|p] H; cbn in *; try lia; [reflexivity|].
  f_equal; apply IH; lia.
Qed.

Lemma with_value_length {A} p (v : A) row : p < length row -> length (with_value p v row) = length row.
Proof. intros H; rewrite <- set_nth_with_value by exact H; apply set_nth_length. Qed.

Lemma with_value_nth {A} p (v : A) row q : p < length row ->
  nth_error (with_value p v row) q = if q =? p then Some v else nth_error row q.
Proof.
  intros H; rewrite <- set_nth_with_value by exact H. destruct (Nat.eqb_spec q p) as [->|Hne].
  - apply set_nth_same, H.
  - apply set_nth_other; congruence.
Qed.

Lemma nth_error_ext {A} (a b : list A) : (forall i, nth_error a i = nth_error b i) -> a = b.
Proof.
  revert b; induction a as [|x a IH]; intros [|y b] H; [reflexivity|specialize (H 0); discriminate..|].
  pose proof (H 0) as H0; cbn in H0; injection H0 as ->. f_equal; apply IH; intros i; exact (H (S i)).
Qed.

Lemma with_value_swap {A} p q (v w : A) row : p <> q -> p < length row -> q < length row ->
  with_value q w (with_value p v row) = with_value p v (with_value q w row).
Proof.
  intros Hne Hp Hq; apply nth_error_ext; intros i.
  rewrite !with_value_nth by (rewrite ?with_value_length; auto).
  destruct (Nat.eqb_spec i q), (Nat.eqb_spec i p); subst; auto; congruence.
Qed.

Lemma with_value_same {A} p (v : A) row : nth_error row p = Some v -> with_value p v row = row.
Proof.
  intros H; assert (Hp : p < length row) by (apply nth_error_Some; congruence).
  apply nth_error_ext; intros i. rewrite with_value_nth by exact Hp.
  destruct (Nat.eqb_spec i p); subst; auto.
Qed.

Lemma with_value_twice {A} p (v w : A) row : p < length row -> with_value p v (with_value p w row) = with_value p v row.
Proof.
  intros Hp; apply nth_error_ext; intros i. rewrite !with_value_nth by (rewrite ?with_value_length; auto).
  destruct (Nat.eqb_spec i p); auto.
Qed.
