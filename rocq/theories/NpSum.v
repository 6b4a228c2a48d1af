(** The summation of numpy: [np.add.reduce] on a contiguous array of doubles (pairwise_sum in
    numpy/core/src/umath/loops_utils.h.src).  Fewer than 8 numbers are added from left to right, up
    to 128 with eight running sums, more by halves.  It is one of the orders that [added] allows. *)
From Verif Require Import Py Num Float.
From Coq Require Import SpecFloat Lia.
Open Scope nat_scope.
Open Scope list_scope.

(** eight running sums over the full blocks of eight; what remains *)
Fixpoint blocks (fuel : nat) (r l : list F) : list F * list F :=
  match fuel with
  | 0 => (r, l)
  | S f => if Nat.ltb (length l) 8 then (r, l) else blocks f (map (fun p => fadd (fst p) (snd p)) (combine r (firstn 8 l))) (skipn 8 l)
  end.
Definition tree8 (r : list F) : F :=
  match r with
  | [a; b; c; d; e; f; g; h] => fadd (fadd (fadd a b) (fadd c d)) (fadd (fadd e f) (fadd g h))
  | _ => S754_nan
  end.
Definition block_sum (l : list F) : F :=
  let '(r, rest) := blocks (length l) (firstn 8 l) (skipn 8 l) in fold_left fadd rest (tree8 r).
Fixpoint pairwise (fuel : nat) (l : list F) : F :=
  match fuel with
  | 0 => seq_sum l
  | S f =>
      let n := length l in
      if Nat.ltb n 8 then seq_sum l
      else if Nat.leb n 128 then block_sum l
      else let n2 := n / 2 - (n / 2) mod 8 in fadd (pairwise f (firstn n2 l)) (pairwise f (skipn n2 l))
  end.
Definition np_sum (l : list F) : F := fadd f_zero (pairwise (length l) l).

Lemma added_perm l l' x : added l x -> Permutation l l' -> added l' x.
Proof.
  induction 1 as [|x|l l1 l2 x y Hp H1 _ H2 _]; intros Hq.
  - apply Permutation_nil in Hq. subst. constructor.
  - apply Permutation_length_1_inv in Hq. subst. constructor.
  - apply (added_two _ l1 l2); [rewrite <- Hq; exact Hp|assumption|assumption].
Qed.
Lemma fold_added t l x : added l x -> added (l ++ t) (fold_left fadd t x).
Proof.
  revert l x. induction t as [|y t IH]; intros l0 x H; cbn [fold_left]; [rewrite app_nil_r; exact H|].
  replace (l0 ++ y :: t) with ((l0 ++ [y]) ++ t) by (rewrite <- app_assoc; reflexivity). apply IH. apply (added_two _ l0 [y]); [reflexivity|exact H|constructor].
Qed.

(** the running sums are sums of disjoint parts of the list *)
Lemma blocks_added fuel : forall r l parts, length r = 8 -> Forall2 added parts r ->
  exists parts' rest, Forall2 added parts' (fst (blocks fuel r l)) /\ snd (blocks fuel r l) = rest /\ Permutation (concat parts' ++ rest) (concat parts ++ l) /\ length (fst (blocks fuel r l)) = 8.
Proof.
  induction fuel as [|f IH]; intros r l parts Hr Hp; cbn [blocks].
  - exists parts, l. auto.
  - destruct (Nat.ltb_spec (length l) 8) as [Hlt|Hge]; [exists parts, l; auto|].
    destruct r as [|r0 [|r1 [|r2 [|r3 [|r4 [|r5 [|r6 [|r7 [|? r]]]]]]]]]; try discriminate. clear Hr.
    destruct l as [|x0 [|x1 [|x2 [|x3 [|x4 [|x5 [|x6 [|x7 l]]]]]]]]; try (cbn in Hge; lia). clear Hge.
    inversion Hp as [|p0 ? q0 ? A0 P0]; subst; clear Hp. inversion P0 as [|p1 ? q1 ? A1 P1]; subst; clear P0. inversion P1 as [|p2 ? q2 ? A2 P2]; subst; clear P1. inversion P2 as [|p3 ? q3 ? A3 P3]; subst; clear P2.
    inversion P3 as [|p4 ? q4 ? A4 P4]; subst; clear P3. inversion P4 as [|p5 ? q5 ? A5 P5]; subst; clear P4. inversion P5 as [|p6 ? q6 ? A6 P6]; subst; clear P5. inversion P6 as [|p7 ? q7 ? A7 P7]; subst; clear P6. inversion P7; subst; clear P7.
    cbn [firstn skipn combine map fst snd].
    destruct (IH [fadd r0 x0; fadd r1 x1; fadd r2 x2; fadd r3 x3; fadd r4 x4; fadd r5 x5; fadd r6 x6; fadd r7 x7] l [p0 ++ [x0]; p1 ++ [x1]; p2 ++ [x2]; p3 ++ [x3]; p4 ++ [x4]; p5 ++ [x5]; p6 ++ [x6]; p7 ++ [x7]]) as (ps & rest & B1 & B2 & B3 & B4); [reflexivity| |].
    + repeat constructor; (eapply added_two; [reflexivity|eassumption|constructor]).
    + exists ps, rest. split; [exact B1|]. split; [exact B2|]. split; [|exact B4]. rewrite B3. cbn [concat]. rewrite <- !app_assoc. cbn [app].
      clear. repeat rewrite <- ?Permutation_middle. reflexivity.
Qed.

Lemma block_added l : 8 <= length l -> added l (block_sum l).
Proof.
  intros H. unfold block_sum. destruct l as [|x0 [|x1 [|x2 [|x3 [|x4 [|x5 [|x6 [|x7 l]]]]]]]]; try (cbn in H; lia).
  change (firstn 8 (x0 :: x1 :: x2 :: x3 :: x4 :: x5 :: x6 :: x7 :: l)) with [x0; x1; x2; x3; x4; x5; x6; x7]. change (skipn 8 (x0 :: x1 :: x2 :: x3 :: x4 :: x5 :: x6 :: x7 :: l)) with l.
  destruct (blocks_added (length (x0 :: x1 :: x2 :: x3 :: x4 :: x5 :: x6 :: x7 :: l)) [x0; x1; x2; x3; x4; x5; x6; x7] l [[x0]; [x1]; [x2]; [x3]; [x4]; [x5]; [x6]; [x7]]) as (ps & rest & B1 & B2 & B3 & B4); [reflexivity|repeat constructor|].
  destruct (blocks _ _ l) as [r rest']. cbn [fst snd] in *. subst rest'.
  destruct r as [|r0 [|r1 [|r2 [|r3 [|r4 [|r5 [|r6 [|r7 [|? r]]]]]]]]]; try discriminate. clear B4.
  inversion B1 as [|p0 ? q0 ? A0 P0]; subst; clear B1. inversion P0 as [|p1 ? q1 ? A1 P1]; subst; clear P0. inversion P1 as [|p2 ? q2 ? A2 P2]; subst; clear P1. inversion P2 as [|p3 ? q3 ? A3 P3]; subst; clear P2.
  inversion P3 as [|p4 ? q4 ? A4 P4]; subst; clear P3. inversion P4 as [|p5 ? q5 ? A5 P5]; subst; clear P4. inversion P5 as [|p6 ? q6 ? A6 P6]; subst; clear P5. inversion P6 as [|p7 ? q7 ? A7 P7]; subst; clear P6. inversion P7; subst; clear P7.
  cbn [concat app] in B3. rewrite app_nil_r in B3.
  assert (K : added ((((p0 ++ p1) ++ (p2 ++ p3)) ++ ((p4 ++ p5) ++ (p6 ++ p7))) ++ rest) (fold_left fadd rest (tree8 [r0; r1; r2; r3; r4; r5; r6; r7]))).
  { apply fold_added. cbn [tree8]. repeat (eapply added_two; [reflexivity| |]); assumption. }
  apply (added_perm _ _ _ K). rewrite <- !app_assoc in *. exact B3.
Qed.

Lemma pairwise_added fuel : forall l, added l (pairwise fuel l).
Proof.
  induction fuel as [|f IH]; intros l; cbn [pairwise]; [apply seq_sum_added|].
  destruct (Nat.ltb_spec (length l) 8); [apply seq_sum_added|]. destruct (Nat.leb_spec (length l) 128); [apply block_added; lia|].
  cbv zeta. eapply added_two; [|apply IH|apply IH]. rewrite firstn_skipn. reflexivity.
Qed.
(** numpy's sum adds the numbers in one of the orders that [added] allows *)
Theorem np_added l : added l (np_sum l).
Proof. apply (added_two _ [] l); [reflexivity|constructor|apply pairwise_added]. Qed.
