(** numpy random generators, as used through [DataFrame.sample] and
    [Generator.permutation].  The generator is abstract; theorems assume only that it
    returns samples without replacement, resp. permutations. *)
From Verif Require Import Py Frame.

Record rng_ops (G : Type) := {
  r_seed : Z -> G;                                  (* np.random.default_rng(seed) *)
  r_sample : G -> nat -> nat -> list nat * G;       (* positions of a sample of n out of len rows: gen, len, n *)
  r_perm : G -> nat -> list nat * G }.              (* rng.permutation of len entries, as positions *)
Arguments r_seed {G}. Arguments r_sample {G}. Arguments r_perm {G}.

Record rng_ok {G} (R : rng_ops G) : Prop := {
  rk_sample : forall g len n, n <= len -> let l := fst (r_sample R g len n) in
              length l = n /\ NoDup l /\ forall i, In i l -> i < len;
  rk_perm : forall g len, Permutation (fst (r_perm R g len)) (seq 0 len) }.

(** A linear congruential instance, for examples: the sample is a rotation. *)
Definition rot {A} (k : nat) (l : list A) : list A := skipn (k mod length l) l ++ firstn (k mod length l) l.
Definition rotR : rng_ops nat := {|
  r_seed := Z.to_nat;
  r_sample := fun g len n => (firstn n (rot g (seq 0 len)), S (3 * g));
  r_perm := fun g len => (rot g (seq 0 len), S (3 * g)) |}.

Lemma rot_perm {A} k (l : list A) : Permutation (rot k l) l.
Proof. unfold rot. rewrite Permutation_app_comm, firstn_skipn. reflexivity. Qed.

Lemma NoDup_firstn {A} n (l : list A) : NoDup l -> NoDup (firstn n l).
Proof.
  intros H. rewrite <- (firstn_skipn n l) in H. revert H. generalize (skipn n l) as t. generalize (firstn n l) as s.
  induction s as [|x s IH]; cbn; intros t H; [constructor|]. inversion H; subst. constructor; [|eauto].
  intros Hx; apply H2, in_or_app; auto.
Qed.

Lemma rotR_ok : rng_ok rotR.
Proof.
  constructor; cbn; intros g len.
  - intros n Hn. assert (Hp := rot_perm g (seq 0 len)). split; [|split].
    + rewrite firstn_length, (Permutation_length Hp), seq_length. lia.
    + apply NoDup_firstn. apply (Permutation_NoDup (Permutation_sym Hp)), seq_NoDup.
    + intros i Hi. assert (Hi' : In i (rot g (seq 0 len))).
      { rewrite <- (firstn_skipn n). apply in_or_app; auto. }
      apply (Permutation_in _ Hp), in_seq in Hi'. lia.
  - apply rot_perm.
Qed.

(** the rows at the given positions, [X.iloc[ps]] *)
Definition picks {A} (l : list A) (ps : list nat) : list A :=
  flat_map (fun i => match nth_error l i with Some x => [x] | None => [] end) ps.

Lemma picks_nth {A} (l : list A) ps : (forall i, In i ps -> i < length l) ->
  length (picks l ps) = length ps /\ forall k i, nth_error ps k = Some i -> nth_error (picks l ps) k = nth_error l i.
Proof.
  induction ps as [|i t IH]; intros H; cbn.
  - split; [reflexivity|]. intros [|k] i; discriminate.
  - destruct IH as [IH1 IH2]; [intros; apply H; right; auto|].
    assert (Hi : i < length l) by (apply H; left; auto).
    destruct (nth_error l i) as [x|] eqn:E; [|apply nth_error_None in E; lia]. cbn. split; [f_equal; exact IH1|].
    intros [|k] j Hk; cbn in Hk |- *; [injection Hk as <-; symmetry; exact E|auto].
Qed.

Lemma picks_In {A} (l : list A) ps x : In x (picks l ps) -> In x l.
Proof.
  unfold picks; rewrite in_flat_map. intros (i & _ & Hi). destruct (nth_error l i) eqn:E; [|destruct Hi].
  destruct Hi as [<-|[]]. eapply nth_error_In; exact E.
Qed.

Lemma picks_seq {A} (l : list A) : picks l (seq 0 (length l)) = l.
Proof.
  assert (H : forall (pre l : list A), picks (pre ++ l) (seq (length pre) (length l)) = l).
  { intros pre k; revert pre; induction k as [|x k IH]; intros pre; [reflexivity|]. cbn.
    rewrite nth_error_app2, Nat.sub_diag by lia. cbn. f_equal.
    specialize (IH (pre ++ [x])). rewrite <- app_assoc, app_length in IH; cbn in IH.
    rewrite Nat.add_1_r in IH. exact IH. }
  exact (H [] l).
Qed.

Lemma picks_perm {A} (l : list A) ps : Permutation ps (seq 0 (length l)) -> Permutation (picks l ps) l.
Proof.
  intros H. rewrite <- (picks_seq l) at 2. unfold picks.
  apply Permutation_flat_map, H.
Qed.

Definition frame_take {C} (X : frame C) (ps : list nat) : frame C := {|
  f_cols := f_cols X; f_index := picks (f_index X) ps; f_num := f_num X; f_rows := picks (f_rows X) ps |}.

Lemma frame_take_wf {C} (X : frame C) ps : wf_frame X -> (forall i, In i ps -> i < length (f_rows X)) -> wf_frame (frame_take X ps).
Proof.
  intros (H1 & H2 & H3) Hps. split; [exact H1|]. split.
  - cbn. rewrite Forall_forall in *. intros r Hr. apply H2. eapply picks_In, Hr.
  - cbn. rewrite (proj1 (picks_nth (f_rows X) ps Hps)). apply picks_nth. rewrite H3; exact Hps.
Qed.

(** artemis/_utilities/ops.py:18-22 [sample_if_not_none]; pandas raises ValueError when
    more rows are requested than there are.  (Negative n, also a ValueError, is left out.) *)
Definition sample_if_not_none {C G} (R : rng_ops G) (g : G) (X : frame C) (n : option nat) : result (frame C * G) :=
  match n with
  | None => Ok (X, g)
  | Some k => if k <=? length (f_rows X)
              then let '(ps, g') := r_sample R g (length (f_rows X)) k in Ok (frame_take X ps, g')
              else Err ValueError
  end.

Lemma sample_wf {C G} (R : rng_ops G) g (X : frame C) n Xs g' : rng_ok R -> wf_frame X ->
  sample_if_not_none R g X n = Ok (Xs, g') -> wf_frame Xs /\ f_cols Xs = f_cols X /\ f_num Xs = f_num X.
Proof.
  intros HR HX H. destruct n as [k|]; cbn in H; [|injection H as <- <-; auto].
  destruct (Nat.leb_spec k (length (f_rows X))) as [Hk|]; [|discriminate].
  pose proof (rk_sample R HR g _ _ Hk) as Hs. destruct (r_sample R g _ k) as [ps g1]. injection H as <- <-.
  split; [apply frame_take_wf; [exact HX|apply Hs]|auto].
Qed.

(** [DataFrame.equals]: same labels, same dtypes and the same values, NaN being equal to
    NaN (pandas). *)
Definition cell_same {C} (O : cell_ops C) (a b : C) : bool := c_eqb O a b || (c_isnan O a && c_isnan O b).
Fixpoint list_eqb {A} (eqb : A -> A -> bool) (a b : list A) : bool :=
  match a, b with
  | [], [] => true
  | x :: a', y :: b' => eqb x y && list_eqb eqb a' b'
  | _, _ => false
  end.
Definition frame_equals {C} (O : cell_ops C) (X Y : frame C) : bool :=
  list_eqb String.eqb (f_cols X) (f_cols Y) && list_eqb Z.eqb (f_index X) (f_index Y)
  && list_eqb String.eqb (f_num X) (f_num Y) && list_eqb (list_eqb (cell_same O)) (f_rows X) (f_rows Y).

Lemma list_eqb_eq {A} (eqb : A -> A -> bool) a b :
  (forall x y, In x a -> eqb x y = true -> x = y) -> list_eqb eqb a b = true -> a = b.
Proof.
  revert b; induction a as [|x a IH]; intros [|y b] He H; cbn in H; try discriminate; [reflexivity|].
  apply andb_true_iff in H as [H1 H2]. f_equal; [apply He; [left; auto|exact H1]|].
  apply IH; [intros; apply He; [right|]; assumption|exact H2].
Qed.
Lemma list_eqb_refl {A} (eqb : A -> A -> bool) a : (forall x, eqb x x = true) -> list_eqb eqb a a = true.
Proof. intros H; induction a as [|x a IH]; cbn; [reflexivity|]. rewrite H, IH; reflexivity. Qed.

Lemma frame_equals_refl {C} (O : cell_ops C) X : frame_equals O X X = true.
Proof.
  unfold frame_equals. rewrite !list_eqb_refl; auto using String.eqb_refl, Z.eqb_refl.
  intros r. apply list_eqb_refl. intros v. unfold cell_same, c_isnan. destruct (c_eqb O v v); reflexivity.
Qed.

Lemma frame_equals_eq {C} (O : cell_ops C) (HO : cell_ok O) X Y :
  (forall a b, c_isnan O a = true -> c_isnan O b = true -> a = b) -> frame_equals O X Y = true -> X = Y.
Proof.
  intros Hn H. unfold frame_equals in H. rewrite !andb_true_iff in H. destruct H as (((H1 & H2) & H3) & H4).
  destruct X as [a b c d], Y as [a' b' c' d']; cbn in *.
  apply list_eqb_eq in H1; [|intros x y _; apply String.eqb_eq].
  apply list_eqb_eq in H2; [|intros x y _; apply Z.eqb_eq].
  apply list_eqb_eq in H3; [|intros x y _; apply String.eqb_eq].
  apply list_eqb_eq in H4; [subst; reflexivity|]. intros x y _ Hxy.
  apply list_eqb_eq in Hxy; [exact Hxy|]. intros v w _ Hvw. unfold cell_same in Hvw. apply orb_true_iff in Hvw as [Hvw|Hvw].
  - apply (ce_eq O HO), Hvw.
  - apply andb_true_iff in Hvw as []. auto.
Qed.
