(** pandas data frames, as far as artemis looks at them. *)
From Verif Require Import Py.

(** Cell values: a column holds values of a type with equality and order; a value that
    is not equal to itself is NaN. *)
Record cell_ops (C : Type) := { c_eqb : C -> C -> bool; c_ltb : C -> C -> bool }.
Arguments c_eqb {C}. Arguments c_ltb {C}.

Definition c_isnan {C} (O : cell_ops C) (v : C) : bool := negb (c_eqb O v v).

Record cell_ok {C} (O : cell_ops C) : Prop := {
  ce_eq : forall a b, c_eqb O a b = true -> a = b;
  ce_irrefl : forall a, c_ltb O a a = false;
  ce_trans : forall a b c, c_ltb O a b = true -> c_ltb O b c = true -> c_ltb O a c = true;
  ce_total : forall a b, c_isnan O a = false -> c_isnan O b = false ->
             a <> b -> c_ltb O a b = true \/ c_ltb O b a = true }.

Definition Zcell : cell_ops Z := {| c_eqb := Z.eqb; c_ltb := Z.ltb |}.
Lemma Zcell_ok : cell_ok Zcell.
Proof.
  constructor; cbn; intros *; rewrite ?Z.eqb_eq, ?Z.ltb_irrefl, ?Z.ltb_lt; try lia; try reflexivity.
Qed.

(** Integer cells with a missing value (a float column with NaN). *)
Definition OZcell : cell_ops (option Z) := {|
  c_eqb := fun a b => match a, b with Some x, Some y => Z.eqb x y | _, _ => false end;
  c_ltb := fun a b => match a, b with Some x, Some y => Z.ltb x y | _, _ => false end |}.
Lemma OZcell_ok : cell_ok OZcell.
Proof.
  constructor.
  - intros [a|] [b|]; cbn; try congruence. rewrite Z.eqb_eq; congruence.
  - intros [a|]; cbn; auto using Z.ltb_irrefl.
  - intros [a|] [b|] [c|]; cbn; try congruence. rewrite !Z.ltb_lt; lia.
  - intros [a|] [b|]; unfold c_isnan; cbn; try congruence.
    intros _ _ H. rewrite !Z.ltb_lt. assert (a <> b) by congruence. lia.
Qed.

Section Cells.
  Context {C : Type} (O : cell_ops C).

  (** np.sort(np.unique(a)): strictly increasing distinct values, NaNs collapsed into
      one, which is placed last. *)
  Fixpoint uinsert (x : C) (l : list C) : list C :=
    match l with
    | [] => [x]
    | y :: t => if c_ltb O x y then x :: l else if c_eqb O x y then l else y :: uinsert x t
    end.
  Definition np_unique (l : list C) : list C :=
    fold_right uinsert [] (filter (fun v => negb (c_isnan O v)) l)
    ++ match find (c_isnan O) l with Some n => [n] | None => [] end.

  (** artemis/_utilities/pd_calculator.py:165-166 [get_index]: first position whose entry
      compares equal to the value; IndexError when there is none. *)
  Fixpoint get_index_from (i : nat) (a : list C) (v : C) : result nat :=
    match a with
    | [] => Err IndexError
    | x :: t => if c_eqb O x v then Ok i else get_index_from (S i) t v
    end.
  Definition get_index (a : list C) (v : C) : result nat := get_index_from 0 a v.

  Hypothesis HO : cell_ok O.

  Lemma get_index_from_spec a v i k : get_index_from i a v = Ok k ->
    exists j, k = i + j /\ nth_error a j = Some v /\ c_isnan O v = false.
  Proof.
    revert i; induction a as [|x t IH]; cbn; intros i H; [discriminate|].
    destruct (c_eqb O x v) eqn:E.
    - injection H as <-. pose proof (ce_eq O HO _ _ E) as ->. exists 0. unfold c_isnan; rewrite E. repeat split; lia || auto.
    - apply IH in H as (j & -> & Hj & Hn). exists (S j). repeat split; auto; lia.
  Qed.

  Lemma get_index_spec a v k : get_index a v = Ok k -> nth_error a k = Some v /\ c_isnan O v = false.
  Proof. intros H; apply get_index_from_spec in H as (j & -> & Hj & Hn); auto. Qed.

  Lemma get_index_from_In a v i : In v a -> c_isnan O v = false -> exists k, get_index_from i a v = Ok k.
  Proof.
    revert i; induction a as [|x t IH]; cbn; intros i; [intros []|].
    intros Hin Hn. destruct (c_eqb O x v) eqn:E; [eauto|].
    destruct Hin as [->|Hin]; [|auto]. unfold c_isnan in Hn; rewrite E in Hn; discriminate.
  Qed.

  Lemma get_index_In a v : In v a -> c_isnan O v = false -> exists k, get_index a v = Ok k.
  Proof. apply get_index_from_In. Qed.

  Lemma get_index_err a v e : get_index a v = Err e -> e = IndexError.
  Proof.
    unfold get_index; generalize 0; induction a as [|x t IH]; cbn; intros i H; [congruence|].
    destruct (c_eqb O x v); [discriminate|eauto].
  Qed.

  Lemma get_index_nan a v : c_isnan O v = true -> get_index a v = Err IndexError.
  Proof.
    intros Hn; unfold get_index; generalize 0; induction a as [|x t IH]; cbn; intros i; [reflexivity|].
    destruct (c_eqb O x v) eqn:E; [|auto].
    pose proof (ce_eq O HO _ _ E) as ->. unfold c_isnan in Hn; rewrite E in Hn; discriminate.
  Qed.

  Lemma get_index_inj a v w i : get_index a v = Ok i -> get_index a w = Ok i -> v = w.
  Proof. intros H1 H2. apply get_index_spec in H1 as [H1 _], H2 as [H2 _]. congruence. Qed.

  Lemma uinsert_In x l v : In v (uinsert x l) <-> v = x \/ In v l.
  Proof.
    induction l as [|y t IH]; cbn; [intuition|].
    destruct (c_ltb O x y); [cbn; intuition|].
    destruct (c_eqb O x y) eqn:E; [|cbn; rewrite IH; intuition].
    pose proof (ce_eq O HO _ _ E) as ->. cbn; intuition.
  Qed.

  Lemma uinsert_sorted x l : c_isnan O x = false -> Forall (fun v => c_isnan O v = false) l ->
    StronglySorted (fun a b => c_ltb O a b = true) l -> StronglySorted (fun a b => c_ltb O a b = true) (uinsert x l).
  Proof.
    intros Hx Hl H; induction H as [|y t Hs IH Hf]; cbn; [repeat constructor|].
    inversion Hl as [|? ? Hy Hl']; subst.
    destruct (c_ltb O x y) eqn:E1.
    - constructor; [constructor; assumption|]. constructor; [exact E1|].
      eapply Forall_impl; [|exact Hf]. cbn; intros z Hz; eapply (ce_trans O HO); eassumption.
    - destruct (c_eqb O x y) eqn:E2; [constructor; assumption|].
      constructor; [apply IH; exact Hl'|]. apply Forall_forall; intros z Hz. apply uinsert_In in Hz as [->|Hz].
      + destruct (ce_total O HO x y Hx Hy) as [H|H]; [|congruence|exact H].
        intros ->. unfold c_isnan in Hy; rewrite E2 in Hy; discriminate.
      + rewrite Forall_forall in Hf; auto.
  Qed.

  Lemma unique_nonnan l : let u := fold_right uinsert [] (filter (fun v => negb (c_isnan O v)) l) in
    (forall v, In v u <-> In v l /\ c_isnan O v = false) /\ StronglySorted (fun a b => c_ltb O a b = true) u.
  Proof.
    induction l as [|x t [IH1 IH2]]; cbn; [split; [intuition|constructor]|].
    destruct (c_isnan O x) eqn:Ex; cbn.
    - split; [|exact IH2]. intros v; rewrite IH1. intuition; subst; congruence.
    - split.
      + intros v; rewrite uinsert_In, IH1. intuition; subst; auto.
      + apply uinsert_sorted; auto. apply Forall_forall; intros v Hv; apply IH1 in Hv; tauto.
  Qed.

  (** The grid of a column: exactly the values of the column (one NaN if it has any),
      in strictly increasing order. *)
  Lemma np_unique_In l v : c_isnan O v = false -> (In v (np_unique l) <-> In v l).
  Proof.
    intros Hv; unfold np_unique; rewrite in_app_iff. destruct (unique_nonnan l) as [H _]. cbv zeta in H. rewrite H.
    destruct (find (c_isnan O) l) as [n|] eqn:E; cbn; [|intuition].
    apply find_some in E as [_ En]. intuition; subst; congruence.
  Qed.

  Lemma np_unique_sub l v : In v (np_unique l) -> In v l.
  Proof.
    unfold np_unique; rewrite in_app_iff. destruct (unique_nonnan l) as [H _]. cbv zeta in H. rewrite H.
    intros [[Hv _]|Hv]; [exact Hv|]. destruct (find (c_isnan O) l) as [n|] eqn:E; cbn in Hv; [|tauto].
    apply find_some in E as [En _]. destruct Hv as [<-|[]]; exact En.
  Qed.

  Lemma np_unique_nan l : (exists v, In v l /\ c_isnan O v = true) -> exists v, In v (np_unique l) /\ c_isnan O v = true.
  Proof.
    intros (v & Hv & Hn); unfold np_unique. destruct (find (c_isnan O) l) as [n|] eqn:E.
    - apply find_some in E as [_ En]. exists n; split; [apply in_or_app; right; left; reflexivity|exact En].
    - pose proof (find_none _ _ E _ Hv); congruence.
  Qed.

  Lemma np_unique_nil l : np_unique l = [] <-> l = [].
  Proof.
    split; [|intros ->; reflexivity]. intros H. destruct l as [|x t]; [reflexivity|exfalso].
    destruct (c_isnan O x) eqn:E.
    - destruct (np_unique_nan (x :: t)) as (v & Hv & _); [exists x; cbn; auto|]. rewrite H in Hv; destruct Hv.
    - assert (Hx : In x (np_unique (x :: t))) by (apply np_unique_In; cbn; auto). rewrite H in Hx; destruct Hx.
  Qed.

  Lemma SSorted_NoDup (l : list C) : StronglySorted (fun a b => c_ltb O a b = true) l -> NoDup l.
  Proof.
    induction 1 as [|x t Hs IH Hf]; constructor; auto. intros Hx; rewrite Forall_forall in Hf.
    specialize (Hf _ Hx). rewrite (ce_irrefl O HO) in Hf; discriminate.
  Qed.

  Lemma np_unique_NoDup l : NoDup (np_unique l).
  Proof.
    unfold np_unique. destruct (unique_nonnan l) as [H Hs]. cbv zeta in H.
    apply SSorted_NoDup in Hs.
    destruct (find (c_isnan O) l) as [n|] eqn:E; [|rewrite app_nil_r; exact Hs].
    apply find_some in E as [_ En].
    apply NoDup_Add with (a := n) (l := fold_right uinsert [] (filter (fun v => negb (c_isnan O v)) l)).
    - rewrite <- (app_nil_r (fold_right _ _ _)) at 1. apply Add_app.
    - split; [exact Hs|]. rewrite H; intros [_ Hn]; congruence.
  Qed.

  Lemma np_unique_sorted l : (forall v, In v l -> c_isnan O v = false) ->
    StronglySorted (fun a b => c_ltb O a b = true) (np_unique l).
  Proof.
    intros Hl; unfold np_unique. destruct (find (c_isnan O) l) as [n|] eqn:E.
    - apply find_some in E as [En Hn]. rewrite Hl in Hn by exact En; discriminate.
    - rewrite app_nil_r. apply (unique_nonnan l).
  Qed.
End Cells.
Arguments get_index : simpl never.

(** A data frame: column names, integer index labels, the names of the columns of numeric
    dtype ([X._get_numeric_data()]) and the rows, aligned with the columns. *)
Record frame (C : Type) := {
  f_cols : list string;
  f_index : list Z;
  f_num : list string;
  f_rows : list (list C) }.
Arguments f_cols {C}. Arguments f_index {C}. Arguments f_num {C}. Arguments f_rows {C}.

Definition wf_frame {C} (X : frame C) : Prop :=
  NoDup (f_cols X) /\ Forall (fun r => length r = length (f_cols X)) (f_rows X)
  /\ length (f_index X) = length (f_rows X).

(** Position of a column. *)
Fixpoint col_pos (cols : list string) (f : string) : option nat :=
  match cols with
  | [] => None
  | c :: t => if String.eqb f c then Some 0 else option_map S (col_pos t f)
  end.

Lemma col_pos_nth cols f p : col_pos cols f = Some p -> nth_error cols p = Some f.
Proof.
  revert p; induction cols as [|c t IH]; cbn; intros p H; [discriminate|].
  destruct (String.eqb f c) eqn:E.
  - injection H as <-. apply String.eqb_eq in E as ->; reflexivity.
  - destruct (col_pos t f) as [q|]; cbn in H; [|discriminate]. injection H as <-. cbn; auto.
Qed.

Lemma col_pos_NoDup cols f p : NoDup cols -> nth_error cols p = Some f -> col_pos cols f = Some p.
Proof.
  revert p; induction cols as [|c t IH]; intros p Hnd H; [destruct p; discriminate|].
  inversion Hnd as [|? ? Hni Hnd']; subst. cbn. destruct p as [|p]; cbn in H.
  - injection H as ->. rewrite String.eqb_refl; reflexivity.
  - destruct (String.eqb f c) eqn:E.
    + apply String.eqb_eq in E as ->. apply nth_error_In in H; contradiction.
    + rewrite (IH p) by auto. reflexivity.
Qed.

Lemma col_pos_None cols f : col_pos cols f = None <-> ~ In f cols.
Proof.
  induction cols as [|c t IH]; cbn; [intuition|]. destruct (String.eqb f c) eqn:E.
  - apply String.eqb_eq in E as ->. split; [discriminate|]. intros H; exfalso; apply H; auto.
  - apply String.eqb_neq in E. destruct (col_pos t f); cbn; split; try discriminate; intros H.
    + exfalso; apply H; right. destruct (in_dec string_dec f t) as [Hi|Hi]; [exact Hi|]. apply IH in Hi; discriminate.
    + intros [->|Hi]; [congruence|]. apply IH; auto.
    + reflexivity.
Qed.

Lemma col_pos_In cols f : In f cols -> exists p, col_pos cols f = Some p.
Proof. intros H; destruct (col_pos cols f) eqn:E; [eauto|]. apply col_pos_None in E; contradiction. Qed.

(** [X[f].values]; KeyError when there is no such column. *)
Definition col_at {C} (p : nat) (rows : list (list C)) : list C :=
  flat_map (fun r => match nth_error r p with Some v => [v] | None => [] end) rows.
Definition column {C} (X : frame C) (f : string) : result (list C) :=
  match col_pos (f_cols X) f with
  | Some p => Ok (col_at p (f_rows X))
  | None => Err KeyError
  end.

(** [df.assign] with a dict of column/scalar pairs, one row at a time. *)
Definition assign_row {C} (cols : list string) (chg : list (string * C)) (row : list C) : list C :=
  fold_left (fun r p => match col_pos cols (fst p) with Some i => set_nth i (snd p) r | None => r end) chg row.
Definition assign_rows {C} (X : frame C) (chg : list (string * C)) : list (list C) :=
  map (assign_row (f_cols X) chg) (f_rows X).

Lemma col_at_length {C} p n (rows : list (list C)) :
  Forall (fun r => length r = n) rows -> p < n -> length (col_at p rows) = length rows.
Proof.
  unfold col_at; induction 1 as [|r t Hr H IH]; cbn; intros Hp; [reflexivity|].
  destruct (nth_error r p) eqn:E; cbn; [rewrite IH by exact Hp; reflexivity|].
  apply nth_error_None in E; lia.
Qed.

Lemma col_at_nth {C} p n (rows : list (list C)) i :
  Forall (fun r => length r = n) rows -> p < n ->
  nth_error (col_at p rows) i = match nth_error rows i with Some r => nth_error r p | None => None end.
Proof.
  unfold col_at; intros H Hp; revert i; induction H as [|r t Hr H IH]; cbn; intros i; [destruct i; reflexivity|].
  destruct (nth_error r p) eqn:E; cbn.
  - destruct i; cbn; auto.
  - apply nth_error_None in E; lia.
Qed.

Lemma col_at_In {C} p (rows : list (list C)) v :
  In v (col_at p rows) <-> exists r, In r rows /\ nth_error r p = Some v.
Proof.
  unfold col_at; rewrite in_flat_map. split; intros (r & Hr & H); exists r; split; auto.
  - destruct (nth_error r p); cbn in H; [destruct H as [->|[]]; reflexivity|destruct H].
  - rewrite H; left; reflexivity.
Qed.
