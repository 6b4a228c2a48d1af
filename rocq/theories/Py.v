(** Python / NumPy / pandas primitives used by the artemis model.

    Nothing in this file models artemis itself: it fixes the meaning of the
    library calls the code makes.  Every choice made here is part of the trusted
    base listed in DESIGN.md. *)
From Coq Require Export String Ascii.
From Coq Require Export ZArith Arith Lia Bool List Permutation Sorted.
Export ListNotations.
Open Scope list_scope.
Open Scope nat_scope.

(** ** Exceptions

    The exceptions the modelled code can raise.  [PredictError] stands for any
    exception raised by the user's model / predict function. *)
Inductive exn :=
| ValueError | KeyError | IndexError | TypeError | AttributeError | StatisticsError | ZeroDivisionError
| PredictError
| MethodNotFitted | VisualizationNotSupported | MethodNotSupported | ModelNotSupported
| MetricNotSupported | ImportanceWithoutInteraction | NetworkXError | UnboundLocalError | AssertionError
| OutOfFuel.            (* never raised by Python: a [while] loop that did not finish within its fuel *)

Inductive result (A : Type) := Ok (a : A) | Err (e : exn).
Arguments Ok {A} a.
Arguments Err {A} e.

Definition bind {A B} (r : result A) (f : A -> result B) : result B :=
  match r with Ok a => f a | Err e => Err e end.
Notation "'do' x <- r ; k" := (bind r (fun x => k)) (at level 200, x pattern, r at level 100, k at level 200).

(** A list comprehension whose body may raise: the first exception wins. *)
Fixpoint mapM {A B} (f : A -> result B) (l : list A) : result (list B) :=
  match l with
  | [] => Ok []
  | x :: t => do y <- f x; do ys <- mapM f t; Ok (y :: ys)
  end.

Lemma mapM_Ok_inv {A B} (f : A -> result B) l ys :
  mapM f l = Ok ys -> Forall2 (fun x y => f x = Ok y) l ys.
Proof.
  revert ys; induction l as [|x t IH]; intros ys H; cbn in H.
  - injection H as <-; constructor.
  - destruct (f x) as [y|e] eqn:Ef; cbn in H; [|discriminate].
    destruct (mapM f t) as [zs|e] eqn:Et; cbn in H; [|discriminate].
    injection H as <-; constructor; [exact Ef|apply IH; reflexivity].
Qed.

Lemma mapM_Ok_intro {A B} (f : A -> result B) l ys :
  Forall2 (fun x y => f x = Ok y) l ys -> mapM f l = Ok ys.
Proof.
  induction 1 as [|x y l ys Hxy H IH]; cbn; [reflexivity|].
  rewrite Hxy; cbn; rewrite IH; reflexivity.
Qed.

Lemma mapM_total {A B} (f : A -> result B) (g : A -> B) l :
  (forall x, In x l -> f x = Ok (g x)) -> mapM f l = Ok (map g l).
Proof.
  induction l as [|x t IH]; intros H; cbn; [reflexivity|].
  rewrite H by (left; reflexivity); cbn.
  rewrite IH by (intros y Hy; apply H; right; exact Hy); reflexivity.
Qed.

Lemma mapM_err {A B} (f : A -> result B) l e :
  mapM f l = Err e -> exists x, In x l /\ f x = Err e.
Proof.
  induction l as [|x t IH]; cbn; intros H; [discriminate|].
  destruct (f x) as [y|e'] eqn:Ef; cbn in H.
  - destruct (mapM f t) as [zs|e''] eqn:Et; cbn in H; [discriminate|].
    destruct IH as (z & Hz & Ez); [exact H|]. exists z; split; [right; exact Hz|exact Ez].
  - injection H as <-; exists x; split; [left; reflexivity|exact Ef].
Qed.

(** ** Association lists: Python [dict]s, in insertion order *)

Fixpoint assoc {K A} (eqb : K -> K -> bool) (k : K) (d : list (K * A)) : option A :=
  match d with
  | [] => None
  | (k', a) :: t => if eqb k k' then Some a else assoc eqb k t
  end.

(** [d[k] = a]: replaces in place when the key is present, appends otherwise. *)
Fixpoint dict_set {K A} (eqb : K -> K -> bool) (k : K) (a : A) (d : list (K * A)) : list (K * A) :=
  match d with
  | [] => [(k, a)]
  | (k', a') :: t => if eqb k k' then (k', a) :: t else (k', a') :: dict_set eqb k a t
  end.

(** [d[k]], raising [KeyError]. *)
Definition dict_get {K A} (eqb : K -> K -> bool) (k : K) (d : list (K * A)) : result A :=
  match assoc eqb k d with Some a => Ok a | None => Err KeyError end.

(** In-place update of the value stored under an existing key ([d[k].field = ...]). *)
Definition dict_upd {K A} (eqb : K -> K -> bool) (k : K) (f : A -> A) (d : list (K * A)) : list (K * A) :=
  map (fun p => if eqb k (fst p) then (fst p, f (snd p)) else p) d.

Definition pair_eqb (p q : string * string) : bool :=
  String.eqb (fst p) (fst q) && String.eqb (snd p) (snd q).

Lemma pair_eqb_eq p q : pair_eqb p q = true <-> p = q.
Proof.
  destruct p as [a b], q as [c d]; unfold pair_eqb; cbn.
  rewrite andb_true_iff, !String.eqb_eq; split; [intros [-> ->]; reflexivity|intros H; injection H as -> ->; auto].
Qed.

Lemma pair_eqb_refl p : pair_eqb p p = true.
Proof. apply pair_eqb_eq; reflexivity. Qed.

(** ** Lists *)

(** [l[start:end]] *)
Definition slice {A} (s e : nat) (l : list A) : list A := firstn (e - s) (skipn s l).

(** [l[i] = v] on an array; out of range is never reached by the model (every index
    written comes from [get_index] or a range), so it is left unchanged. *)
Fixpoint set_nth {A} (i : nat) (v : A) (l : list A) : list A :=
  match l, i with
  | [], _ => []
  | _ :: t, O => v :: t
  | x :: t, S j => x :: set_nth j v t
  end.

(** [l[i]] on an array, raising [IndexError]. *)
Definition get_nth {A} (i : nat) (l : list A) : result A :=
  match nth_error l i with Some x => Ok x | None => Err IndexError end.

(** [itertools.combinations(l, 2)] *)
Fixpoint combinations2 {A} (l : list A) : list (A * A) :=
  match l with
  | [] => []
  | x :: t => map (fun y => (x, y)) t ++ combinations2 t
  end.

(** [x in l] for strings *)
Definition str_in (x : string) (l : list string) : bool := existsb (String.eqb x) l.

Lemma str_in_In x l : str_in x l = true <-> In x l.
Proof.
  unfold str_in; rewrite existsb_exists; split.
  - intros (y & Hy & E); apply String.eqb_eq in E; subst; exact Hy.
  - intros H; exists x; split; [exact H|apply String.eqb_refl].
Qed.

Lemma str_in_false x l : str_in x l = false <-> ~ In x l.
Proof.
  rewrite <- str_in_In; destruct (str_in x l); split; intros; congruence.
Qed.

(** ** Lemmas about the primitives *)

Section AssocFacts.
  Context {K A : Type} (eqb : K -> K -> bool) (eqb_eq : forall a b, eqb a b = true <-> a = b).

  Lemma assoc_In k (d : list (K * A)) a : assoc eqb k d = Some a -> In (k, a) d.
  Proof using eqb_eq.
    induction d as [|[k' a'] t IH]; cbn; [discriminate|].
    destruct (eqb k k') eqn:E; intros H.
    - apply eqb_eq in E; injection H as <-; subst; left; reflexivity.
    - right; apply IH; exact H.
  Qed.

  Lemma assoc_keys k (d : list (K * A)) : In k (map fst d) <-> exists a, assoc eqb k d = Some a.
  Proof using eqb_eq.
    induction d as [|[k' a'] t IH]; cbn.
    - split; [intros []|intros [? ?]; discriminate].
    - destruct (eqb k k') eqn:E.
      + apply eqb_eq in E; subst; split; eauto.
      + rewrite <- IH; split; [intros [H|H]; [|exact H]|intros H; right; exact H].
        subst; exfalso. assert (eqb k k = true) by (apply eqb_eq; reflexivity). congruence.
  Qed.

  Lemma assoc_NoDup_In k a (d : list (K * A)) :
    NoDup (map fst d) -> In (k, a) d -> assoc eqb k d = Some a.
  Proof using eqb_eq.
    induction d as [|[k' a'] t IH]; cbn; intros Hnd Hin; [destruct Hin|].
    inversion Hnd as [|? ? Hni Hnd']; subst.
    destruct Hin as [Heq|Hin].
    - injection Heq as -> ->. replace (eqb k k) with true; [reflexivity|symmetry; apply eqb_eq; reflexivity].
    - destruct (eqb k k') eqn:E; [|apply IH; assumption].
      apply eqb_eq in E; subst; exfalso; apply Hni. apply in_map_iff; exists (k', a); auto.
  Qed.

  Lemma dict_upd_keys k f (d : list (K * A)) : map fst (dict_upd eqb k f d) = map fst d.
  Proof using.
    unfold dict_upd; rewrite map_map; apply map_ext; intros [k' a']; cbn; destruct (eqb k k'); reflexivity.
  Qed.

  Lemma assoc_dict_upd_same k f (d : list (K * A)) :
    assoc eqb k (dict_upd eqb k f d) = option_map f (assoc eqb k d).
  Proof using.
    induction d as [|[k' a'] t IH]; cbn; [reflexivity|].
    destruct (eqb k k') eqn:E; cbn; rewrite E; [reflexivity|exact IH].
  Qed.

  Lemma assoc_dict_upd_other k k2 f (d : list (K * A)) :
    k <> k2 -> assoc eqb k2 (dict_upd eqb k f d) = assoc eqb k2 d.
  Proof using eqb_eq.
    intros Hne; induction d as [|[k' a'] t IH]; cbn; [reflexivity|].
    destruct (eqb k k') eqn:E; cbn.
    - apply eqb_eq in E; subst. destruct (eqb k2 k') eqn:E2; [apply eqb_eq in E2; congruence|exact IH].
    - destruct (eqb k2 k'); [reflexivity|exact IH].
  Qed.

  Lemma dict_set_In k a (d : list (K * A)) k2 a2 :
    In (k2, a2) (dict_set eqb k a d) -> (k2 = k /\ a2 = a) \/ In (k2, a2) d.
  Proof using eqb_eq.
    induction d as [|[k' a'] t IH]; cbn.
    - intros [H|[]]; injection H as <- <-; left; auto.
    - destruct (eqb k k') eqn:E; cbn; intros [H|H].
      + injection H as <- <-. apply eqb_eq in E; left; auto.
      + right; right; exact H.
      + right; left; exact H.
      + destruct (IH H) as [?|?]; [left|right; right]; assumption.
  Qed.

  Lemma dict_set_has k a (d : list (K * A)) : In (k, a) (dict_set eqb k a d).
  Proof using eqb_eq.
    induction d as [|[k' a'] t IH]; cbn; [left; reflexivity|].
    destruct (eqb k k') eqn:E; cbn; [left|right; exact IH].
    apply eqb_eq in E; subst; reflexivity.
  Qed.

  Lemma dict_set_keys_in k a (d : list (K * A)) k2 :
    In k2 (map fst (dict_set eqb k a d)) <-> k2 = k \/ In k2 (map fst d).
  Proof using eqb_eq.
    induction d as [|[k' a'] t IH]; cbn; [intuition auto|].
    destruct (eqb k k') eqn:E; cbn.
    - apply eqb_eq in E; subst; intuition auto.
    - rewrite IH; intuition auto.
  Qed.

  Lemma dict_set_NoDup k a (d : list (K * A)) :
    NoDup (map fst d) -> NoDup (map fst (dict_set eqb k a d)).
  Proof using eqb_eq.
    induction d as [|[k' a'] t IH]; cbn; intros Hnd.
    - constructor; [intros []|constructor].
    - inversion Hnd as [|? ? Hni Hnd']; subst.
      destruct (eqb k k') eqn:E; cbn; constructor; auto.
      intros Hin; apply dict_set_keys_in in Hin. destruct Hin as [->|Hin]; [|contradiction].
      assert (eqb k k = true) by (apply eqb_eq; reflexivity); congruence.
  Qed.
End AssocFacts.

Lemma slice_app_r {A} (l1 l2 : list A) n :
  n = length l2 -> slice (length l1) (length l1 + n) (l1 ++ l2) = l2.
Proof.
  intros ->; unfold slice. replace (length l1 + length l2 - length l1) with (length l2) by lia.
  rewrite skipn_app, skipn_all, Nat.sub_diag; cbn. apply firstn_all.
Qed.

Lemma slice_app_l {A} s e (l1 l2 : list A) :
  s <= e -> e <= length l1 -> slice s e (l1 ++ l2) = slice s e l1.
Proof.
  intros Hse He; unfold slice. rewrite skipn_app, firstn_app, skipn_length.
  replace (e - s - (length l1 - s)) with 0 by lia. cbn. apply app_nil_r.
Qed.

Lemma slice_map {A B} (f : A -> B) s e l : slice s e (map f l) = map f (slice s e l).
Proof. unfold slice. rewrite skipn_map, firstn_map; reflexivity. Qed.

Lemma set_nth_length {A} i (v : A) l : length (set_nth i v l) = length l.
Proof. revert i; induction l as [|x t IH]; intros [|i]; cbn; auto. Qed.

Lemma set_nth_same {A} i (v : A) l : i < length l -> nth_error (set_nth i v l) i = Some v.
Proof. revert i; induction l as [|x t IH]; intros [|i]; cbn; intros; try lia; auto. apply IH; lia. Qed.

Lemma set_nth_other {A} i j (v : A) l : i <> j -> nth_error (set_nth i v l) j = nth_error l j.
Proof. revert i j; induction l as [|x t IH]; intros [|i] [|j]; cbn; intros; try lia; auto. Qed.

Lemma combinations2_In {A} (l : list A) p :
  In p (combinations2 l) -> In (fst p) l /\ In (snd p) l.
Proof.
  induction l as [|x t IH]; cbn; [intros []|].
  rewrite in_app_iff, in_map_iff; intros [(y & <- & Hy)|H]; cbn; [auto|].
  destruct (IH H); auto.
Qed.

Lemma combinations2_length {A} (l : list A) :
  2 * length (combinations2 l) = length l * (length l - 1).
Proof.
  induction l as [|x t IH]; cbn [combinations2 length]; [reflexivity|].
  rewrite app_length, map_length. destruct t as [|y t']; cbn [length] in *; nia.
Qed.

(** For distinct features, every unordered pair of distinct features occurs exactly
    once, in the order in which the two features are listed. *)
Lemma combinations2_complete {A} (l : list A) a b :
  In a l -> In b l -> a <> b -> In (a, b) (combinations2 l) \/ In (b, a) (combinations2 l).
Proof.
  induction l as [|x t IH]; cbn; [intros []|].
  intros [->|Ha] [->|Hb] Hne; try congruence.
  - left; apply in_app_iff; left; apply in_map_iff; eauto.
  - right; apply in_app_iff; left; apply in_map_iff; eauto.
  - destruct (IH Ha Hb Hne) as [H|H]; [left|right]; apply in_app_iff; right; exact H.
Qed.

Lemma combinations2_irrefl {A} (l : list A) a b :
  NoDup l -> In (a, b) (combinations2 l) -> a <> b.
Proof.
  induction l as [|x t IH]; cbn; intros Hnd; [intros []|].
  inversion Hnd as [|? ? Hni Hnd']; subst.
  rewrite in_app_iff, in_map_iff; intros [(y & E & Hy)|H].
  - injection E as <- <-; intros ->; contradiction.
  - apply IH; assumption.
Qed.

Lemma combinations2_asym {A} (l : list A) a b :
  NoDup l -> In (a, b) (combinations2 l) -> ~ In (b, a) (combinations2 l).
Proof.
  induction l as [|x t IH]; cbn; intros Hnd; [intros []|].
  inversion Hnd as [|? ? Hni Hnd']; subst.
  rewrite !in_app_iff, !in_map_iff; intros [(y & E & Hy)|H] [(z & E' & Hz)|H'].
  - injection E as <- <-; injection E' as E1 E2; subst; contradiction.
  - injection E as <- <-. apply combinations2_In in H'; cbn in H'; destruct H'; contradiction.
  - injection E' as <- <-. apply combinations2_In in H; cbn in H; destruct H; contradiction.
  - exact (IH Hnd' H H').
Qed.

Lemma combinations2_NoDup {A} (l : list A) : NoDup l -> NoDup (combinations2 l).
Proof.
  induction l as [|x t IH]; cbn; intros Hnd; [constructor|].
  inversion Hnd as [|? ? Hni Hnd']; subst.
  specialize (IH Hnd').
  assert (Hm : NoDup (map (fun y => (x, y)) t)).
  { clear - Hnd'. induction t as [|y t IHt]; cbn; constructor.
    - inversion Hnd'; subst. rewrite in_map_iff; intros (z & E & Hz); injection E as ->; contradiction.
    - apply IHt; inversion Hnd'; assumption. }
  assert (Hd : forall p, In p (map (fun y => (x, y)) t) -> ~ In p (combinations2 t)).
  { intros p Hp Hc. apply in_map_iff in Hp as (y & <- & Hy). apply combinations2_In in Hc; cbn in Hc; tauto. }
  remember (map (fun y => (x, y)) t) as ps eqn:Eps; clear Eps.
  induction ps as [|p ps IHp]; cbn; [exact IH|].
  inversion Hm; subst. constructor.
  - rewrite in_app_iff; intros [H|H]; [contradiction|]. apply (Hd p); [left; reflexivity|exact H].
  - apply IHp; [assumption|intros q Hq; apply Hd; right; exact Hq].
Qed.
