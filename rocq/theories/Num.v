(** Numbers: the numpy operations used by artemis, as a record, and two exact
    instances (reals and rationals extended with IEEE special values). *)
From Verif Require Import Py.
From Coq Require Import QArith Qcanon.
Open Scope nat_scope.

(** The operations on float64 scalars and arrays that the code uses.  [n_sum] is an
    operation of its own because numpy's summation order is unspecified (pairwise). *)
Record num_ops (V : Type) := {
  n_nan : V;                       (* np.nan *)
  n_isnan : V -> bool;             (* np.isnan *)
  n_ofZ : Z -> V;                  (* integer literals and len() *)
  n_add : V -> V -> V;
  n_sub : V -> V -> V;
  n_mul : V -> V -> V;
  n_div : V -> V -> V;             (* IEEE division: x/0 is inf or NaN, never raises *)
  n_sqrt : V -> V;
  n_abs : V -> V;
  n_neg : V -> V;
  n_ltb : V -> V -> bool;          (* False when an operand is NaN *)
  n_eqb : V -> V -> bool;          (* False when an operand is NaN *)
  n_sum : list V -> V }.           (* np.sum *)
Arguments n_nan {V}. Arguments n_isnan {V}. Arguments n_ofZ {V}. Arguments n_add {V}.
Arguments n_sub {V}. Arguments n_mul {V}. Arguments n_div {V}. Arguments n_sqrt {V}.
Arguments n_abs {V}. Arguments n_neg {V}. Arguments n_ltb {V}. Arguments n_eqb {V}.
Arguments n_sum {V}.

(** Laws of the comparison used by theorems about sorted tables; satisfied by IEEE
    doubles as well as by the instances below. *)
Record num_ord_ok {V} (N : num_ops V) : Prop := {
  no_isnan_nan : n_isnan N (n_nan N) = true;
  no_irrefl : forall a, n_ltb N a a = false;
  no_trans : forall a b c, n_ltb N a b = true -> n_ltb N b c = true -> n_ltb N a c = true;
  no_negtrans : forall a b c, n_isnan N b = false -> n_ltb N a b = false -> n_ltb N b c = false -> n_ltb N a c = false;
  no_nan_l : forall a b, n_isnan N a = true -> n_ltb N a b = false;
  no_nan_r : forall a b, n_isnan N b = true -> n_ltb N a b = false;
  no_eqb : forall a b, n_isnan N a = false -> n_isnan N b = false ->
           n_eqb N a b = negb (n_ltb N a b) && negb (n_ltb N b a) }.

(** ** Array helpers *)
Section Arrays.
  Context {V : Type} (N : num_ops V).

  (** np.mean: sum divided by the number of entries (NaN on an empty array: 0/0). *)
  Definition np_mean (l : list V) : V := n_div N (n_sum N l) (n_ofZ N (Z.of_nat (length l))).

  (** artemis/_utilities/ops.py:40-41 [center] *)
  Definition center (l : list V) : list V :=
    let m := np_mean l in map (fun x => n_sub N x m) l.

  (** elementwise subtraction of two arrays of equal length *)
  Definition vsub (a b : list V) : list V := map (fun p => n_sub N (fst p) (snd p)) (combine a b).
  Definition vadd (a b : list V) : list V := map (fun p => n_add N (fst p) (snd p)) (combine a b).

  (** x ** 2 / np.power(x, 2) *)
  Definition sqr (x : V) : V := n_mul N x x.

  (** np.max / np.min: NaN if any entry is NaN, ValueError on an empty array *)
  Definition vmax2 (a b : V) : V :=
    if n_isnan N a then a else if n_isnan N b then b else if n_ltb N a b then b else a.
  Definition vmin2 (a b : V) : V :=
    if n_isnan N a then a else if n_isnan N b then b else if n_ltb N b a then b else a.
  Definition np_max (l : list V) : result V :=
    match l with [] => Err ValueError | x :: t => Ok (fold_left vmax2 t x) end.
  Definition np_min (l : list V) : result V :=
    match l with [] => Err ValueError | x :: t => Ok (fold_left vmin2 t x) end.

  (** np.std: population standard deviation *)
  Definition np_std (l : list V) : V := n_sqrt N (np_mean (map sqr (center l))).

  (** statistics.stdev: sample standard deviation, StatisticsError below two points *)
  Definition stat_stdev (l : list V) : result V :=
    if (length l <? 2)%nat then Err StatisticsError
    else Ok (n_sqrt N (n_div N (n_sum N (map sqr (center l))) (n_ofZ N (Z.of_nat (length l) - 1)))).

  (** DataFrame.fillna(0) on one cell *)
  Definition fillna0 (x : V) : V := if n_isnan N x then n_ofZ N 0 else x.
End Arrays.

(** ** Exact instances *)

(** A field with decidable order, as needed to build IEEE-like arithmetic on top. *)
Record base_ops (F : Type) := {
  f0 : F; f_ofZ : Z -> F;
  f_add : F -> F -> F; f_sub : F -> F -> F; f_mul : F -> F -> F; f_div : F -> F -> F;
  f_neg : F -> F; f_sqrt : F -> F; f_ltb : F -> F -> bool }.
Arguments f0 {F}. Arguments f_ofZ {F}. Arguments f_add {F}. Arguments f_sub {F}.
Arguments f_mul {F}. Arguments f_div {F}. Arguments f_neg {F}. Arguments f_sqrt {F}. Arguments f_ltb {F}.

Inductive ext (F : Type) := Fin (x : F) | PInf | NInf | NaN.
Arguments Fin {F} x. Arguments PInf {F}. Arguments NInf {F}. Arguments NaN {F}.

Section Ext.
  Context {F : Type} (B : base_ops F).
  Notation X := (ext F).

  Definition f_eqb (a b : F) : bool := negb (f_ltb B a b) && negb (f_ltb B b a).

  (* sign: Lt negative, Eq zero, Gt positive *)
  Definition f_sgn (a : F) : comparison :=
    if f_ltb B a (f0 B) then Lt else if f_ltb B (f0 B) a then Gt else Eq.

  Definition x_add (a b : X) : X :=
    match a, b with
    | NaN, _ | _, NaN => NaN
    | PInf, NInf | NInf, PInf => NaN
    | PInf, _ | _, PInf => PInf
    | NInf, _ | _, NInf => NInf
    | Fin x, Fin y => Fin (f_add B x y)
    end.
  Definition x_neg (a : X) : X :=
    match a with Fin x => Fin (f_neg B x) | PInf => NInf | NInf => PInf | NaN => NaN end.
  Definition x_sub (a b : X) : X :=
    match a, b with
    | NaN, _ | _, NaN => NaN
    | PInf, PInf | NInf, NInf => NaN
    | PInf, _ | _, NInf => PInf
    | NInf, _ | _, PInf => NInf
    | Fin x, Fin y => Fin (f_sub B x y)
    end.
  Definition x_sgn (a : X) : option comparison :=
    match a with Fin x => Some (f_sgn x) | PInf => Some Gt | NInf => Some Lt | NaN => None end.
  Definition x_inf (s t : option comparison) : X :=
    match s, t with
    | Some Gt, Some Gt | Some Lt, Some Lt => PInf
    | Some Gt, Some Lt | Some Lt, Some Gt => NInf
    | _, _ => NaN
    end.
  Definition x_mul (a b : X) : X :=
    match a, b with
    | Fin x, Fin y => Fin (f_mul B x y)
    | _, _ => x_inf (x_sgn a) (x_sgn b)
    end.
  Definition x_div (a b : X) : X :=
    match a, b with
    | NaN, _ | _, NaN => NaN
    | Fin x, Fin y =>
        match f_sgn y with
        | Eq => match f_sgn x with Gt => PInf | Lt => NInf | Eq => NaN end
        | _ => Fin (f_div B x y)
        end
    | Fin _, _ => Fin (f0 B)
    | _, Fin y => match f_sgn y with Eq => a | s => x_inf (x_sgn a) (Some s) end
    | _, _ => NaN
    end.
  Definition x_sqrt (a : X) : X :=
    match a with
    | Fin x => match f_sgn x with Lt => NaN | _ => Fin (f_sqrt B x) end
    | PInf => PInf
    | _ => NaN
    end.
  Definition x_abs (a : X) : X :=
    match a with
    | Fin x => match f_sgn x with Lt => Fin (f_neg B x) | _ => Fin x end
    | NaN => NaN
    | _ => PInf
    end.
  Definition x_ltb (a b : X) : bool :=
    match a, b with
    | NaN, _ | _, NaN => false
    | Fin x, Fin y => f_ltb B x y
    | NInf, NInf | PInf, _ | _, NInf => false
    | NInf, _ | _, PInf => true
    end.
  Definition x_isnan (a : X) : bool := match a with NaN => true | _ => false end.
  Definition x_eqb (a b : X) : bool :=
    negb (x_isnan a) && negb (x_isnan b) && negb (x_ltb a b) && negb (x_ltb b a).
  Definition x_sum (l : list X) : X := fold_right x_add (Fin (f0 B)) l.

  Definition ext_ops : num_ops X := {|
    n_nan := NaN; n_isnan := x_isnan; n_ofZ := fun z => Fin (f_ofZ B z);
    n_add := x_add; n_sub := x_sub; n_mul := x_mul; n_div := x_div;
    n_sqrt := x_sqrt; n_abs := x_abs; n_neg := x_neg;
    n_ltb := x_ltb; n_eqb := x_eqb; n_sum := x_sum |}.

  Record base_ord_ok : Prop := {
    bo_irrefl : forall a, f_ltb B a a = false;
    bo_trans : forall a b c, f_ltb B a b = true -> f_ltb B b c = true -> f_ltb B a c = true;
    bo_negtrans : forall a b c, f_ltb B a b = false -> f_ltb B b c = false -> f_ltb B a c = false }.

  Lemma ext_ord_ok : base_ord_ok -> num_ord_ok ext_ops.
  Proof.
    intros [Hi Ht Hn]; constructor; cbn.
    - reflexivity.
    - intros [x| | |]; cbn; auto.
    - intros [x| | |] [y| | |] [z| | |]; cbn; try congruence; apply Ht.
    - intros [x| | |] [y| | |] [z| | |]; cbn; try congruence. intros _; apply Hn.
    - intros [x| | |] b; cbn; congruence.
    - intros [x| | |] [y| | |]; cbn; congruence.
    - intros a b Ha Hb; unfold x_eqb; rewrite Ha, Hb; reflexivity.
  Qed.
End Ext.

(** *** Rationals (executable).  Values are kept in lowest terms, so Leibniz equality
    is numeric equality.  The square root is exact on squares of rationals and rounds
    down (as integer square roots of numerator and denominator) otherwise; no theorem
    depends on it outside exact squares. *)
Definition Qltb (a b : Q) : bool := Z.ltb (Qnum a * QDen b) (Qnum b * QDen a).
Definition qsqrt (a : Q) : Q := Qred (Z.sqrt (Qnum (Qred a)) # Pos.sqrt (Qden (Qred a))).
Definition baseQ : base_ops Q := {|
  f0 := 0%Q; f_ofZ := inject_Z;
  f_add := fun a b => Qred (a + b); f_sub := fun a b => Qred (a - b);
  f_mul := fun a b => Qred (a * b); f_div := fun a b => Qred (a / b);
  f_neg := fun a => Qred (- a); f_sqrt := qsqrt; f_ltb := Qltb |}.
Definition xQ : num_ops (ext Q) := ext_ops baseQ.

Lemma Qltb_lt a b : Qltb a b = true <-> (a < b)%Q.
Proof. unfold Qltb, Qlt; apply Z.ltb_lt. Qed.

Lemma baseQ_ord : base_ord_ok baseQ.
Proof.
  constructor; cbn.
  - intros a; unfold Qltb; apply Z.ltb_irrefl.
  - intros a b c; rewrite !Qltb_lt; apply Qlt_trans.
  - intros a b c H1 H2. apply not_true_iff_false; rewrite Qltb_lt; intros H.
    apply not_true_iff_false in H1, H2; rewrite Qltb_lt in H1, H2.
    apply Qnot_lt_le in H1, H2. apply (Qlt_irrefl a).
    apply Qlt_le_trans with c; [exact H|]. apply Qle_trans with b; assumption.
Qed.

Lemma xQ_ord : num_ord_ok xQ.
Proof. apply ext_ord_ok, baseQ_ord. Qed.
