(** Specification of the values reported by the partial dependence based methods, on the
    rows of the data and the row-wise function of the model. *)
From Verif Require Import Py Num PdSpec.

Section MethodSpec.
  Context {C V : Type} (N : num_ops V) (g : list C -> V) (rows : list (list C)).

  (** partial dependence evaluated at the row's own value(s) *)
  Definition PD1_at (p : nat) (r : list C) : V :=
    match nth_error r p with Some v => PD1 (np_mean N) g rows p v | None => n_nan N end.
  Definition PD2_at (p q : nat) (r : list C) : V :=
    match nth_error r p, nth_error r q with
    | Some v, Some w => PD2 (np_mean N) g rows p q v w
    | _, _ => n_nan N
    end.

  (** the deviation of [f] from its mean over the data *)
  Definition dev (f : list C -> V) (r : list C) : V := n_sub N (f r) (np_mean N (map f rows)).
  Definition sq (x : V) : V := n_mul N x x.

  (** Friedman and Popescu's H-statistic of a joint effect [f12] against [f1], [f2]; with
      [normalized = false], the square root of the mean numerator *)
  Definition H_value (normalized : bool) (f12 f1 f2 : list C -> V) : V :=
    let num := map (fun r => sq (n_sub N (n_sub N (dev f12 r) (dev f1 r)) (dev f2 r))) rows in
    if normalized then n_div N (n_sum N num) (n_sum N (map (fun r => sq (dev f12 r)) rows))
    else n_sqrt N (np_mean N num).

  Definition H_pair (normalized : bool) (p q : nat) : V := H_value normalized (PD2_at p q) (PD1_at p) (PD1_at q).
  Definition H_all (normalized : bool) (p : nat) : V :=
    H_value normalized g (PD1_at p) (fun r => PDminus (np_mean N) g rows p r).

  (** undefined values are reported as 0 *)
  Definition or_zero (x : V) : V := if n_isnan N x then n_ofZ N 0 else x.
End MethodSpec.
