(** Numbers as they are printed on the charts: the correlation box of the comparison plot and the
    labels of the edges of the interaction graph. *)
From Verif Require Import Py Num NumR Comparator Visual.
From Coq Require Import Reals Ascii.
Open Scope string_scope.
Open Scope list_scope.

(** [round(x, d)] of a numpy number: multiplied by 10^d, rounded to the nearest integer (ties to
    the even one), divided by 10^d; on real numbers *)
Definition rint (x : R) : Z :=
  let f := (up x - 1)%Z in
  let d := (x - IZR f)%R in
  if Rlt_dec d (1 / 2) then f else if Rlt_dec (1 / 2) d then (f + 1)%Z else if Z.even f then f else (f + 1)%Z.
Definition np_round (d : nat) (x : R) : R := (IZR (rint (x * 10 ^ d)) / 10 ^ d)%R.
(** missing and infinite values are printed as they are *)
Definition printed (d : nat) (v : ext R) : ext R := match v with Fin x => Fin (np_round d x) | _ => v end.

(** comparison/_method_comparator.py:193-197 [_add_correlation_box]: one line per field of
    CorrelationMethod, name and value of the first row of that method *)
Definition capitalize (s : string) : string :=
  match s with
  | EmptyString => EmptyString
  | String c t => String (let n := nat_of_ascii c in if ((97 <=? n) && (n <=? 122))%nat then ascii_of_nat (n - 32) else c) t
  end.
Definition box_lines (c : list (string * ext R)) : result (list (string * ext R)) :=
  mapM (fun m => match find (fun r => String.eqb (fst r) m) c with
                 | Some r => Ok (capitalize m, printed 3 (snd r))
                 | None => Err IndexError
                 end) correlation_methods.

(** visualizer/_visualizer.py:569-574 [_edge_labels]: the numbers on the labelled edges *)
Definition label_texts (labels : list (string * string * ext R)) : list (string * string * ext R) := map (fun r => (fst r, printed 2 (snd r))) labels.
