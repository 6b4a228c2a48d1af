(** Model of artemis/comparison/_method_comparator.py and of [point_left_side_circle]
    (artemis/_utilities/ops.py:57-59). *)
From Verif Require Import Py Num Sorting Frame SplitScore.
From Coq Require Import Ascii Reals.
Open Scope string_scope.
Open Scope nat_scope.
Open Scope list_scope.

(** strings as cells of a column: compared character by character *)
Definition Scell : cell_ops string := {| c_eqb := String.eqb; c_ltb := String.ltb |}.

(** lines 234-237 [_alphabetical_order_pair] *)
Definition pair_label (a b : string) : string :=
  if String.leb a b then String.append a (String.append "-" b) else String.append b (String.append "-" a).

(** [Series.astype('category').cat.codes]: positions in the sorted list of the distinct values *)
Fixpoint position (x : string) (l : list string) : nat :=
  match l with [] => 0 | y :: t => if String.eqb x y then 0 else S (position x t) end.
Definition cat_codes (labels : list string) : list nat := map (fun x => position x (np_unique Scell labels)) labels.

Section Comparator.
  Context {V : Type} (N : num_ops V).
  Notation table := (list (string * string * V)).

  Definition row_label (r : string * string * V) : string := pair_label (fst (fst r)) (snd (fst r)).

  (** lines 178-184 [_rank_interaction_values_encoded].  Both tables are numbered from 0, so the
      codes are paired up row by row; rows of the longer table have no partner and are ignored
      by [DataFrame.corr].  [DataFrame.apply] on a table without rows returns a DataFrame, which
      has no accessor [cat]. *)
  Definition encoded (t1 t2 : table) : result (list (nat * nat)) :=
    match t1, t2 with
    | _ :: _, _ :: _ => Ok (combine (cat_codes (map row_label t1)) (cat_codes (map row_label t2)))
    | _, _ => Err AttributeError
    end.

  (** [DataFrame.corr] (pandas 1.5) on two columns without missing values; all three are
      normalised scalar products, missing when a column is constant *)
  Definition dot (u v : list V) : V := n_sum N (map (fun p => n_mul N (fst p) (snd p)) (combine u v)).
  Definition cosine (u v : list V) : V :=
    let d := n_sqrt N (n_mul N (dot u u) (dot v v)) in
    if n_eqb N d (n_ofZ N 0) then n_nan N else n_div N (dot u v) d.
  Definition codes_as_numbers (l : list nat) : list V := map (fun c => n_ofZ N (Z.of_nat c)) l.
  Definition pearson (xs ys : list nat) : V := cosine (center N (codes_as_numbers xs)) (center N (codes_as_numbers ys)).
  (** average ranks *)
  Definition avg_ranks (l : list nat) : list V :=
    map (fun x => n_div N (n_ofZ N (Z.of_nat (2 * length (filter (fun y => y <? x) l) + length (filter (Nat.eqb x) l) + 1))) (n_ofZ N 2)) l.
  Definition spearman (xs ys : list nat) : V := cosine (center N (avg_ranks xs)) (center N (avg_ranks ys)).
  (** Kendall's tau-b: signs of the differences over all pairs of rows *)
  Fixpoint signs (l : list nat) : list Z :=
    match l with
    | [] => []
    | x :: t => map (fun y => if x <? y then 1%Z else if y <? x then (-1)%Z else 0%Z) t ++ signs t
    end.
  Definition kendall (xs ys : list nat) : V := cosine (map (n_ofZ N) (signs xs)) (map (n_ofZ N) (signs ys)).

  (** what the comparator uses of a fitted method: its name, the order of its values and its
      comparison table *)
  Record mview := { mv_name : string; mv_ascending : bool; mv_compare : result table }.

  (** lines 151-175 [correlation] *)
  Definition correlation (m1 m2 : mview) (method : string) : result V :=
    do t1 <- mv_compare m1;
    do t2 <- mv_compare m2;
    do rank <- encoded t1 t2;
    let xs := map fst rank in
    let ys := map snd rank in
    if String.eqb method "pearson" then Ok (pearson xs ys)
    else if String.eqb method "kendall" then Ok (kendall xs ys)
    else if String.eqb method "spearman" then Ok (spearman xs ys)
    else Err ValueError.

  (** lines 61-85 [correlations] (the fields of CorrelationMethod, domain.py) *)
  Definition correlation_methods : list string := ["pearson"; "kendall"; "spearman"].
  Definition correlations (m1 m2 : mview) : result (list (string * V)) :=
    mapM (fun c => do v <- correlation m1 m2 c; Ok (c, v)) correlation_methods.

  (** what is drawn: the points, the arrow labels with the point they annotate, the orientation
      of the axes, the correlation box *)
  Record cplot := {
    cp_points : list (V * V); cp_labels : list (string * (V * V));
    cp_invert_x : bool; cp_invert_y : bool;
    cp_box : option (list (string * V)); cp_axes : string * string }.

  (** lines 87-149 [comparison_plot].  The comparator's only state is [correlations_df].  Taking
      the maximum of a table without rows raises ValueError (line 119).  The box shows the values
      rounded to three digits. *)
  Definition comparison_plot (df : option (list (string * V))) (m1 m2 : mview) (n_labels : nat) (add_box : bool) : result cplot :=
    do t1 <- mv_compare m1;
    match t1 with
    | [] => Err ValueError
    | _ =>
      do t2 <- mv_compare m2;
      match t2 with
      | [] => Err ValueError
      | _ =>
        do points <- mapM (fun r => do y <- interaction_value (mv_compare m2) (fst (fst r)) (snd (fst r)); Ok (snd r, y)) t1;
        do box <- (if add_box then match df with Some c => Ok (Some c) | None => do c <- correlations m1 m2; Ok (Some c) end else Ok None);
        Ok {| cp_points := points;
              cp_labels := firstn n_labels (map (fun rp => (String.append (fst (fst (fst rp))) (String.append "-" (snd (fst (fst rp)))), snd rp)) (combine t1 points));
              cp_invert_x := mv_ascending m1; cp_invert_y := mv_ascending m2; cp_box := box; cp_axes := (mv_name m1, mv_name m2) |}
      end
    end.

  (** lines 39-59 [summary], 222-231; the new state and the outcome *)
  Definition summary (df : option (list (string * V))) (m1 m2 : mview) : option (list (string * V)) * result cplot :=
    match mv_compare m1 with
    | Err e => (df, Err e)
    | Ok _ =>
        match mv_compare m2 with
        | Err e => (df, Err e)
        | Ok _ =>
            match correlations m1 m2 with
            | Err e => (df, Err e)
            | Ok c => (Some c, comparison_plot (Some c) m1 m2 3 true)
            end
        end
    end.
End Comparator.
Arguments mview : clear implicits.
Arguments cplot : clear implicits.

(** ops.py:57-59 [point_left_side_circle]; [u] is the value of random.random() *)
Definition point_left_side_circle (u x y r : R) : R * R :=
  let alpha := (PI * u + PI / 2)%R in ((r * cos alpha + x)%R, (r * sin alpha + y)%R).
