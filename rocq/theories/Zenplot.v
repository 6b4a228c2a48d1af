(** Model of artemis/_utilities/zenplot.py and of [plot_profile] and [plot_zenplot]
    (partial_dependence_based/_pdp.py:111-297).

    A call yields what is handed to matplotlib: axis values, matrix, labels, positions, colour
    range.  Figure sizes, colour maps and the rug plot are left out. *)
From Verif Require Import Py Num Sorting Frame Rng PdCalc PdMethods.
Open Scope string_scope.
Open Scope nat_scope.
Open Scope list_scope.

Section Zenplot.
  Context {C V G : Type} (O : cell_ops C) (N : num_ops V).
  Notation table := (list (string * string * V)).
  Notation calc := (calc C V).

  (** matplotlib's contour needs a matrix of at least 2 x 2 *)
  Definition drawable (kind : string) (n m : nat) : result unit :=
    if String.eqb kind "contour" && negb ((2 <=? n) && (2 <=? m)) then Err TypeError else Ok tt.
  Definition known_kind (kind : string) : bool := String.eqb kind "colormesh" || String.eqb kind "contour".

  (** *** Profiles *)

  Inductive profile :=
  | PLine (xlabel : string) (xs : list C) (values : list V)
  (* rows of the matrix along y *)
  | PMesh (xlabel ylabel : string) (xs ys : list C) (mesh : list (list V)).

  (** _pdp.py:111-173 [plot_profile]; the variable clb is unbound for other kinds; before fit the
      calculator is None, which has no attributes *)
  Definition plot_profile (s : mstate C V G) (feature1 : string) (feature2 : option string) (kind : string) : result profile :=
    match m_calc s with
    | None => Err AttributeError
    | Some c =>
        match feature2 with
        | Some feature2 =>
            let key := get_pair_key c (feature1, feature2) in
            do e <- dict_get pair_eqb key (c_pairs c);
            do _ <- drawable kind (length (fst (fst e))) (length (snd (fst e)));
            if known_kind kind then Ok (PMesh (snd key) (fst key) (snd (fst e)) (fst (fst e)) (snd e)) else Err UnboundLocalError
        | None =>
            do e <- dict_get String.eqb feature1 (c_single c);
            Ok (PLine feature1 (fst e) (snd e))
        end
    end.

  (** *** Zen plots *)

  (** rows keep their label, the position in ovo (which is numbered from 0) *)
  Notation lrow := (nat * (string * string * V))%type.
  Definition joins (f : string) (r : lrow) : bool := String.eqb (fst (fst (snd r))) f || String.eqb (snd (fst (snd r))) f.
  (** Series.idxmax: label of the first largest value, skipping NaN; without a value the result is
      NaN, which is not a label *)
  Definition idxmax (l : list lrow) : result nat :=
    match filter (fun r => negb (n_isnan N (snd (snd r)))) l with
    | [] => Err KeyError
    | x :: t => Ok (fst (fold_left (fun m y => if n_ltb N (snd (snd m)) (snd (snd y)) then y else m) t x))
    end.
  (** zenplot.py:4-11 [find_next_pair_index] *)
  Definition find_next_pair_index (cand : list lrow) (f : string) : result (nat * bool) :=
    match filter (joins f) cand with
    | [] => match cand with [] => Err IndexError | r :: _ => Ok (fst r, false) end
    | l => do i <- idxmax l; Ok (i, true)
    end.
  (** zenplot.py:14-17 [get_second_feature] *)
  Definition get_second_feature (prev : string) (r : string * string * V) : string :=
    if String.eqb (fst (fst r)) prev then snd (fst r) else fst (fst r).
  (** zenplot.py:20-26 [get_pd_pairs_values] *)
  Definition get_pd_pairs_values (c : calc) (pair : string * string) : result (list C * list C * list (list V)) :=
    let key := get_pair_key c pair in
    do e <- dict_get pair_eqb key (c_pairs c);
    Ok (if String.eqb (fst key) (fst pair) then e else (snd (fst e), fst (fst e), columns_of (length (snd (fst e))) (snd e))).
  (** zenplot.py:29-38 [get_pd_dict]; the built-in max and min return the first argument unless
      the second one is larger (smaller) *)
  Fixpoint pd_range (c : calc) (rows : table) (lo hi : V) : result (V * V) :=
    match rows with
    | [] => Ok (lo, hi)
    | r :: t =>
        do e <- dict_get pair_eqb (get_pair_key c (fst r)) (c_pairs c);
        do mx <- np_max N (concat (snd e));
        do mn <- np_min N (concat (snd e));
        pd_range c t (if n_ltb N lo mn then lo else mn) (if n_ltb N mx hi then hi else mx)
    end.
  Definition get_pd_dict (c : calc) (rows : table) : result (V * V) := pd_range c rows (n_ofZ N 1) (n_ofZ N 0).

  (** [z_pair] records the pair of the panel *)
  Record zpanel := { z_pair : string * string; z_row : nat; z_col : nat; z_xs : list C; z_ys : list C; z_mesh : list (list V);
                     z_ylabel : option string; z_title : option string }.
  Record zenplot := { z_nrows : nat; z_ncols : nat; z_min : V; z_max : V; z_panels : list zpanel }.

  Definition drop_row (i : nat) (cand : list lrow) : list lrow := filter (fun r => negb (fst r =? i)) cand.
  Definition loc (i : nat) (cand : list lrow) : result (string * string * V) :=
    match filter (fun r => fst r =? i) cand with [] => Err KeyError | r :: _ => Ok (snd r) end.

  (** _pdp.py:212-294, the loop; [n] panels are left, [i] of the code is zenpath_length - n *)
  Fixpoint zen_loop (c : calc) (kind : string) (nrows ncols : nat) (n : nat) (pair : string * string) (cand : list lrow) (row col : nat) : result (list zpanel) :=
    match n with
    | 0 => Ok []
    | S n' =>
        do e <- get_pd_pairs_values c pair;
        (* subplot2grid *)
        if negb ((row <? nrows) && (col <? ncols)) then Err IndexError
        else
          do _ <- drawable kind (length (fst (fst e))) (length (snd (fst e)));
          let across := row <? col in
          let row' := if across then S row else row in
          let col' := if across then col else S col in
          do ic <- find_next_pair_index cand (snd pair);
          let '(idx, continued) := ic in
          do r <- loc idx cand;
          let next := if (continued : bool) then (snd pair, get_second_feature (snd pair) r) else fst r in
          let late := if continued then (if n' =? 0 then Some (snd next) else None) else Some (snd pair) in
          let first_y := if across then Some (fst pair) else None in
          let first_t := if across then None else Some (fst pair) in
          let panel := {| z_pair := pair; z_row := row; z_col := col;
                          z_xs := if across then snd (fst e) else fst (fst e);
                          z_ys := if across then fst (fst e) else snd (fst e);
                          z_mesh := if across then snd e else columns_of (length (snd (fst e))) (snd e);
                          z_ylabel := if row' <? col' then match late with Some _ => late | None => first_y end else first_y;
                          z_title := if row' <? col' then first_t else match late with Some _ => late | None => first_t end |} in
          do rest <- zen_loop c kind nrows ncols n' next (drop_row idx cand) row' col';
          Ok (panel :: rest)
    end.

  (** _pdp.py:175-297 [plot_zenplot]; the variable cs is unbound when nothing was drawn *)
  Definition plot_zenplot (s : mstate C V G) (k : nat) (kind : string) : result zenplot :=
    match m_ovo s, m_calc s with
    | Some ovo, Some c =>
        let to_vis := firstn (k + 1) ovo in
        do range <- get_pd_dict c to_vis;
        match combine (seq 0 (length to_vis)) to_vis with
        | [] => Err IndexError
        | r0 :: cand =>
            let nrows := (k + 1) / 2 in
            let ncols := k / 2 + 1 in
            do panels <- zen_loop c kind nrows ncols k (fst (snd r0)) cand 0 0;
            if known_kind kind && negb (k =? 0)
            then Ok {| z_nrows := nrows; z_ncols := ncols; z_min := fst range; z_max := snd range; z_panels := panels |}
            else Err UnboundLocalError
        end
    | _, _ => Err AttributeError
    end.
End Zenplot.
