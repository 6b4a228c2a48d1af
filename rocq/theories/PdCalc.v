(** Model of artemis/_utilities/pd_calculator.py: the partial dependence cache. *)
From Verif Require Import Py Num Frame.

(** ** The batching skeleton shared by the three calculate_* methods

    Each method walks over features (pairs), collects modified copies of X in [X_full]
    together with a dict [range_dict] from keys to row ranges, and whenever more than
    [batchsize] rows are pending calls fill_* (one prediction request for the whole
    batch) and starts over. *)
Section Engine.
  Context {K T C V : Type}.
  Variable predict : nat -> list (list C) -> result (list V). (* call number, rows *)
  Variable mean : list V -> V.
  Variable keqb : K -> K -> bool.                              (* dict key equality *)
  Variable job : K -> list (list C).                           (* the modified copy of X for a key *)
  Variable tset : K -> V -> T -> result T.                     (* self.pd_...[key] = value *)
  Variable xlen : nat.                                         (* self.X_len *)
  Variable batchsize : Z.

  Record batch := { b_ranges : list (K * (nat * nat)); b_len : nat; b_rows : list (list C) }.

  (** pd_calculator.py:67-69 (80-82), 89-91 (109-111), 118-120 (131-133): fresh batch *)
  Definition b_empty : batch := {| b_ranges := []; b_len := 0; b_rows := [] |}.

  (** pd_calculator.py:74-77, 103-106, 125-128: record the range, extend X_full *)
  Definition push (b : batch) (k : K) : batch := {|
    b_ranges := dict_set keqb k (b_len b, b_len b + xlen) (b_ranges b);
    b_len := b_len b + xlen;
    b_rows := b_rows b ++ job k |}.

  (** State of a running calculate_* call: all prediction requests made so far (oldest
      first), the table, the pending batch. *)
  Record est := { e_log : list (list (list C)); e_tab : T; e_b : batch }.

  (** the loop over range_dict in fill_*: pd_calculator.py:139-142, 146-150, 154-156 *)
  Fixpoint fill_ranges (y : list V) (rs : list (K * (nat * nat))) (t : T) : T * result unit :=
    match rs with
    | [] => (t, Ok tt)
    | (k, (s, e)) :: rest =>
        match tset k (mean (slice s e y)) t with
        | Ok t' => fill_ranges y rest t'
        | Err x => (t, Err x)
        end
    end.

  (** fill_pd_single / fill_pd_pairs / fill_pd_minus_single: one prediction request, then
      the loop above.  An exception leaves the entries written so far in place. *)
  Definition fill (s : est) : est * result unit :=
    let log' := e_log s ++ [b_rows (e_b s)] in
    match predict (length (e_log s)) (b_rows (e_b s)) with
    | Err x => ({| e_log := log'; e_tab := e_tab s; e_b := e_b s |}, Err x)
    | Ok y =>
        let '(t, r) := fill_ranges y (b_ranges (e_b s)) (e_tab s) in
        ({| e_log := log'; e_tab := t; e_b := b_empty |}, r)
    end.

  (** add the jobs of [ks], then flush if the batch has become larger than batchsize
      (pd_calculator.py:72-82, 102-111, 123-133) *)
  Definition submit (s : est) (ks : list K) : est * result unit :=
    let b := fold_left push ks (e_b s) in
    let s' := {| e_log := e_log s; e_tab := e_tab s; e_b := b |} in
    if (batchsize <? Z.of_nat (b_len b))%Z then fill s' else (s', Ok tt).

  (** final flush (pd_calculator.py:83-84, 112-113, 134-135) *)
  Definition finish (s : est) : est * result unit :=
    if (0 <? b_len (e_b s)) then fill s else (s, Ok tt).

  (** a for loop whose body may raise; the state survives the exception *)
  Fixpoint loop {A} (body : est -> A -> est * result unit) (l : list A) (s : est) : est * result unit :=
    match l with
    | [] => (s, Ok tt)
    | x :: t => match body s x with
                | (s', Ok _) => loop body t s'
                | (s', Err e) => (s', Err e)
                end
    end.

  Definition seq2 (r : est * result unit) (k : est -> est * result unit) : est * result unit :=
    match r with (s, Ok _) => k s | (s, Err e) => (s, Err e) end.
End Engine.
Arguments batch : clear implicits.
Arguments est : clear implicits.

(** checked array assignment [a[i] = v] *)
Definition array_set {A} (i : nat) (v : A) (a : list A) : result (list A) :=
  if i <? length a then Ok (set_nth i v a) else Err IndexError.

(** ** The calculator *)
Section Calc.
  Context {C V : Type} (O : cell_ops C) (N : num_ops V).
  Notation row := (list C).

  Record calc := {
    c_model : nat;                                              (* identity of the model object *)
    c_predict : nat -> list row -> result (list V);             (* self.predict_function *)
    c_X : frame C;
    c_batchsize : Z;
    c_single : list (string * (list C * list V));               (* f_values, pd_values *)
    c_pairs : list ((string * string) * (list C * list C * list (list V)));
    c_minus : list (string * list V);
    c_log : list (list row) }.                                  (* ghost: requests made so far *)

  Definition grid (X : frame C) (f : string) : list C :=
    match column X f with Ok vs => np_unique O vs | Err _ => [] end.

  (** pd_calculator.py:12-36 [__init__].  batchsize defaults to 2000. *)
  Definition calc_init (model : nat) (X : frame C) (predict : nat -> list row -> result (list V)) (batchsize : Z) : calc := {|
    c_model := model; c_predict := predict; c_X := X; c_batchsize := batchsize;
    c_single := map (fun f => (f, (grid X f, repeat (n_nan N) (length (grid X f))))) (f_cols X);
    c_pairs := map (fun p => (p, (grid X (fst p), grid X (snd p),
                                  repeat (repeat (n_nan N) (length (grid X (snd p)))) (length (grid X (fst p))))))
                   (combinations2 (f_cols X));
    c_minus := map (fun f => (f, repeat (n_nan N) (length (f_rows X)))) (f_cols X);
    c_log := [] |}.

  (** *** Lookups *)

  (** pd_calculator.py:38-45 [get_pd_single]; [None] for a missing feature_values argument *)
  Definition get_pd_single (c : calc) (f : string) (vals : option (list C)) : result (list V) :=
    match vals with
    | None => do e <- dict_get String.eqb f (c_single c); Ok (snd e)
    | Some vs => mapM (fun v => do e <- dict_get String.eqb f (c_single c);
                                do i <- get_index O (fst e) v;
                                get_nth i (snd e)) vs
    end.

  (** pd_calculator.py:158-162 [_get_pair_key] *)
  Definition get_pair_key (c : calc) (p : string * string) : string * string :=
    match assoc pair_eqb p (c_pairs c) with Some _ => p | None => (snd p, fst p) end.

  (** pd_calculator.py:168-169 [reorder_pair_values] *)
  Definition reorder_pair_values (l : list (C * C)) : list (C * C) := map (fun p => (snd p, fst p)) l.

  Definition mat_get (i j : nat) (m : list (list V)) : result V := do r <- get_nth i m; get_nth j r.

  (** pd_calculator.py:47-59 [get_pd_pairs], without values *)
  Definition get_pd_pairs_all (c : calc) (f1 f2 : string) : result (list (list V)) :=
    do e <- dict_get pair_eqb (get_pair_key c (f1, f2)) (c_pairs c); Ok (snd e).

  (** pd_calculator.py:47-59 [get_pd_pairs], with values *)
  Definition get_pd_pairs (c : calc) (f1 f2 : string) (vals : list (C * C)) : result (list V) :=
    let key := get_pair_key c (f1, f2) in
    do e <- dict_get pair_eqb key (c_pairs c);
    let vals' := if pair_eqb key (f1, f2) then vals else reorder_pair_values vals in
    mapM (fun p => do i <- get_index O (fst (fst e)) (fst p);
                   do j <- get_index O (snd (fst e)) (snd p);
                   mat_get i j (snd e)) vals'.

  (** pd_calculator.py:61-62 [get_pd_minus_single] *)
  Definition get_pd_minus_single (c : calc) (f : string) : result (list V) := dict_get String.eqb f (c_minus c).

  (** *** Writing a cell *)

  Definition skey := (string * C)%type.
  Definition pkey := (string * string * C * C)%type.
  Definition mkey := (string * nat)%type.

  Definition skey_eqb (a b : skey) : bool := String.eqb (fst a) (fst b) && c_eqb O (snd a) (snd b).
  Definition pkey_eqb (a b : pkey) : bool :=
    pair_eqb (fst (fst a)) (fst (fst b)) && c_eqb O (snd (fst a)) (snd (fst b)) && c_eqb O (snd a) (snd b).
  Definition mkey_eqb (a b : mkey) : bool := String.eqb (fst a) (fst b) && Nat.eqb (snd a) (snd b).

  (** pd_calculator.py:141-142 *)
  Definition set_single (k : skey) (x : V) (t : list (string * (list C * list V))) :=
    do e <- dict_get String.eqb (fst k) t;
    do i <- get_index O (fst e) (snd k);
    do a <- array_set i x (snd e);
    Ok (dict_set String.eqb (fst k) (fst e, a) t).

  (** pd_calculator.py:148-150 *)
  Definition set_pairs (k : pkey) (x : V) (t : list ((string * string) * (list C * list C * list (list V)))) :=
    let '(p, v1, v2) := k in
    do e <- dict_get pair_eqb p t;
    do i <- get_index O (fst (fst e)) v1;
    do j <- get_index O (snd (fst e)) v2;
    do r <- get_nth i (snd e);
    do r' <- array_set j x r;
    do m <- array_set i r' (snd e);
    Ok (dict_set pair_eqb p (fst e, m) t).

  (** pd_calculator.py:156 *)
  Definition set_minus (k : mkey) (x : V) (t : list (string * list V)) :=
    do a <- dict_get String.eqb (fst k) t;
    do a' <- array_set (snd k) x a;
    Ok (dict_set String.eqb (fst k) a' t).

  (** *** Modified copies of X *)

  (** pd_calculator.py:73-74 *)
  Definition job_single (X : frame C) (k : skey) : list row := assign_rows X [(fst k, snd k)].

  (** pd_calculator.py:102-103 *)
  Definition job_pairs (X : frame C) (k : pkey) : list row :=
    let '(p, v1, v2) := k in assign_rows X [(fst p, v1); (snd p, v2)].

  (** pd_calculator.py:123-125: row i of X supplies every column but [feature] *)
  Definition job_minus (X : frame C) (k : mkey) : list row :=
    match nth_error (f_rows X) (snd k) with
    | Some r => assign_rows X (filter (fun p => negb (String.eqb (fst p) (fst k))) (combine (f_cols X) r))
    | None => []
    end.

  Definition has_nan (l : list V) : bool := existsb (n_isnan N) l.

  (** *** calculate_pd_single (pd_calculator.py:64-84) *)
  Definition single_body (c : calc) (s : est skey (list (string * (list C * list V))) C) (f : string) :=
    match dict_get String.eqb f (e_tab s) with
    | Err x => (s, Err x)
    | Ok e =>
        if has_nan (snd e)
        then submit (c_predict c) (np_mean N) skey_eqb (job_single (c_X c)) set_single
                    (length (f_rows (c_X c))) (c_batchsize c) s (map (fun v => (f, v)) (fst e))
        else (s, Ok tt)
    end.
  Definition calculate_pd_single (c : calc) (features : option (list string)) : calc * result unit :=
    let fs := match features with None => f_cols (c_X c) | Some l => l end in
    let '(s, r) := seq2 (loop (single_body c) fs {| e_log := c_log c; e_tab := c_single c; e_b := b_empty |})
                        (finish (c_predict c) (np_mean N) set_single) in
    ({| c_model := c_model c; c_predict := c_predict c; c_X := c_X c; c_batchsize := c_batchsize c;
        c_single := e_tab s; c_pairs := c_pairs c; c_minus := c_minus c; c_log := e_log s |}, r).

  (** *** calculate_pd_pairs (pd_calculator.py:86-113) *)
  Definition pairs_cell_body (c : calc) (p : string * string)
    (s : est pkey (list ((string * string) * (list C * list C * list (list V)))) C) (v : C * C) :=
    match (do e <- dict_get pair_eqb p (e_tab s);
           do i <- get_index O (fst (fst e)) (fst v);
           do j <- get_index O (snd (fst e)) (snd v);
           mat_get i j (snd e)) with
    | Err x => (s, Err x)
    | Ok x =>
        if n_isnan N x
        then submit (c_predict c) (np_mean N) pkey_eqb (job_pairs (c_X c)) set_pairs
                    (length (f_rows (c_X c))) (c_batchsize c) s [(p, fst v, snd v)]
        else (s, Ok tt)
    end.
  Definition pairs_body (c : calc) (all_combinations : bool)
    (s : est pkey (list ((string * string) * (list C * list C * list (list V)))) C) (pr : string * string) :=
    let p := get_pair_key c pr in
    match (if all_combinations
           then do e <- dict_get pair_eqb p (e_tab s);
                Ok (flat_map (fun v1 => map (fun v2 => (v1, v2)) (snd (fst e))) (fst (fst e)))
           else do a <- column (c_X c) (fst p); do b <- column (c_X c) (snd p); Ok (combine a b)) with
    | Err x => (s, Err x)
    | Ok vals => loop (pairs_cell_body c p) vals s
    end.
  Definition calculate_pd_pairs (c : calc) (pairs : option (list (string * string))) (all_combinations : bool) : calc * result unit :=
    let ps := match pairs with None => map fst (c_pairs c) | Some l => l end in
    let '(s, r) := seq2 (loop (pairs_body c all_combinations) ps {| e_log := c_log c; e_tab := c_pairs c; e_b := b_empty |})
                        (finish (c_predict c) (np_mean N) set_pairs) in
    ({| c_model := c_model c; c_predict := c_predict c; c_X := c_X c; c_batchsize := c_batchsize c;
        c_single := c_single c; c_pairs := e_tab s; c_minus := c_minus c; c_log := e_log s |}, r).

  (** *** calculate_pd_minus_single (pd_calculator.py:115-135) *)
  Definition minus_body (c : calc) (s : est mkey (list (string * list V)) C) (f : string) :=
    match dict_get String.eqb f (e_tab s) with
    | Err x => (s, Err x)
    | Ok a =>
        if has_nan a
        then submit (c_predict c) (np_mean N) mkey_eqb (job_minus (c_X c)) set_minus
                    (length (f_rows (c_X c))) (c_batchsize c) s (map (fun i => (f, i)) (seq 0 (length (f_rows (c_X c)))))
        else (s, Ok tt)
    end.
  Definition calculate_pd_minus_single (c : calc) (features : option (list string)) : calc * result unit :=
    let fs := match features with None => f_cols (c_X c) | Some l => l end in
    let '(s, r) := seq2 (loop (minus_body c) fs {| e_log := c_log c; e_tab := c_minus c; e_b := b_empty |})
                        (finish (c_predict c) (np_mean N) set_minus) in
    ({| c_model := c_model c; c_predict := c_predict c; c_X := c_X c; c_batchsize := c_batchsize c;
        c_single := c_single c; c_pairs := c_pairs c; c_minus := e_tab s; c_log := e_log s |}, r).

  (** *** Histories *)
  Inductive op :=
  | OpSingle (fs : option (list string))
  | OpPairs (ps : option (list (string * string))) (all_combinations : bool)
  | OpMinus (fs : option (list string)).

  Definition step (c : calc) (o : op) : calc * result unit :=
    match o with
    | OpSingle fs => calculate_pd_single c fs
    | OpPairs ps a => calculate_pd_pairs c ps a
    | OpMinus fs => calculate_pd_minus_single c fs
    end.
  (** a caller that catches every exception and carries on *)
  Definition run (c : calc) (ops : list op) : calc := fold_left (fun c o => fst (step c o)) ops c.
End Calc.
Arguments calc : clear implicits.
