(** Model of the permutation based methods:
    artemis/_utilities/performance_metrics.py,
    artemis/importance_methods/model_agnostic/_permutational_importance.py and
    artemis/interactions_methods/model_agnostic/performance_based/_sejong_oh.py. *)
From Verif Require Import Py Num Sorting Frame Rng PdCalc PdMethods.

(** ** Metrics *)

(** y_true: a numpy array, or a pandas Series with integer labels.  Class labels are taken to
    be encoded as numbers. *)
Record target (V : Type) := { t_series : bool; t_index : list Z; t_vals : list V }.
Arguments t_series {V}. Arguments t_index {V}. Arguments t_vals {V}.

Inductive problem := Classification | Regression.

(** performance_metrics.py:8-18 [Metric]: the problem type and [calculate] *)
Record metric (V : Type) := { mt_problem : problem; mt_calc : target V -> list V -> result V }.
Arguments mt_problem {V}. Arguments mt_calc {V}.

Definition problem_eqb (a b : problem) : bool :=
  match a, b with Classification, Classification | Regression, Regression => true | _, _ => false end.
(** performance_metrics.py:17-18 *)
Definition applicable_to {V} (m : metric V) (p : problem) : bool := problem_eqb (mt_problem m) p.

Section Metrics.
  Context {V : Type} (N : num_ops V).

  (** [.mean()] of the elementwise result, which is a Series (skipping NaN) when y_true is one *)
  Definition mean_like (series : bool) (l : list V) : V :=
    np_mean N (if series then filter (fun x => negb (n_isnan N x)) l else l).

  (** performance_metrics.py:30-36.  For different lengths numpy broadcasts an array of length one
      ([vsub_np]); a Series keeps its length, so that a Series of length one is not broadcast. *)
  Definition mse_calc (y : target V) (yhat : list V) : result V :=
    if length (t_vals y) =? length yhat
    then Ok (mean_like (t_series y) (map (sqr N) (vsub N yhat (t_vals y))))
    else do ds <- vsub_np N yhat (t_vals y);
         if t_series y && negb (length ds =? length (t_vals y)) then Err ValueError
         else Ok (mean_like (t_series y) (map (sqr N) ds)).
  Definition MSE : metric V := {| mt_problem := Regression; mt_calc := mse_calc |}.

  (** performance_metrics.py:21-27 *)
  Definition RMSE : metric V := {| mt_problem := Regression; mt_calc := fun y yhat => do v <- mse_calc y yhat; Ok (n_sqrt N v) |}.

  (** performance_metrics.py:39-45.  np.equal broadcasts arrays; comparing with a Series needs equal
      lengths. *)
  Definition accuracy_calc (y : target V) (yhat : list V) : result V :=
    if length (t_vals y) =? length yhat
    then Ok (np_mean N (map (fun p => n_ofZ N (if n_eqb N (fst p) (snd p) then 1 else 0)) (combine (t_vals y) yhat)))
    else if t_series y then Err ValueError
    else match t_vals y, yhat with
         | [v], _ => Ok (np_mean N (map (fun z => n_ofZ N (if n_eqb N v z then 1 else 0)) yhat))
         | vs, [z] => Ok (np_mean N (map (fun v => n_ofZ N (if n_eqb N v z then 1 else 0)) vs))
         | _, _ => Err ValueError
         end.
  Definition Accuracy : metric V := {| mt_problem := Classification; mt_calc := accuracy_calc |}.
End Metrics.

(** ** Sampling data and target *)

(** [y[labels]] for an array: labels are positions, negative ones count from the end *)
Definition np_take {V} (vals : list V) (labels : list Z) : result (list V) :=
  let n := Z.of_nat (length vals) in
  mapM (fun z => if ((- n <=? z) && (z <? n))%Z
                 then get_nth (Z.to_nat (if z <? 0 then n + z else z)%Z) vals else Err IndexError) labels.
(** [y[labels]] for a Series with integer labels: all entries with that label *)
Definition series_take {V} (index : list Z) (vals : list V) (labels : list Z) : result (list (Z * V)) :=
  do ls <- mapM (fun z => match filter (fun e => Z.eqb (fst e) z) (combine index vals) with
                          | [] => Err KeyError
                          | l => Ok l
                          end) labels;
  Ok (concat ls).

(** artemis/_utilities/ops.py:25-30 [sample_both_if_not_none] *)
Definition sample_both {C V G} (R : rng_ops G) (g : G) (X : frame C) (y : target V) (n : option nat)
  : result (frame C * target V * G) :=
  match n with
  | None => Ok (X, y, g)
  | Some _ =>
      do s <- sample_if_not_none R g X n;
      let '(Xs, g') := s in
      if t_series y
      then do l <- series_take (t_index y) (t_vals y) (f_index Xs);
           Ok (Xs, {| t_series := true; t_index := map fst l; t_vals := map snd l |}, g')
      else do l <- np_take (t_vals y) (f_index Xs);
           Ok (Xs, {| t_series := false; t_index := []; t_vals := l |}, g')
  end.

(** ** The methods *)
Section Perm.
  Context {C V G : Type} (N : num_ops V) (R : rng_ops G) (srt : sorter).
  Notation row := (list C).
  Notation predictor := (nat -> list row -> result (list V)).

  (** State of a running method: the data frames the model was evaluated on so far (ghost,
      oldest first) and the random generator. *)
  Record pst := { p_log : list (list row); p_rng : G }.
  Definition act (A : Type) := pst -> pst * result A.
  Definition ret {A} (x : A) : act A := fun s => (s, Ok x).
  Definition raise {A} (e : exn) : act A := fun s => (s, Err e).
  Definition andthen {A B} (m : act A) (k : A -> act B) : act B :=
    fun s => match m s with (s', Ok a) => k a s' | (s', Err e) => (s', Err e) end.
  Definition lift {A} (r : result A) : act A := fun s => (s, r).
  (** list comprehension over an action *)
  Fixpoint traverse {A B} (f : A -> act B) (l : list A) : act (list B) :=
    match l with
    | [] => ret []
    | x :: t => andthen (f x) (fun y => andthen (traverse f t) (fun ys => ret (y :: ys)))
    end.

  (** [random_generator.permutation(n)] *)
  Definition draw (len : nat) : act (list nat) := fun s =>
    let '(p, g') := r_perm R (p_rng s) len in ({| p_log := p_log s; p_rng := g' |}, Ok p).

  (** [model.predict(rows)]; AttributeError when the model has no predict method *)
  Definition ask (pf : option predictor) (rows : list row) : act (list V) := fun s =>
    match pf with
    | None => (s, Err AttributeError)
    | Some P => ({| p_log := p_log s ++ [rows]; p_rng := p_rng s |}, P (length (p_log s)) rows)
    end.

  (** [metric.calculate(y_true, model.predict(rows))] *)
  Definition score (pf : option predictor) (m : metric V) (y : target V) (rows : list row) : act V :=
    andthen (ask pf rows) (fun yhat => lift (mt_calc m y yhat)).

  (** [df[feature] = df[feature].values[p]] on the rows, for the column at position [k] *)
  Definition permute_at (k : nat) (p : list nat) (rows : list row) : list row :=
    map (fun rv => set_nth k (snd rv) (fst rv)) (combine rows (picks (col_at k rows) p)).
  Definition permute_col (cols : list string) (p : list nat) (rows : list row) (f : string) : result (list row) :=
    match col_pos cols f with Some k => Ok (permute_at k p rows) | None => Err KeyError end.
  Definition permute_cols (cols : list string) (p : list nat) (rows : list row) (fs : list string) : result (list row) :=
    fold_left (fun acc f => do rs <- acc; permute_col cols p rs f) fs (Ok rows).

  (** _permutational_importance.py:139-143, _sejong_oh.py:176-181 [_neg_if_class] *)
  Definition neg_if_class (m : metric V) (v : V) : V := if applicable_to m Classification then n_neg N v else v.

  (** *** Permutation importance *)

  (** _permutational_importance.py:129-134, one feature: the working copy [w] is permuted,
      scored and restored from X *)
  Definition corrupt (pf : option predictor) (m : metric V) (X : frame C) (y : target V) (f : string) (w : list row)
    : act (V * list row) :=
    andthen (match col_pos (f_cols X) f with None => raise KeyError | Some k => ret k end) (fun k =>
    andthen (draw (length w)) (fun p =>
    let w' := permute_at k p w in
    andthen (score pf m y w') (fun v =>
    ret (v, map (fun rv => set_nth k (snd rv) (fst rv)) (combine w' (col_at k (f_rows X))))))).

  (** _permutational_importance.py:126-134: the two loops, appending (feature, score) in order *)
  Fixpoint corrupt_loop (pf : option predictor) (m : metric V) (X : frame C) (y : target V) (fs : list string) (w : list row)
    : act (list (string * V)) :=
    match fs with
    | [] => ret []
    | f :: t => andthen (corrupt pf m X y f w) (fun vw =>
                andthen (corrupt_loop pf m X y t (snd vw)) (fun l => ret ((f, fst vw) :: l)))
    end.

  (** distinct keys in insertion order: the keys of [{f: [] for f in features}] *)
  Fixpoint dedup (l : list string) : list string :=
    match l with [] => [] | x :: t => x :: filter (fun y => negb (String.eqb x y)) (dedup t) end.

  (** _permutational_importance.py:86-143 [_permutation_importance]; [features = None] is not
      iterable (line 125) *)
  Definition permutation_importance (pf : option predictor) (m : metric V) (X : frame C) (y : target V) (n_repeat : nat)
    (features : option (list string)) : act (list (string * V)) :=
    andthen (score pf m y (f_rows X)) (fun base =>
    match features with
    | None => raise TypeError
    | Some fs =>
        andthen (corrupt_loop pf m X y (concat (repeat fs n_repeat)) (f_rows X)) (fun scores =>
        let rows := map (fun f => (f, neg_if_class m (n_sub N (np_mean N (map snd (filter (fun e => String.eqb f (fst e)) scores))) base))) (dedup fs) in
        (* sorting an empty frame, which has no column "Importance" *)
        match rows with [] => raise KeyError | _ => ret (sort_values N srt false (fun r => snd r) rows) end)
    end).

  (** *** Sejong Oh *)

  (** _sejong_oh.py:155-173 [_permute_score] *)
  Definition permute_score (pf : option predictor) (m : metric V) (X : frame C) (y : target V) (fs : list string) (ref : V) : act V :=
    andthen (draw (length (f_rows X))) (fun p =>
    andthen (lift (permute_cols (f_cols X) p (f_rows X) fs)) (fun rows =>
    andthen (score pf m y rows) (fun v => ret (neg_if_class m (n_sub N v ref))))).

  (** _sejong_oh.py:132-152 [_inter] *)
  Definition inter (pf : option predictor) (m : metric V) (X : frame C) (y : target V) (f1 f2 : string) (ref : V) : act V :=
    andthen (permute_score pf m X y [f1] ref) (fun s1 =>
    andthen (permute_score pf m X y [f2] ref) (fun s2 =>
    andthen (permute_score pf m X y [f1; f2] ref) (fun s12 =>
    ret (neg_if_class m (n_sub N (n_sub N s12 s1) s2))))).

  (** _sejong_oh.py:114-129 [_perf_based_ovo] *)
  Definition perf_based_ovo (pf : option predictor) (m : metric V) (X : frame C) (y : target V) (pairs : list (string * string)) (n_repeat : nat)
    : act (list (string * string * V)) :=
    andthen (score pf m y (f_rows X)) (fun ref =>
    andthen (traverse (fun pr =>
               andthen (traverse (fun _ => andthen (inter pf m X y (fst pr) (snd pr) ref) (fun v => ret (n_abs N v))) (seq 0 n_repeat))
                       (fun l => ret (fst pr, snd pr, np_mean N l))) pairs) (fun rows =>
    ret (sort_values N srt false (fun r => n_abs N (snd r)) rows))).

  (** *** The method object (_sejong_oh.py:49-61, _method.py:37-47) *)
  Record sstate := {
    sj_rng : G;
    sj_X : option (frame C);
    sj_y : option (target V);
    sj_features : option (list string);
    sj_pairs : option (list (string * string));
    sj_ovo : option (list (string * string * V));
    sj_fi : option (list (string * V)) }.
  Definition sj_init (g : G) : sstate := {| sj_rng := g; sj_X := None; sj_y := None; sj_features := None; sj_pairs := None; sj_ovo := None; sj_fi := None |}.

  Record sargs := { sa_model : model C V; sa_X : frame C; sa_y : target V; sa_n : option nat; sa_repeat : nat; sa_features : option (list string) }.

  (** _sejong_oh.py:71-111 [fit].  [entropy] is the state with which the unseeded generator of
      the inner PermutationImportance starts (line 106); the third component is the ghost list
      of data frames the model was evaluated on. *)
  Definition sj_fit (m : metric V) (entropy : G) (s : sstate) (a : sargs) : sstate * result unit * list (list row) :=
    match sample_both R (sj_rng s) (sa_X a) (sa_y a) (sa_n a) with
    | Err e => (* DataFrame.sample has advanced the generator if it succeeded *)
        let g' := match sample_if_not_none R (sj_rng s) (sa_X a) (sa_n a) with Ok (_, g') => g' | Err _ => sj_rng s end in
        ({| sj_rng := g'; sj_X := sj_X s; sj_y := sj_y s; sj_features := sj_features s; sj_pairs := sj_pairs s; sj_ovo := sj_ovo s; sj_fi := sj_fi s |}, Err e, [])
    | Ok (Xs, ys, g1) =>
        let fs := match sa_features a with None => f_cols (sa_X a) | Some l => l end in
        let ps := combinations2 fs in
        let st g ovo fi := {| sj_rng := g; sj_X := Some Xs; sj_y := Some ys; sj_features := Some fs; sj_pairs := Some ps; sj_ovo := ovo; sj_fi := fi |} in
        match perf_based_ovo (md_predict (sa_model a)) m Xs ys ps (sa_repeat a) {| p_log := []; p_rng := g1 |} with
        | (s1, Err e) => (st (p_rng s1) (sj_ovo s) (sj_fi s), Err e, p_log s1)
        | (s1, Ok t) =>
            match permutation_importance (md_predict (sa_model a)) m Xs ys (sa_repeat a) (Some fs) {| p_log := p_log s1; p_rng := entropy |} with
            | (s2, Err e) => (st (p_rng s1) (Some t) (sj_fi s), Err e, p_log s2)
            | (s2, Ok fi) => (st (p_rng s1) (Some t) (Some fi), Ok tt, p_log s2)
            end
        end
    end.
End Perm.
Arguments pst : clear implicits.
Arguments sstate : clear implicits.
Arguments sargs : clear implicits.
