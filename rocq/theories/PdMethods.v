(** Model of the partial dependence based methods:
    interactions_methods/model_agnostic/partial_dependence_based/{_pdp,_friedman_h_statistic,_greenwell}.py
    and importance_methods/model_agnostic/_pdp.py. *)
From Verif Require Import Py Num Sorting Frame Rng PdCalc.

(** A model object: its identity and what its [predict_proba(...)[:, 1]] and [predict]
    return, when it has those methods. *)
Record model (C V : Type) := {
  md_id : nat;
  md_proba1 : option (nat -> list (list C) -> result (list V));
  md_predict : option (nat -> list (list C) -> result (list V)) }.
Arguments md_id {C V}. Arguments md_proba1 {C V}. Arguments md_predict {C V}.

(** artemis/_utilities/ops.py:62-76 [get_predict_function] (with yhat_default and
    yhat_proba_default); [None] is Python's None. *)
Definition get_predict_function {C V} (md : model C V) (pf : option (nat -> list (list C) -> result (list V)))
  : option (nat -> list (list C) -> result (list V)) :=
  match pf with
  | Some p => Some p
  | None => match md_proba1 md with Some p => Some p | None => md_predict md end
  end.
(** calling it: 'NoneType' object is not callable *)
Definition callable {C V} (pf : option (nat -> list (list C) -> result (list V))) : nat -> list (list C) -> result (list V) :=
  match pf with Some p => p | None => fun _ _ => Err TypeError end.

Section Methods.
  Context {C V G : Type} (O : cell_ops C) (N : num_ops V) (R : rng_ops G) (srt : sorter).
  Notation calc := (calc C V).
  Notation predictor := (nat -> list (list C) -> result (list V)).

  Definition ovo_row := (string * string * V)%type.
  Definition fi_row := (string * V)%type.

  (** [sort_values(by=..., ascending=False, ignore_index=True).fillna(0)] *)
  Definition ovo_table (l : list ovo_row) : list ovo_row :=
    map (fun r => (fst r, fillna0 N (snd r))) (sort_values N srt false (fun r => snd r) l).
  Definition fi_table (l : list fi_row) : list fi_row :=
    map (fun r => (fst r, fillna0 N (snd r))) (sort_values N srt false (fun r => snd r) l).

  (** ops.py:50-54 [split_features_num_cat]: membership in the numerical part *)
  Definition is_numerical (X : frame C) (features : list string) (f : string) : bool :=
    str_in f features && str_in f (f_num X).

  (** *** Importance: importance_methods/model_agnostic/_pdp.py *)

  (** _pdp.py:127-128 [_calc_importance] *)
  Definition calc_importance (pdp : list V) (numerical : bool) : result V :=
    if numerical then Ok (np_std N pdp)
    else do mx <- np_max N pdp; do mn <- np_min N pdp; Ok (n_div N (n_sub N mx mn) (n_ofZ N 4)).

  (** _pdp.py:112-124 [_pdp_importance]; all single profiles are calculated, whatever the
      features (line 113) *)
  Definition pdp_importance (X : frame C) (features : list string) (c : calc) : calc * result (list fi_row) :=
    match calculate_pd_single O N c None with
    | (c', Err e) => (c', Err e)
    | (c', Ok _) =>
        (c', do l <- mapM (fun f => do pdp <- get_pd_single O c' f None;
                                    do v <- calc_importance pdp (is_numerical X features f); Ok (f, v)) features;
             Ok (fi_table l))
    end.

  (** choice of the calculator: importance _pdp.py:96-103, interactions _pdp.py:85-98 *)
  Definition pick_calc (md : model C V) (X : frame C) (pf : option predictor) (batchsize : Z) (given : option calc) : result calc :=
    match given with
    | None => Ok (calc_init O N (md_id md) X (callable pf) batchsize)
    | Some c => if negb (c_model c =? md_id md) then Err ValueError
                else if negb (frame_equals O (c_X c) X) then Err ValueError
                else Ok c
    end.

  (** importance _pdp.py:48-106 [PartialDependenceBasedImportance.importance]: the final
      calculator (the caller's object if it was given) and the table *)
  Definition pd_importance (g : G) (md : model C V) (X : frame C) (n : option nat) (pf : option predictor)
    (features : option (list string)) (batchsize : Z) (given : option calc) : option calc * result (list fi_row) :=
    match sample_if_not_none R g X n with
    | Err e => (given, Err e)
    | Ok (Xs, _) =>
        let fs := match features with None => f_cols X | Some l => l end in
        match pick_calc md Xs (get_predict_function md pf) batchsize given with
        | Err e => (given, Err e)
        | Ok c => let '(c', r) := pdp_importance Xs fs c in (Some c', r)
        end
    end.

  (** *** Friedman *)

  (** _friedman_h_statistic.py:222-226 [_calculate_hstat_value] *)
  Definition hstat (pd_i pd_versus pd_i_versus : list V) (normalized : bool) : V :=
    let nom := map (sqr N) (vsub N (vsub N (center N pd_i_versus) (center N pd_i)) (center N pd_versus)) in
    if normalized then n_div N (n_sum N nom) (n_sum N (map (sqr N) (center N pd_i_versus)))
    else n_sqrt N (np_mean N nom).

  (** numpy's difference of two one-dimensional arrays: an array of length 1 is broadcast,
      other lengths that differ raise ValueError *)
  Definition vsub_np (a b : list V) : result (list V) :=
    if length a =? length b then Ok (vsub N a b)
    else match a, b with
         | [x], _ => Ok (map (fun y => n_sub N x y) b)
         | _, [y] => Ok (map (fun x => n_sub N x y) a)
         | _, _ => Err ValueError
         end.
  (** [_calculate_hstat_value] where the third array comes from the predict function and may have
      any length.  [hstat] above is the case of equal lengths (lemma hstat_np_equal) *)
  Definition hstat_np (pd_i pd_versus pd_i_versus : list V) (normalized : bool) : result V :=
    do d1 <- vsub_np (center N pd_i_versus) (center N pd_i);
    do d2 <- vsub_np d1 (center N pd_versus);
    let nom := map (sqr N) d2 in
    Ok (if normalized then n_div N (n_sum N nom) (n_sum N (map (sqr N) (center N pd_i_versus)))
        else n_sqrt N (np_mean N nom)).
  Lemma vsub_length (a b : list V) : length a = length b -> length (vsub N a b) = length a.
  Proof. intros E. unfold vsub. rewrite map_length, combine_length. lia. Qed.
  Lemma hstat_np_equal a b c norm : length c = length a -> length c = length b -> hstat_np a b c norm = Ok (hstat a b c norm).
  Proof.
    intros Ea Eb. unfold hstat_np, vsub_np. assert (L : forall l, length (center N l) = length l) by (intros l; unfold center; apply map_length).
    rewrite !L, Ea, Nat.eqb_refl. cbn [bind]. rewrite vsub_length, L by (rewrite !L; exact Ea). rewrite Eb, Nat.eqb_refl. reflexivity.
  Qed.

  (** _friedman_h_statistic.py:205-219 [_calculate_ovo_interactions_from_pd] *)
  Definition friedman_ovo (normalized : bool) (X : frame C) (features : list string) (pairs : list (string * string)) (c : calc)
    : calc * result (list ovo_row) :=
    match calculate_pd_pairs O N c (Some pairs) false with
    | (c1, Err e) => (c1, Err e)
    | (c1, Ok _) =>
        match calculate_pd_single O N c1 (Some features) with
        | (c2, Err e) => (c2, Err e)
        | (c2, Ok _) =>
            (c2, do l <- mapM (fun p =>
                      do x1 <- column X (fst p); do pd1 <- get_pd_single O c2 (fst p) (Some x1);
                      do x2 <- column X (snd p); do pd2 <- get_pd_single O c2 (snd p) (Some x2);
                      do pd12 <- get_pd_pairs O c2 (fst p) (snd p) (combine x1 x2);
                      Ok (fst p, snd p, hstat pd1 pd2 pd12 normalized)) pairs;
                 Ok (ovo_table l))
        end
    end.

  (** _friedman_h_statistic.py:192-203 [_calculate_ova_interactions_from_pd] *)
  Definition friedman_ova (normalized : bool) (pf : option predictor) (X : frame C) (features : list string) (c : calc)
    : calc * result (list fi_row) :=
    match calculate_pd_minus_single N c (Some features) with
    | (c1, Err e) => (c1, Err e)
    | (c1, Ok _) =>
        (c1, do preds <- callable pf (length (c_log c1)) (f_rows X);
             do l <- mapM (fun f =>
                      do x <- column X f; do pd_f <- get_pd_single O c1 f (Some x);
                      do pd_m <- get_pd_minus_single c1 f;
                      do v <- hstat_np pd_f pd_m preds normalized;
                      Ok (f, v)) features;
             Ok (fi_table l))
    end.

  (** *** Greenwell *)

  (** _greenwell.py:93-94 [_calc_conditional_imp] *)
  Definition conditional_imp (numerical : bool) (pd_values : list V) : result V :=
    if numerical then stat_stdev N pd_values
    else do mx <- np_max N pd_values; do mn <- np_min N pd_values; Ok (n_div N (n_sub N mx mn) (n_ofZ N 4)).

  (** columns of a matrix with [m] columns *)
  Definition col_of (j : nat) (mat : list (list V)) : list V :=
    flat_map (fun r => match nth_error r j with Some x => [x] | None => [] end) mat.
  Definition columns_of (m : nat) (mat : list (list V)) : list (list V) := map (fun j => col_of j mat) (seq 0 m).

  (** np.apply_along_axis over the given 1-d slices: ValueError when there are none *)
  Definition along (f : list V -> result V) (slices : list (list V)) : result (list V) :=
    match slices with [] => Err ValueError | _ => mapM f slices end.

  (** _greenwell.py:81-87, one pair; [num1] and [num2] tell whether the features are numerical *)
  Definition greenwell_value (num1 num2 : bool) (ncols : nat) (mat : list (list V)) : result V :=
    do imp_j <- along (conditional_imp num2) mat;
    do res_j <- stat_stdev N imp_j;
    do imp_i <- along (conditional_imp num1) (columns_of ncols mat);
    do res_i <- stat_stdev N imp_i;
    Ok (n_div N (n_add N res_j res_i) (n_ofZ N 2)).

  (** _greenwell.py:76-90 [_calculate_ovo_interactions_from_pd] *)
  Definition greenwell_ovo (X : frame C) (features : list string) (pairs : list (string * string)) (c : calc)
    : calc * result (list ovo_row) :=
    match calculate_pd_pairs O N c (Some pairs) true with
    | (c1, Err e) => (c1, Err e)
    | (c1, Ok _) =>
        (c1, do l <- mapM (fun p0 =>
                  let p := get_pair_key c1 p0 in
                  do e <- dict_get pair_eqb p (c_pairs c1);
                  do mat <- get_pd_pairs_all c1 (fst p) (snd p);
                  do v <- greenwell_value (is_numerical X features (fst p)) (is_numerical X features (snd p))
                                          (length (snd (fst e))) mat;
                  Ok (fst p, snd p, v)) pairs;
             Ok (ovo_table l))
    end.

  (** *** Method objects: interactions_methods/_method.py:37-47, _pdp.py:24-26,
      _friedman_h_statistic.py:53-66, _greenwell.py:47-55 *)
  Inductive kind := Friedman (normalized : bool) | Greenwell.

  Record mstate := {
    m_rng : G;
    m_predict : option (option predictor);      (* outer None: attribute not set yet *)
    m_model : option (model C V);
    m_X : option (frame C);
    m_features : option (list string);
    m_pairs : option (list (string * string));
    m_calc : option calc;
    m_ovo : option (list ovo_row);
    m_fi : option (list fi_row);
    m_fi_obj : bool;                            (* _feature_importance_obj is not None *)
    m_ova : option (list fi_row) }.
  Definition m_init (g : G) : mstate := {| m_rng := g; m_predict := None; m_model := None; m_X := None;
    m_features := None; m_pairs := None; m_calc := None; m_ovo := None; m_fi := None; m_fi_obj := false; m_ova := None |}.

  Record fargs := {
    a_model : model C V; a_X : frame C; a_n : option nat; a_predict : option predictor;
    a_features : option (list string); a_batch : Z; a_calc : option calc; a_ova : bool }.

  Definition ovo_of (k : kind) := match k with Friedman norm => friedman_ovo norm | Greenwell => greenwell_ovo end.

  (** _pdp.py:41-109 [PartialDependenceBasedMethod.fit] *)
  Definition fit_base (k : kind) (s : mstate) (a : fargs) : mstate * result unit :=
    let pf := get_predict_function (a_model a) (a_predict a) in
    let s1 := {| m_rng := m_rng s; m_predict := Some pf; m_model := Some (a_model a); m_X := m_X s;
                 m_features := m_features s; m_pairs := m_pairs s; m_calc := m_calc s; m_ovo := m_ovo s;
                 m_fi := m_fi s; m_fi_obj := m_fi_obj s; m_ova := m_ova s |} in
    match sample_if_not_none R (m_rng s) (a_X a) (a_n a) with
    | Err e => (s1, Err e)
    | Ok (Xs, rng') =>
        let fs := match a_features a with None => f_cols (a_X a) | Some l => l end in
        let ps := combinations2 fs in
        let st calc ovo fi obj := {| m_rng := rng'; m_predict := Some pf; m_model := Some (a_model a); m_X := Some Xs;
                                     m_features := Some fs; m_pairs := Some ps; m_calc := calc; m_ovo := ovo;
                                     m_fi := fi; m_fi_obj := obj; m_ova := m_ova s |} in
        match pick_calc (a_model a) Xs pf (a_batch a) (a_calc a) with
        | Err e => (st (m_calc s) (m_ovo s) (m_fi s) (m_fi_obj s), Err e)
        | Ok c =>
            match ovo_of k Xs fs ps c with
            | (c1, Err e) => (st (Some c1) (m_ovo s) (m_fi s) (m_fi_obj s), Err e)
            | (c1, Ok t) =>
                (* PartialDependenceBasedImportance().importance(model, X_sampled, features, pd_calculator) *)
                match pd_importance rng' (a_model a) Xs None None (Some fs) 2000 (Some c1) with
                | (c2, Err e) => (st c2 (Some t) (m_fi s) true, Err e)
                | (c2, Ok fi) => (st c2 (Some t) (Some fi) true, Ok tt)
                end
            end
        end
    end.

  (** _friedman_h_statistic.py:68-109 and _greenwell.py:57-66 [fit] *)
  Definition fit (k : kind) (s : mstate) (a : fargs) : mstate * result unit :=
    match fit_base k s a with
    | (s1, Err e) => (s1, Err e)
    | (s1, Ok _) =>
        match k with
        | Greenwell => (s1, Ok tt)
        | Friedman norm =>
            if a_ova a
            then match m_calc s1, m_X s1, m_features s1, m_predict s1 with
                 | Some c, Some Xs, Some fs, Some pf =>
                     let st c' ova := {| m_rng := m_rng s1; m_predict := m_predict s1; m_model := m_model s1; m_X := m_X s1;
                                         m_features := m_features s1; m_pairs := m_pairs s1; m_calc := Some c'; m_ovo := m_ovo s1;
                                         m_fi := m_fi s1; m_fi_obj := m_fi_obj s1; m_ova := ova |} in
                     match friedman_ova norm pf Xs fs c with
                     | (c', Err e) => (st c' (m_ova s1), Err e)
                     | (c', Ok t) => (st c' (Some t), Ok tt)
                     end
                 | _, _, _, _ => (s1, Err AttributeError)   (* unreachable: fit_base sets them *)
                 end
            else (s1, Ok tt)
        end
    end.
End Methods.
Arguments mstate : clear implicits.
Arguments fargs : clear implicits.
