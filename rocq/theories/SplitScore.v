(** Model of the split score method for boosted trees:
    artemis/_utilities/_handler.py,
    artemis/interactions_methods/model_specific/gb_trees/_split_score.py,
    artemis/importance_methods/model_specific/_split_score.py and
    artemis/_utilities/split_score_metrics.py. *)
From Verif Require Import Py Num Sorting Frame CondDepth.
From Coq Require Import Ascii.
Open Scope string_scope.
Open Scope nat_scope.
Open Scope list_scope.

(** ** Unified tables (_handler.py) *)

(** A row of [xgboost.Booster.trees_to_dataframe()].  The node ids ("3-5" for node 5 of tree 3)
    are only ever compared within a tree, so they are represented by the node number.  The
    dropped columns (Split, Missing, Category) are left out. *)
Record xgb_row (V : Type) := { x_tree : Z; x_node : nat; x_feature : string; x_yes : option nat; x_no : option nat; x_gain : V; x_cover : V }.
(** A row of [lightgbm.Booster.trees_to_dataframe()]; [split_feature] is None for leaves. *)
Record lgb_row (V : Type) := { l_tree : Z; l_depth : nat; l_index : nat; l_left : option nat; l_right : option nat; l_feature : option string; l_gain : V }.
Arguments x_tree {V}. Arguments x_node {V}. Arguments x_feature {V}. Arguments x_yes {V}. Arguments x_no {V}. Arguments x_gain {V}. Arguments x_cover {V}.
Arguments l_tree {V}. Arguments l_depth {V}. Arguments l_index {V}. Arguments l_left {V}. Arguments l_right {V}. Arguments l_feature {V}. Arguments l_gain {V}.

(** A row of the unified table; [u_parent] stands for the columns parent_name, parent_gain and
    parent_cover, which are always written together, and is None where they are missing. *)
Record urow (V : Type) := {
  u_tree : Z; u_id : nat; u_feat : option string; u_left : option nat; u_right : option nat;
  u_gain : V; u_cover : option V; u_depth : option nat; u_leaf : bool;
  u_parent : option (option string * V * option V); u_inter : option bool }.
Arguments u_tree {V}. Arguments u_id {V}. Arguments u_feat {V}. Arguments u_left {V}. Arguments u_right {V}. Arguments u_gain {V}.
Arguments u_cover {V}. Arguments u_depth {V}. Arguments u_leaf {V}. Arguments u_parent {V}. Arguments u_inter {V}.

Inductive package := Xgboost | Lightgbm.

(** what [trees_to_dataframe] returns *)
Inductive dump (V : Type) := XDump (rows : list (xgb_row V)) | LDump (rows : list (lgb_row V)).
Arguments XDump {V}. Arguments LDump {V}.

(** the first part of a dotted class name (_handler.py:28-29) *)
Fixpoint before_dot (s : string) : string :=
  match s with
  | EmptyString => EmptyString
  | String c t => if Ascii.eqb c "."%char then EmptyString else String c (before_dot t)
  end.

Section SplitScore.
  Context {V : Type} (N : num_ops V) (srt : sorter).

  (** _handler.py:41-46 *)
  Definition unify_xgb (r : xgb_row V) : urow V := {|
    u_tree := x_tree r; u_id := x_node r; u_feat := Some (x_feature r); u_left := x_yes r; u_right := x_no r;
    u_gain := x_gain r; u_cover := Some (x_cover r); u_depth := None; u_leaf := String.eqb (x_feature r) "Leaf";
    u_parent := None; u_inter := None |}.
  (** _handler.py:48-63 *)
  Definition unify_lgb (r : lgb_row V) : urow V := {|
    u_tree := l_tree r; u_id := l_index r; u_feat := l_feature r; u_left := l_left r; u_right := l_right r;
    u_gain := l_gain r; u_cover := None; u_depth := Some (l_depth r - 1);
    u_leaf := match l_feature r with None => true | Some _ => false end;
    u_parent := None; u_inter := None |}.

  Record handler := { h_package : package; h_trees : list (urow V) }.

  (** a fitted model: the name of its class and what [trees_to_dataframe] returns *)
  Record gb_model := { gm_class : string; gm_dump : dump V }.

  (** _handler.py:27-36 [unify_structure], 39-64 [_get_unified_trees_df].  A class of one package
      returning the table of the other does not exist; renaming would then fail. *)
  Definition unify_structure (m : gb_model) : result handler :=
    let p := before_dot (gm_class m) in
    if String.eqb p "xgboost" then
      match gm_dump m with XDump rows => Ok {| h_package := Xgboost; h_trees := map unify_xgb rows |} | LDump _ => Err KeyError end
    else if String.eqb p "lightgbm" then
      match gm_dump m with LDump rows => Ok {| h_package := Lightgbm; h_trees := map unify_lgb rows |} | XDump _ => Err KeyError end
    else Err ModelNotSupported.

  (** ** The pass over a tree *)

  Definition is_xgb (p : package) : bool := match p with Xgboost => true | Lightgbm => false end.
  Definition has_id (c : option nat) (r : urow V) : bool := match c with Some i => u_id r =? i | None => false end.
  Definition ostr_eqb (a b : option string) : bool :=
    match a, b with Some x, Some y => String.eqb x y | None, None => true | _, _ => false end.

  Definition with_depth (d : option nat) (r : urow V) : urow V := {|
    u_tree := u_tree r; u_id := u_id r; u_feat := u_feat r; u_left := u_left r; u_right := u_right r; u_gain := u_gain r;
    u_cover := u_cover r; u_depth := d; u_leaf := u_leaf r; u_parent := u_parent r; u_inter := u_inter r |}.
  Definition with_parent (p r : urow V) : urow V := {|
    u_tree := u_tree r; u_id := u_id r; u_feat := u_feat r; u_left := u_left r; u_right := u_right r; u_gain := u_gain r;
    u_cover := u_cover r; u_depth := u_depth r; u_leaf := u_leaf r;
    u_parent := Some (u_feat p, u_gain p, u_cover p);
    u_inter := Some (n_ltb N (u_gain p) (u_gain r) && negb (ostr_eqb (u_feat r) (u_feat p))) |}.

  (** [tree.loc[i, "depth"] + 1]: TypeError when the depth is still None *)
  Definition depth_succ (r : urow V) : result (option nat) := match u_depth r with Some d => Ok (Some (S d)) | None => Err TypeError end.

  (** _split_score.py:220-229 and 230-239: one child [c] of the node in row [i] *)
  Definition visit (pk : package) (i : nat) (c : urow V -> option nat) (rows : list (urow V)) : result (list (urow V)) :=
    match nth_error rows i with
    | None => Err KeyError
    | Some p =>
        match find (has_id (c p)) rows with
        | None => Err IndexError
        | Some ch =>
            if u_leaf ch then Ok rows
            else
              do d <- (if is_xgb pk then do d <- depth_succ p; Ok (fun _ => d) else Ok u_depth);
              Ok (map (fun r => if has_id (c p) r then with_depth (d r) (with_parent p r) else r) rows)
        end
    end.

  (** _split_score.py:214-217: the root of an XGBoost tree gets depth 0 *)
  Definition set_root (pk : package) (i : nat) (rows : list (urow V)) : list (urow V) :=
    match nth_error rows i with
    | Some r => if is_xgb pk && (u_id r =? 0) then set_nth i (with_depth (Some 0) r) rows else rows
    | None => rows
    end.

  Definition stats_step (pk : package) (acc : result (list (urow V))) (i : nat) : result (list (urow V)) :=
    do rows <- acc;
    do rows <- visit pk i u_left (set_root pk i rows);
    visit pk i u_right rows.

  Definition non_leaf_nodes (rows : list (urow V)) : list nat :=
    filter (fun i => match nth_error rows i with Some r => negb (u_leaf r) | None => false end) (seq 0 (length rows)).

  (** _split_score.py:212-240 [_prepare_stats] *)
  Definition prepare_stats (pk : package) (rows : list (urow V)) : result (list (urow V)) :=
    fold_left (stats_step pk) (non_leaf_nodes rows) (Ok rows).

  (** [trees_df.groupby("tree")]: the tables of the trees, in ascending order of the tree number *)
  Definition by_tree (rows : list (urow V)) : list (list (urow V)) :=
    map (fun t => filter (fun r => Z.eqb (u_tree r) t) rows) (np_unique Zcell (map u_tree rows)).

  (** _split_score.py:200-209 [_calculate_full_result].  The columns parent_name, parent_gain,
      parent_cover and interaction exist only if some tree has an internal node below the root;
      selecting them raises KeyError otherwise. *)
  Definition has_parent (r : urow V) : bool := match u_parent r with Some _ => true | None => false end.
  Definition full_result (pk : package) (rows : list (urow V)) : result (list (urow V)) :=
    do trees <- mapM (prepare_stats pk) (by_tree rows);
    let full := concat trees in
    if existsb has_parent full then Ok full else Err KeyError.

  (** ** Aggregation *)

  (** sum and mean of a numeric column, skipping missing values *)
  Definition sum_skip (l : list V) : V := n_sum N (filter (fun x => negb (n_isnan N x)) l).
  Definition covers (g : list (urow V)) : list V := somes (map u_cover g).
  Definition depths (g : list (urow V)) : list V := map (fun d => n_ofZ N (Z.of_nat d)) (somes (map u_depth g)).

  Record orow := {
    o_parent : string; o_child : string;
    o_mean_gain : V; o_sum_gain : V; o_mean_cover : V; o_sum_cover : V; o_mean_depth : V; o_frequency : nat }.

  (** the group of a row in [groupby(["parent_name", "split_feature"])]; rows in which a key is
      missing belong to no group *)
  Definition pair_key (r : urow V) : option (string * string) :=
    match u_parent r, u_feat r with Some (Some p, _, _), Some c => Some (p, c) | _, _ => None end.
  Definition pair_eqb (a b : string * string) : bool := String.eqb (fst a) (fst b) && String.eqb (snd a) (snd b).
  Definition in_group (k : string * string) (r : urow V) : bool := match pair_key r with Some k' => pair_eqb k' k | None => false end.

  Definition pair_row (k : string * string) (g : list (urow V)) : orow := {|
    o_parent := fst k; o_child := snd k;
    o_mean_gain := mean_skip N (map u_gain g); o_sum_gain := sum_skip (map u_gain g);
    o_mean_cover := mean_skip N (covers g); o_sum_cover := sum_skip (covers g);
    o_mean_depth := mean_skip N (depths g); o_frequency := length g |}.

  (** _split_score.py:244-247: [interaction == True], or [depth > 0] *)
  Definition selected (only_def : bool) (r : urow V) : bool :=
    if only_def then match u_inter r with Some b => b | None => false end
    else match u_depth r with Some d => 0 <? d | None => false end.

  (** _split_score.py:243-270 [_get_summary].  Groups are listed in order of first appearance
      (pandas: sorted by key); the table is sorted by sum_gain afterwards. *)
  Definition get_summary (full : list (urow V)) (only_def : bool) : list orow :=
    let rows := filter (selected only_def) full in
    sort_values N srt false o_sum_gain
      (map (fun k => pair_row k (filter (in_group k) rows)) (dedup_by pair_eqb (somes (map pair_key rows)))).

  (** the numeric columns of [full_ovo] *)
  Definition pair_metric (name : string) : option (orow -> V) :=
    if String.eqb name "mean_gain" then Some o_mean_gain
    else if String.eqb name "sum_gain" then Some o_sum_gain
    else if String.eqb name "mean_cover" then Some o_mean_cover
    else if String.eqb name "sum_cover" then Some o_sum_cover
    else if String.eqb name "mean_depth" then Some o_mean_depth
    else if String.eqb name "frequency" then Some (fun r => n_ofZ N (Z.of_nat (o_frequency r)))
    else None.

  (** split_score_metrics.py:19-20 *)
  Definition lgbm_unsupported (name : string) : bool := String.eqb name "mean_cover" || String.eqb name "sum_cover".
  Definition ascending_metric (name : string) : bool := String.eqb name "mean_depth".

  (** _split_score.py:273-288 [_get_ovo].  (The two text columns of [full_ovo] are not modelled
      as metrics.) *)
  Definition get_ovo (asc : bool) (full_ovo : list orow) (metric : string) : result (list (string * string * V)) :=
    match pair_metric metric with
    | None => Err KeyError
    | Some f => Ok (sort_values N srt asc (fun r => snd r) (map (fun r => (o_parent r, o_child r, f r)) full_ovo))
    end.

  (** ** Importance (importance_methods/model_specific/_split_score.py) *)

  (** lines 170-173: a child of the node in row [i] *)
  Definition depth_visit (i : nat) (c : urow V -> option nat) (rows : list (urow V)) : result (list (urow V)) :=
    match nth_error rows i with
    | None => Err KeyError
    | Some p =>
        match find (has_id (c p)) rows with
        | None => Err IndexError
        | Some ch =>
            if u_leaf ch then Ok rows
            else do d <- depth_succ p; Ok (map (fun r => if has_id (c p) r then with_depth d r else r) rows)
        end
    end.
  Definition depth_step (acc : result (list (urow V))) (i : nat) : result (list (urow V)) :=
    do rows <- acc;
    do rows <- depth_visit i u_left (set_root Xgboost i rows);
    depth_visit i u_right rows.
  (** lines 163-174 [_calculate_depth_for_one_tree] and 153-160 [_calculate_depth] *)
  Definition depth_for_one_tree (rows : list (urow V)) : result (list (urow V)) := fold_left depth_step (non_leaf_nodes rows) (Ok rows).
  Definition calculate_depth (rows : list (urow V)) : result (list (urow V)) :=
    do trees <- mapM depth_for_one_tree (by_tree rows); Ok (concat trees).

  Record irow := {
    i_feature : string;
    i_mean_gain : V; i_sum_gain : V; i_mean_cover : V; i_sum_cover : V; i_mean_depth : V;
    i_root : V; i_wroot : V; i_wdepth : V }.

  Definition on_feature (f : string) (r : urow V) : bool := match u_feat r with Some g => String.eqb g f | None => false end.
  Definition at_root (r : urow V) : bool := match u_depth r with Some 0 => true | _ => false end.

  (** [np.average(x.depth, weights=x.gain)]: ZeroDivisionError when the weights sum to zero *)
  Definition np_average (g : list (urow V)) : result V :=
    let w := n_sum N (map u_gain g) in
    if n_eqb N w (n_ofZ N 0) then Err ZeroDivisionError
    else Ok (n_div N (n_sum N (map (fun r => n_mul N (match u_depth r with Some d => n_ofZ N (Z.of_nat d) | None => n_nan N end) (u_gain r)) g)) w).

  (** lines 122-132 [_calculate_root_metrics], joined to the other metrics: features that are
      at no root get missing values *)
  Definition root_gain (rows : list (urow V)) (f : string) : V := sum_skip (map u_gain (filter (fun r => at_root r && on_feature f r) rows)).
  Definition root_metrics (rows : list (urow V)) (f : string) : V * V :=
    let roots := filter at_root rows in
    let feats := dedup_by String.eqb (somes (map u_feat roots)) in
    match length (filter (on_feature f) roots) with
    | 0 => (n_nan N, n_nan N)
    | n => let freq := n_ofZ N (Z.of_nat n) in
           (freq, n_div N (n_mul N freq (root_gain rows f)) (n_sum N (map (root_gain rows) feats)))
    end.

  (** lines 94-97: the rows considered *)
  Definition importance_rows (features : option (list string)) (rows : list (urow V)) : list (urow V) :=
    match features with
    | Some fs => filter (fun r => match u_feat r with Some f => existsb (String.eqb f) fs | None => false end) rows
    | None => filter (fun r => match u_feat r with Some f => negb (String.eqb f "Leaf") | None => true end) rows
    end.

  (** lines 89-141 [_calculate_all_feature_importance] without the final sort.  Building a Series
      from the weighted depths of no feature raises ValueError (the truth value of the empty
      DataFrame that groupby.apply returns is ambiguous). *)
  Definition all_feature_importance (features : option (list string)) (rows : list (urow V)) : result (list irow) :=
    let rows := importance_rows features rows in
    match dedup_by String.eqb (somes (map u_feat rows)) with
    | [] => Err ValueError
    | fs => mapM (fun f => let g := filter (on_feature f) rows in
                   do wd <- np_average g;
                   Ok {| i_feature := f; i_mean_gain := mean_skip N (map u_gain g); i_sum_gain := sum_skip (map u_gain g);
                         i_mean_cover := mean_skip N (covers g); i_sum_cover := sum_skip (covers g); i_mean_depth := mean_skip N (depths g);
                         i_root := fst (root_metrics rows f); i_wroot := snd (root_metrics rows f); i_wdepth := wd |}) fs
    end.

  Definition importance_metric (name : string) : option (irow -> V) :=
    if String.eqb name "mean_gain" then Some i_mean_gain
    else if String.eqb name "sum_gain" then Some i_sum_gain
    else if String.eqb name "mean_cover" then Some i_mean_cover
    else if String.eqb name "sum_cover" then Some i_sum_cover
    else if String.eqb name "mean_depth" then Some i_mean_depth
    else if String.eqb name "mean_weighted_depth" then Some i_wdepth
    else if String.eqb name "root_frequency" then Some i_root
    else if String.eqb name "weighted_root_frequency" then Some i_wroot
    else None.

  (** lines 108 and 144-150 [_select_metric]: sorted twice, always descending *)
  Definition select_metric (full : list irow) (metric : string) : result (list (string * V)) :=
    match importance_metric metric with
    | None => Err KeyError
    | Some f => Ok (sort_values N srt false (fun r => snd r) (map (fun r => (i_feature r, f r)) (sort_values N srt false f full)))
    end.

  (** lines 39-81 [importance] *)
  Definition split_importance (features : option (list string)) (metric : string) (trees_df : list (urow V)) : result (list (string * V)) :=
    do rows <- (if existsb (fun r => match u_depth r with None => true | Some _ => false end) trees_df
                then calculate_depth trees_df else Ok trees_df);
    do full <- all_feature_importance features rows;
    select_metric full metric.

  (** lines 83-86 *)
  Definition importance_ascending (metric : option string) : bool :=
    match metric with Some m => String.eqb m "mean_depth" || String.eqb m "mean_weighted_depth" | None => false end.

  (** ** The method object (gb_trees/_split_score.py:51-104) *)

  Record sstate := {
    ss_metric : option string;
    ss_full_result : option (list (urow V));
    ss_full_ovo : option (list orow);
    ss_ovo : option (list (string * string * V));
    ss_fi : option (list (string * V));
    ss_fi_metric : option string }.       (* selected_metric of the current importance object *)
  Definition ss_init : sstate := {| ss_metric := None; ss_full_result := None; ss_full_ovo := None; ss_ovo := None; ss_fi := None; ss_fi_metric := None |}.

  (** lines 56-58 *)
  Definition ss_ascending (s : sstate) : bool := match ss_metric s with Some m => ascending_metric m | None => false end.

  (** the argument of fit: a model, or a handler built from one *)
  Inductive fit_arg := Model (m : gb_model) | Handler (h : handler).

  (** lines 290-295 [_check_metrics_with_available_info] *)
  Definition check_metrics (pk : package) (im fm : string) : result unit :=
    match pk with
    | Lightgbm => if lgbm_unsupported im then Err MetricNotSupported else if lgbm_unsupported fm then Err MetricNotSupported else Ok tt
    | Xgboost => Ok tt
    end.

  (** lines 60-104 [fit] *)
  Definition ss_fit (s : sstate) (arg : fit_arg) (im fm : string) (only_def : bool) : sstate * result unit :=
    match (match arg with Model m => unify_structure m | Handler h => Ok h end) with
    | Err e => (s, Err e)
    | Ok h =>
        let s1 := {| ss_metric := Some im; ss_full_result := ss_full_result s; ss_full_ovo := ss_full_ovo s; ss_ovo := ss_ovo s; ss_fi := ss_fi s; ss_fi_metric := ss_fi_metric s |} in
        match check_metrics (h_package h) im fm with
        | Err e => (s1, Err e)
        | Ok _ =>
            match full_result (h_package h) (h_trees h) with
            | Err e => (s1, Err e)
            | Ok full =>
                let fovo := get_summary full only_def in
                let s2 ovo fi fim := {| ss_metric := Some im; ss_full_result := Some full; ss_full_ovo := Some fovo; ss_ovo := ovo; ss_fi := fi; ss_fi_metric := fim |} in
                match get_ovo (ascending_metric im) fovo im with
                | Err e => (s2 (ss_ovo s) (ss_fi s) (ss_fi_metric s), Err e)
                | Ok ovo =>
                    match split_importance None fm (h_trees h) with
                    | Err e => (s2 (Some ovo) (ss_fi s) None, Err e)
                    | Ok fi => (s2 (Some ovo) (Some fi) (Some fm), Ok tt)
                    end
                end
            end
        end
    end.

  (** importance_methods/model_specific/_split_score.py:39-69: [SplitScoreImportance().importance]
      called directly.  Only a handler has an attribute trees_df; the metric defaults to
      sum_gain (line 43). *)
  Definition importance_call (model : fit_arg) (features : option (list string)) (metric : option string)
    (trees_df : option (list (urow V))) : result (list (string * V)) :=
    do rows <- match trees_df with
               | Some t => Ok t
               | None => match model with Handler h => Ok (h_trees h) | Model _ => Err AttributeError end
               end;
    split_importance features (match metric with Some m => m | None => "sum_gain" end) rows.

  (** artemis/interactions_methods/_method.py:54-58 [_compare_ovo] *)
  Definition compare_table (asc : bool) (ovo : option (list (string * string * V))) : result (list (string * string * V)) :=
    match ovo with None => Err MethodNotFitted | Some t => Ok (sort_values N srt asc (fun r => snd r) t) end.

  (** artemis/interactions_methods/_method.py:153-160 [interaction_value] *)
  Definition interaction_value (tab : result (list (string * string * V))) (f1 f2 : string) : result V :=
    do t <- tab;
    match filter (fun r => (String.eqb (fst (fst r)) f1 && String.eqb (snd (fst r)) f2)
                           || (String.eqb (fst (fst r)) f2 && String.eqb (snd (fst r)) f1)) t with
    | [] => Err IndexError
    | r :: _ => Ok (snd r)
    end.

  Definition ss_compare_ovo (s : sstate) := compare_table (ss_ascending s) (ss_ovo s).
End SplitScore.
Arguments gb_model : clear implicits.
Arguments handler : clear implicits.
Arguments fit_arg : clear implicits.
Arguments sstate : clear implicits.
