(** Model of the tree based interaction method for scikit-learn forests:
    artemis/interactions_methods/model_specific/random_forest/_conditional_minimal_depth.py and
    artemis/importance_methods/model_specific/_minimal_depth.py. *)
From Verif Require Import Py Num Sorting Frame.

(** ** Trees *)

(** The arrays of a fitted scikit-learn tree ([tree_.children_left], [children_right] and
    [feature]); entry [i] describes node [i].  Leaves have children -1 and feature -2. *)
Record tree := { tr_left : list Z; tr_right : list Z; tr_feat : list Z }.
Definition node_count (T : tree) : nat := length (tr_feat T).

(** [tree.loc[ids, column]]: KeyError for an id that is not a row *)
Definition loc {A} (l : list A) (ids : list nat) : result (list A) :=
  mapM (fun i => match nth_error l i with Some x => Ok x | None => Err KeyError end) ids.

(** [depth[ids] = d] (line 223) *)
Definition set_depths (ids : list nat) (d : nat) (dep : list nat) : result (list nat) :=
  fold_left (fun acc i => do l <- acc; if i <? length l then Ok (set_nth i d l) else Err IndexError) ids (Ok dep).

(** _conditional_minimal_depth.py:333-334 [_split_var_to_ids]: groups in ascending order of the
    split variable, ids in the order of the level *)
Definition split_var_to_ids (ids : list nat) (fs : list Z) : list (Z * list nat) :=
  map (fun f => (f, map fst (filter (fun p => Z.eqb (snd p) f) (combine ids fs)))) (np_unique Zcell fs).

(** _conditional_minimal_depth.py:328-330 [_append_nodes_to_split_var] on the defaultdict *)
Definition dget (f : Z) (d : list (Z * list nat)) : list nat := match assoc Z.eqb f d with Some l => l | None => [] end.
Definition append_nodes (grouped d : list (Z * list nat)) : list (Z * list nat) :=
  fold_left (fun d g => dict_set Z.eqb (fst g) (dget (fst g) d ++ snd g) d) grouped d.

(** _conditional_minimal_depth.py:320-325 [_next_level] *)
Definition next_level (T : tree) (ids : list nat) : result (list nat) :=
  do ls <- loc (tr_left T) ids;
  do rs <- loc (tr_right T) ids;
  Ok (map Z.to_nat (filter (fun z => Z.leb 0 z) (ls ++ rs))).

(** _conditional_minimal_depth.py:222-228: the loop; [fuel] bounds the number of levels *)
Fixpoint bfs_loop (T : tree) (fuel : nat) (ids : list nat) (d : nat) (dep : list nat) (sp : list (Z * list nat))
  : result (list nat * list (Z * list nat)) :=
  match ids with
  | [] => Ok (dep, sp)
  | _ =>
      match fuel with
      | 0 => Err OutOfFuel
      | S k =>
          do dep' <- set_depths ids d dep;
          do fs <- loc (tr_feat T) ids;
          let sp' := append_nodes (split_var_to_ids ids fs) sp in
          do ids' <- next_level T ids;
          bfs_loop T k ids' (S d) dep' sp'
      end
  end.

(** _conditional_minimal_depth.py:206-232 [_bfs] (and 303-305 [_delete_leaves]) *)
Definition bfs (T : tree) : result (list nat * list (Z * list nat)) :=
  do r <- bfs_loop T (S (node_count T)) [0] 0 (repeat 0 (node_count T)) [];
  match assoc Z.eqb (-2)%Z (snd r) with
  | None => Err KeyError
  | Some _ => Ok (fst r, filter (fun e => negb (Z.eqb (fst e) (-2))) (snd r))
  end.

(** ** One tree *)

Definition list_min (x : nat) (l : list nat) : nat := fold_left Nat.min l x.
Definition depth_of (depths : list nat) (i : nat) : nat := nth i depths 0.

(** _conditional_minimal_depth.py:308-317 [_calculate_maximal_id_in_subtree] *)
Definition max_id (depths : list nat) (r d : nat) : nat :=
  match filter (fun i => (depth_of depths i <=? d) && (r <? i)) (seq 0 (length depths)) with
  | [] => length depths - 1
  | i :: t => list_min i t - 1
  end.

(** [min(min_val, v)] where [None] is the initial +inf *)
Definition omin (a : option Z) (b : Z) : option Z := match a with None => Some b | Some a => Some (Z.min a b) end.

(** _conditional_minimal_depth.py:266-274: one of the shallowest f1-nodes (with 337-338) *)
Definition cmd_step (depths : list nat) (split_f2 : list nat) (acc : option Z * bool) (r : nat) : option Z * bool :=
  let d := depth_of depths r in
  let ub := max_id depths r d in
  match filter (fun j => (r <? j) && (j <=? ub)) split_f2 with
  | [] => (omin (fst acc) (Z.of_nat (depth_of depths ub) - Z.of_nat d), snd acc)
  | j :: t => (omin (fst acc) (Z.of_nat (list_min (depth_of depths j) (map (depth_of depths) t)) - Z.of_nat d - 1), true)
  end.

(** _conditional_minimal_depth.py:261-275: value (None where the code leaves +inf, replaced by
    None in line 277) and occurrence flag of a pair *)
Definition cmd_pair (depths : list nat) (sp : list (Z * list nat)) (f1 f2 : nat) : option Z * bool :=
  match assoc Z.eqb (Z.of_nat f1) sp, assoc Z.eqb (Z.of_nat f2) sp with
  | Some l1, Some l2 =>
      match l1 with
      | [] => (None, false)
      | h :: _ => fold_left (cmd_step depths l2) (filter (fun i => depth_of depths i =? depth_of depths h) l1) (None, false)
      end
  | _, _ => (None, false)
  end.

(** _conditional_minimal_depth.py:245-279 [_conditional_minimal_depth] *)
Definition raw_row : Type := (nat * nat) * (option Z * bool).
Definition conditional_minimal_depth (sp : list (Z * list nat)) (depths : list nat) (column_size : nat) : list raw_row :=
  map (fun p => (p, cmd_pair depths sp (fst p) (snd p))) (list_prod (seq 0 column_size) (seq 0 column_size)).

(** ** The forest *)

Notation tree_info := (list nat * list (Z * list nat))%type.

(** _conditional_minimal_depth.py:177-203 [_calculate_conditional_minimal_depths]; pd.concat of
    no frame raises ValueError *)
Definition calculate_cmd (trees : list tree) (column_size : nat) : result (list raw_row * list tree_info) :=
  do infos <- mapM bfs trees;
  match infos with
  | [] => Err ValueError
  | _ => Ok (concat (map (fun i => conditional_minimal_depth (snd i) (fst i) column_size) infos), infos)
  end.

Definition nat2_eqb (a b : nat * nat) : bool := (fst a =? fst b) && (snd a =? snd b).
Fixpoint dedup_by {A} (eqb : A -> A -> bool) (l : list A) : list A :=
  match l with [] => [] | x :: t => x :: filter (fun y => negb (eqb x y)) (dedup_by eqb t) end.

(** a row of [ovo] *)
Record cmd_row (V : Type) := { cr_root : string; cr_var : string; cr_value : V; cr_occ : nat }.
Arguments cr_root {V}. Arguments cr_var {V}. Arguments cr_value {V}. Arguments cr_occ {V}.

(** the defined entries of an option list *)
Definition somes {A} (l : list (option A)) : list A := flat_map (fun o => match o with Some x => [x] | None => [] end) l.

Section Forest.
  Context {V : Type} (N : num_ops V) (srt : sorter).

  (** mean of an object column that holds integers and None: missing values are skipped *)
  Definition mean_defined (l : list (option Z)) : V :=
    match somes l with [] => n_nan N | vs => np_mean N (map (n_ofZ N) vs) end.

  (** order of [sort_values(by=["n_occurences", method], ascending=[False, True])] *)
  Definition cmd_le (a b : cmd_row V) : bool :=
    if cr_occ b <? cr_occ a then true else if cr_occ a <? cr_occ b then false else le_dir N true (cr_value a) (cr_value b).

  (** _conditional_minimal_depth.py:286-300 [_summarise_results].  Groups are listed in order of
      first appearance; in pandas they are sorted, which is the same order here because every
      tree lists its pairs in ascending order. *)
  Definition summarise (raw : list raw_row) (columns : list string) : list (cmd_row V) :=
    let keys := dedup_by nat2_eqb (map fst raw) in
    let groups := map (fun k => let g := map snd (filter (fun r => nat2_eqb (fst r) k) raw) in
                       {| cr_root := nth (fst k) columns EmptyString; cr_var := nth (snd k) columns EmptyString;
                          cr_value := mean_defined (map fst g); cr_occ := length (filter snd g) |}) keys in
    filter (fun r => negb (String.eqb (cr_var r) (cr_root r))) (srt _ cmd_le groups).

  (** _minimal_depth.py:37-76 [importance] and 84-88 [_check_preconditions].  Sorting the empty
      frame, which has no column "Importance", raises KeyError. *)
  Definition minimal_depth_importance (columns : list string) (trees : option (list tree_info)) : result (list (string * V)) :=
    match trees with
    | None => Err ImportanceWithoutInteraction
    | Some infos =>
        let entries := flat_map (fun i => map (fun e => (fst e, depth_of (fst i) (hd 0 (snd e)))) (snd i)) infos in
        do rows <- mapM (fun f => match nth_error columns (Z.to_nat f) with
                                  | None => Err KeyError
                                  | Some c => Ok (c, np_mean N (map (fun e => n_ofZ N (Z.of_nat (snd e))) (filter (fun e => Z.eqb (fst e) f) entries)))
                                  end) (dedup_by Z.eqb (map fst entries));
        match rows with [] => Err KeyError | _ => Ok (sort_values N srt true (fun r => snd r) rows) end
    end.

  (** ** The method object *)

  (** a fitted forest: [feature_names_in_] (absent when the model was fitted on an array) and
      the trees of [estimators_] *)
  Record forest := { fo_names : option (list string); fo_trees : list tree }.

  Record cstate := {
    cs_features : option (list string);
    cs_raw : option (list raw_row);
    cs_ovo : option (list (cmd_row V));
    cs_fi : option (list (string * V)) }.
  Definition cs_init : cstate := {| cs_features := None; cs_raw := None; cs_ovo := None; cs_fi := None |}.

  (** _conditional_minimal_depth.py:67-88 [fit] *)
  Definition cmd_fit (s : cstate) (m : forest) : cstate * result unit :=
    match fo_names m with
    | None => (s, Err AttributeError)
    | Some names =>
        match calculate_cmd (fo_trees m) (length names) with
        | Err e => ({| cs_features := Some names; cs_raw := cs_raw s; cs_ovo := cs_ovo s; cs_fi := cs_fi s |}, Err e)
        | Ok (raw, infos) =>
            let st fi := {| cs_features := Some names; cs_raw := Some raw; cs_ovo := Some (summarise raw names); cs_fi := fi |} in
            match minimal_depth_importance names (Some infos) with
            | Err e => (st (cs_fi s), Err e)
            | Ok fi => (st (Some fi), Ok tt)
            end
        end
    end.

  (** ["".join(sorted([a, b]))] *)
  Definition join2 (a b : string) : string := if String.leb a b then String.append a b else String.append b a.

  (** mean and first of a group, skipping missing values *)
  Definition mean_skip (l : list V) : V :=
    match filter (fun x => negb (n_isnan N x)) l with [] => n_nan N | vs => np_mean N vs end.

  (** _conditional_minimal_depth.py:54-64 [_compare_ovo].  The groups are listed in order of
      first appearance (pandas: sorted by id); they are sorted by value afterwards. *)
  Definition cmd_compare_ovo (s : cstate) : result (list (string * string * V)) :=
    match cs_ovo s with
    | None => Err MethodNotFitted
    | Some ovo =>
        let id r := join2 (cr_root r) (cr_var r) in
        let groups := map (fun k => let g := filter (fun r => String.eqb (id r) k) ovo in
                           (match g with r :: _ => (cr_root r, cr_var r) | [] => (EmptyString, EmptyString) end, mean_skip (map cr_value g)))
                          (dedup_by String.eqb (map id ovo)) in
        Ok (sort_values N srt true (fun r => snd r) groups)
    end.
End Forest.
Arguments cstate : clear implicits.
