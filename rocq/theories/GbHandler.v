(** Model of a [GBTreesHandler] object that is used more than once:
    artemis/_utilities/_handler.py:6-36, and
    artemis/interactions_methods/model_specific/gb_trees/_split_score.py:60-104 for what a fit reads from it. *)
From Verif Require Import Py Num Sorting Frame CondDepth SplitScore.
Open Scope string_scope.
Open Scope nat_scope.
Open Scope list_scope.

Section GbHandler.
  Context {V : Type} (N : num_ops V) (srt : sorter).

  (** the attributes of the object; None before the first assignment *)
  Record hobject := { ho_package : option string; ho_trees : option (list (urow V)) }.
  (** _handler.py:18-25 [__init__] without a model *)
  Definition ho_new : hobject := {| ho_package := None; ho_trees := None |}.

  (** what is passed to [unify_structure]: the name of the class, and what [get_booster],
      [booster_] and [trees_to_dataframe] give or raise *)
  Record hmodel := { hm_class : string; hm_dump : result (dump V) }.

  (** _handler.py:39-64 [_get_unified_trees_df]; a table of the other package lacks the columns to
      drop *)
  Definition unified_trees (p : string) (d : dump V) : result (list (urow V)) :=
    if String.eqb p "xgboost" then match d with XDump rows => Ok (map unify_xgb rows) | LDump _ => Err KeyError end
    else match d with LDump rows => Ok (map unify_lgb rows) | XDump _ => Err KeyError end.

  (** _handler.py:27-36 [unify_structure]: the package is set before it is checked *)
  Definition unify_again (h : hobject) (m : hmodel) : hobject * result unit :=
    let p := before_dot (hm_class m) in
    let h1 := {| ho_package := Some p; ho_trees := ho_trees h |} in
    if String.eqb p "xgboost" || String.eqb p "lightgbm" then
      match (do d <- hm_dump m; unified_trees p d) with
      | Ok t => ({| ho_package := Some p; ho_trees := Some t |}, Ok tt)
      | Err e => (h1, Err e)
      end
    else (h1, Err ModelNotSupported).

  (** a sequence of calls, whatever they raise *)
  Definition unify_all (h : hobject) (ms : list hmodel) : hobject := fold_left (fun h m => fst (unify_again h m)) ms h.

  (** _split_score.py:290-295: the check looks for "lightgbm" *)
  Definition check_package (p im fm : string) : result unit :=
    if String.eqb p "lightgbm" then
      if lgbm_unsupported im then Err MetricNotSupported else if lgbm_unsupported fm then Err MetricNotSupported else Ok tt
    else Ok tt.
  (** _split_score.py:215, 223 and 233 look for "xgboost" *)
  Definition as_package (p : string) : package := if String.eqb p "xgboost" then Xgboost else Lightgbm.

  (** _split_score.py:60-104 [fit] on the object *)
  Definition fit_object (s : sstate V) (h : hobject) (im fm : string) (only_def : bool) : sstate V * result unit :=
    let s1 := {| ss_metric := Some im; ss_full_result := ss_full_result s; ss_full_ovo := ss_full_ovo s; ss_ovo := ss_ovo s; ss_fi := ss_fi s; ss_fi_metric := ss_fi_metric s |} in
    match (do p <- (match ho_package h with Some p => Ok p | None => Err AttributeError end);
           do _ <- check_package p im fm;
           do t <- (match ho_trees h with Some t => Ok t | None => Err AttributeError end);
           do full <- full_result N (as_package p) t; Ok (t, full)) with
    | Err e => (s1, Err e)
    | Ok (t, full) =>
        let fovo := get_summary N srt full only_def in
        let s2 ovo fi fim := {| ss_metric := Some im; ss_full_result := Some full; ss_full_ovo := Some fovo; ss_ovo := ovo; ss_fi := fi; ss_fi_metric := fim |} in
        match get_ovo N srt (ascending_metric im) fovo im with
        | Err e => (s2 (ss_ovo s) (ss_fi s) (ss_fi_metric s), Err e)
        | Ok ovo =>
            match split_importance N srt None fm t with
            | Err e => (s2 (Some ovo) (ss_fi s) None, Err e)
            | Ok fi => (s2 (Some ovo) (Some fi) (Some fm), Ok tt)
            end
        end
    end.
End GbHandler.
Arguments hobject : clear implicits.
Arguments hmodel : clear implicits.
