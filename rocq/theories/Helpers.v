(** Model of the remaining helpers: [remove_element] and [partial_dependence_value]
    (artemis/_utilities/ops.py:11-15, 44-47) and PartialDependenceVisualizer
    (artemis/visualizer/_pdp_visualizer.py). *)
From Verif Require Import Py Num Frame PdCalc.
Open Scope string_scope.
Open Scope nat_scope.
Open Scope list_scope.

(** ops.py:11-15 [remove_element]: [list.remove] drops the first occurrence *)
Fixpoint remove_element (columns : list string) (column : string) : result (list string) :=
  match columns with
  | [] => Err ValueError
  | c :: t => if String.eqb c column then Ok t else do r <- remove_element t column; Ok (c :: r)
  end.

Section Value.
  Context {C V : Type} (N : num_ops V).

  (** ops.py:44-47 [partial_dependence_value]; [change] is the dict, so its keys are distinct *)
  Definition partial_dependence_value (X : frame C) (change : list (string * C)) (predict : list (list C) -> result (list V)) : result V :=
    if forallb (fun e => str_in (fst e) (f_cols X)) change
    then do ys <- predict (assign_rows X change); Ok (np_mean N ys)
    else Err AssertionError.
End Value.

(** the parameters of sklearn's PartialDependenceDisplay.from_estimator (1.1 to 1.5), which
    takes no further keywords *)
Definition from_estimator_parameters : list string :=
  ["estimator"; "X"; "features"; "sample_weight"; "categorical_features"; "feature_names"; "target"; "response_method";
   "n_cols"; "grid_resolution"; "percentiles"; "method"; "n_jobs"; "verbose"; "line_kw"; "ice_lines_kw"; "pd_line_kw";
   "contour_kw"; "ax"; "kind"; "centered"; "subsample"; "random_state"].

(** a Python call: unknown keywords raise TypeError, otherwise the callee runs *)
Definition call_with {A} (parameters keywords : list string) (body : result A) : result A :=
  if forallb (fun k => str_in k parameters) keywords then body else Err TypeError.

(** _pdp_visualizer.py:36-63 [plot]; [kwargs] are the names of the caller's extra keywords and
    [body] what sklearn would do *)
Definition pd_visualizer_plot {A} (kwargs : list string) (body : result A) : result A :=
  call_with from_estimator_parameters (["grid_resolution"; "_ax"] ++ kwargs) body.
