(** Model of the messages of the library's own errors: artemis/_utilities/exceptions.py, with the
    places that raise them.  The other files record only the class of an error; here its text is
    added. *)
From Verif Require Import Py Num Sorting Frame SplitScore Visual.
Open Scope string_scope.
Open Scope list_scope.

(** exceptions.py:1-45: one constructor per class, with the arguments of its [__init__] *)
Inductive report :=
| UnsupportedChart (method vis_type : string)
| UnsupportedMethod (method : string)
| NotFitted (method : string)
| UnsupportedModel (package model_class : string)
| UnsupportedMetric (package metric : string)
| WithoutInteraction (importance interaction : string).

(** the class of the error *)
Definition report_kind (r : report) : exn :=
  match r with
  | UnsupportedChart _ _ => VisualizationNotSupported
  | UnsupportedMethod _ => MethodNotSupported
  | NotFitted _ => MethodNotFitted
  | UnsupportedModel _ _ => ModelNotSupported
  | UnsupportedMetric _ _ => MetricNotSupported
  | WithoutInteraction _ _ => ImportanceWithoutInteraction
  end.

(** the text: exceptions.py:5-7, 13, 19, 26-28, 36, 44-47 *)
Definition message (r : report) : string :=
  (match r with
   | UnsupportedChart m v => "Visualization type: " ++ v ++ " is not supported for " ++ m
   | UnsupportedMethod m => "Method: " ++ m ++ " is not supported"
   | NotFitted m => "Method: " ++ m ++ " is was not fitted. Execute fit() first."
   | UnsupportedModel p c => "Model of class " ++ c ++ " from the " ++ p ++ " package is not supported"
   | UnsupportedMetric p m => "Metric " ++ m ++ " is not supported for model from the " ++ p ++ " package"
   | WithoutInteraction a b => "Feature importance method " ++ a ++ " can be only " ++ "calculated together with its " ++ b ++ " counterpart. "
   end)%string.

(** ** The class of a model: _handler.py:28-29 *)

Definition newline : Ascii.ascii := Ascii.ascii_of_nat 10.
Fixpoint after_prefix (p s : string) : option string :=
  match p, s with
  | EmptyString, _ => Some s
  | String a p', String b s' => if Ascii.eqb a b then after_prefix p' s' else None
  | _, _ => None
  end.
(** [.*] followed by ['>], taking as much as possible; the dot does not match a line break *)
Fixpoint greedy (s : string) : option string :=
  match s with
  | EmptyString => None
  | String c t =>
      if Ascii.eqb c newline then None
      else match greedy t with
           | Some q => Some (String c q)
           | None => match after_prefix "'>" s with Some _ => Some EmptyString | None => None end
           end
  end.
(** [search("(?<=<class ').*(?='>)", s)[0]]: the leftmost place after [<class '] *)
Fixpoint class_in (s : string) : option string :=
  match s with
  | EmptyString => None
  | String _ t =>
      match after_prefix "<class '" s with
      | Some rest => match greedy rest with Some q => Some q | None => class_in t end
      | None => class_in t
      end
  end.
(** [str(type(model))] for a class with this qualified name *)
Definition type_text (c : string) : string := ("<class '" ++ c ++ "'>")%string.

(** ** What is raised where *)

(** _handler.py:27-31 [unify_structure]; None: no error of the library's own *)
Definition model_report (typ : string) : option report :=
  match class_in typ with
  | Some c => if String.eqb (before_dot c) "xgboost" || String.eqb (before_dot c) "lightgbm" then None else Some (UnsupportedModel (before_dot c) c)
  | None => None
  end.
(** _split_score.py:290-295 [_check_metrics_with_available_info] *)
Definition metric_report (package im fm : string) : option report :=
  if String.eqb package "lightgbm" then
    if lgbm_unsupported im then Some (UnsupportedMetric package im) else if lgbm_unsupported fm then Some (UnsupportedMetric package fm) else None
  else None.
(** _method.py:141-142 and the [plot] methods of the subclasses, then _visualizer.py:43-44 *)
Definition plot_report (m : imethod) (fitted : bool) (vis_type : string) : option report :=
  if fitted then (if str_in vis_type (accepted_visualizations m) then None else Some (UnsupportedChart (method_name m) vis_type)) else Some (NotFitted (method_name m)).
(** _configuration.py:105-119 [get] *)
Definition config_report (method : string) : option report :=
  if str_in method (map method_name [HStatistic; VariableInteraction; PerformanceBased; SplitScoreM; ConditionalDepth]) then None else Some (UnsupportedMethod method).
(** _method_comparator.py:222-227 [_assert_fitted_ovo]: [_compare_ovo] itself raises for a method
    that is not fitted (_method.py:56-57) *)
Definition comparison_report (m1 m2 : imethod) (fitted1 fitted2 : bool) : option report :=
  if fitted1 then (if fitted2 then None else Some (NotFitted (method_name m2))) else Some (NotFitted (method_name m1)).
(** _minimal_depth.py:84-88 [_check_preconditions] *)
Definition depth_report (trees_given : bool) : option report :=
  if trees_given then None else Some (WithoutInteraction "Minimal Depth Based Importance" (method_name ConditionalDepth)).
