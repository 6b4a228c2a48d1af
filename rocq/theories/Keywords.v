(** * Keyword arguments of [plot]: artemis/visualizer/_visualizer.py

    [visualize] (Visual.v) takes the keyword arguments as a record; here they are the dictionary
    that the user passes, and the names under which the charts look for them. *)
From Coq Require Import List String.
From Verif Require Import Py Num Sorting Visual.
Import ListNotations.
Open Scope string_scope.
Open Scope list_scope.

Section Keywords.
  Context {V : Type} (N : num_ops V) (srt : sorter) (lower : string -> string).

  (** the values that are modelled; a dictionary maps names to values *)
  Inductive kwval := KStr (s : string) | KInt (n : nat) | KNum (v : V) | KBool (b : bool) | KDict (d : list (string * kwval)).
  Notation dict := (list (string * kwval)).

  Definition as_str (x : kwval) : option string := match x with KStr s => Some s | _ => None end.
  Definition as_int (x : kwval) : option nat := match x with KInt n => Some n | _ => None end.
  Definition as_num (x : kwval) : option V := match x with KNum v => Some v | KInt n => Some (n_ofZ N (Z.of_nat n)) | _ => None end.
  Definition as_bool (x : kwval) : option bool := match x with KBool b => Some b | _ => None end.

  (** [kwargs.pop(name, default)]: None where the value is not of the kind that is modelled,
      [Some None] where the name is missing *)
  Definition read {A} (conv : kwval -> option A) (name : string) (d : dict) : option (option A) :=
    match assoc String.eqb name d with
    | None => Some None
    | Some x => match conv x with Some a => Some (Some a) | None => None end
    end.
  Notation "'get' x <- e1 ; e2" := (match e1 with Some x => e2 | None => None end) (at level 200, x pattern, e1 at level 100, e2 at level 200).

  (** the names read by the charts: lines 118 (top_k), 165-171 (colour maps), 248-260 (graph),
      345, 378 (top_k), 479-484 (lollipop); [title] is a parameter of each chart *)
  Definition chart_kwargs (d : dict) : option (kwargs (V:=V)) :=
    get title <- read as_str "title" d;
    get top <- read as_int "top_k" d;
    get width <- read as_num "max_edge_width" d;
    get threshold <- read as_num "threshold_relevant_interaction" d;
    get nlabels <- read as_int "n_highest_with_labels" d;
    get icmap <- read as_str "interaction_color_map" d;
    get fcmap <- read as_str "importance_color_map" d;
    get trees <- read as_num "max_trees" d;
    get depth <- read as_int "max_depth" d;
    get lt <- read as_num "label_threshold" d;
    get labels <- read as_bool "labels" d;
    Some {| k_title := title; k_top := top; k_width := width; k_threshold := threshold; k_nlabels := nlabels; k_icmap := icmap; k_fcmap := fcmap;
            k_max_trees := trees; k_max_depth := depth; k_label_threshold := lt; k_labels := labels |}.
  Definition as_chart (x : kwval) : option (kwargs (V:=V)) := match x with KDict d => chart_kwargs d | _ => None end.

  (** lines 26-106 [plot], 419-422: 'summary' reads four names, the other charts their own *)
  Definition plot_kwargs (vis_type : string) (d : dict) : option (all_kwargs (V:=V)) :=
    if String.eqb vis_type "summary" then
      get h <- read as_chart "heatmap" d;
      get g <- read as_chart "graph" d;
      get b <- read as_chart "bar_chart_ovo" d;
      get a <- read as_chart "bar_chart_ova" d;
      Some {| k_own := no_kwargs; k_heatmap := h; k_graph := g; k_ovo := b; k_ova := a |}
    else
      get k <- chart_kwargs d;
      Some {| k_own := k; k_heatmap := None; k_graph := None; k_ovo := None; k_ova := None |}.
  (** None for values that are not modelled *)
  Definition plot_kw (m : imethod) (data : plot_data (V:=V)) (vis_type title : string) (d : dict) : option (result (figure (V:=V))) :=
    get k <- plot_kwargs vis_type d;
    Some (visualize N srt lower m data vis_type title k).
End Keywords.
Arguments kwval : clear implicits.
