(** * The nodes of an interaction graph: artemis/visualizer/_visualizer.py lines 250 and 288-300

    [plot_graph] (Visual.v) keeps the importances a graph is drawn from; here are the nodes that
    are passed to [networkx.draw]: [nodelist] and [node_size]. *)
From Coq Require Import List String.
From Verif Require Import Py Num Visual.
Import ListNotations.
Open Scope list_scope.

Section Nodes.
  Context {V : Type} (N : num_ops V).

  (** lines 291-301: with importances, the listed features, each with
      [node_size * val / np.max(importances)] ([np.max] of a column skips missing values); without
      importances [networkx] draws its own nodes, all of size [node_size] (here: none listed).
      [size] is the argument [node_size], by default the number 1800 (_configuration.py line 17). *)
  Definition graph_nodes (size : V) (p : @panel V) : list (string * V) :=
    match p with
    | PGraph _ _ _ (Some fi) _ => map (fun r => (fst r, n_div N (n_mul N size (snd r)) (series_max N (map snd fi)))) fi
    | _ => []
    end.
  Definition figure_nodes (size : V) (f : @figure V) : list (string * V) := flat_map (graph_nodes size) (snd f).
End Nodes.
