(** The fitted methods as the comparator sees them (artemis/comparison/_method_comparator.py reads
    [method], [_interactions_ascending_order], [_compare_ovo] and [interaction_value]). *)
From Verif Require Import Py Num Sorting Frame Rng PdCalc PdMethods Perm CondDepth SplitScore Comparator Visual.

Section Compared.
  Context {V : Type} (N : num_ops V) (srt : sorter).

  (** partial_dependence_based/_pdp.py:28-30 ([_interactions_ascending_order]
      is False), _method.py:54-58 for the table *)
  Definition pd_compared {C G : Type} (k : kind) (s : mstate C V G) : mview V :=
    {| mv_name := method_name (match k with Friedman _ => HStatistic | Greenwell => VariableInteraction end);
       mv_ascending := false;
       mv_compare := compare_table N srt false (m_ovo s) |}.
  (** _sejong_oh.py:63-65, the same with its own table *)
  Definition sj_compared {C G : Type} (s : Perm.sstate C V G) : mview V :=
    {| mv_name := method_name PerformanceBased; mv_ascending := false; mv_compare := compare_table N srt false (sj_ovo s) |}.
  (** _conditional_minimal_depth.py:49-64 *)
  Definition cmd_compared (s : cstate V) : mview V :=
    {| mv_name := method_name ConditionalDepth; mv_ascending := true; mv_compare := cmd_compare_ovo N srt s |}.
  (** _split_score.py:56-58 *)
  Definition ss_compared (s : @SplitScore.sstate V) : mview V :=
    {| mv_name := method_name SplitScoreM; mv_ascending := ss_ascending s; mv_compare := ss_compare_ovo N srt s |}.
End Compared.
