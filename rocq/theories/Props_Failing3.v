(** C143, continued: what an AdditivityMeter keeps when [fit] raises. *)
From Verif Require Import Py Num NumR Sorting Frame Rng PdCalc PdApi PdMethods Additivity Props_Pd Props_Methods Props_Additivity Props_Failing Props_Failing2.
Open Scope string_scope.
Open Scope nat_scope.
Open Scope list_scope.

Section Kept.
  Context {C V G : Type} (O : cell_ops C) (N : num_ops V) (Rg : rng_ops G).

  (** the index is the one of the last call that returned; the predictions are those of before, or what the model answered for the rows in this call *)
  Theorem C143_additivity_kept s a s' e : add_fit O N Rg s a = (s', Err e) ->
    ad_index s' = ad_index s
    /\ (ad_preds s' = ad_preds s
        \/ exists Xs rng' n preds, sample_if_not_none Rg (ad_rng s) (aa_X a) (aa_n a) = Ok (Xs, rng') /\ callable (aa_pf a) n (f_rows Xs) = Ok preds /\ ad_preds s' = Some preds).
  Proof.
    unfold add_fit. destruct (sample_if_not_none Rg (ad_rng s) (aa_X a) (aa_n a)) as [[Xs rng']|e0]; [|intros H; injection H as <- _; auto].
    destruct (pick_calc O N _ Xs _ _ _) as [c|e0]; [|intros H; injection H as <- _; auto].
    destruct (calculate_pd_single O N c None) as [c1 [u|e0]]; [|intros H; injection H as <- _; auto].
    destruct (callable (aa_pf a) (length (c_log c1)) (f_rows Xs)) as [preds|e0] eqn:Ep; [|intros H; injection H as <- _; auto].
    destruct (bind _ _) as [[full v]|e0]; intros H; [discriminate|]. injection H as <- _. split; [reflexivity|]. right. exists Xs, rng', (length (c_log c1)), preds. auto.
  Qed.

  (** so after any sequence of calls the index is that of the last one that returned *)
  Fixpoint add_fits (s : astate C V G) (l : list (aargs C V)) : astate C V G * list (result V) :=
    match l with
    | [] => (s, [])
    | a :: l => let (s1, r) := add_fit O N Rg s a in let (s2, rs) := add_fits s1 l in (s2, r :: rs)
    end.
  Definition last_value (v0 : option V) (rs : list (result V)) : option V :=
    fold_left (fun v r => match r with Ok x => Some x | Err _ => v end) rs v0.
  Theorem C143_additivity_last s l s' rs : add_fits s l = (s', rs) -> ad_index s' = last_value (ad_index s) rs.
  Proof.
    revert s s' rs. induction l as [|a l IH]; intros s s' rs H; cbn in H; [injection H as <- <-; reflexivity|].
    destruct (add_fit O N Rg s a) as [s1 r] eqn:E. destruct (add_fits s1 l) as [s2 rs2] eqn:E2. injection H as <- <-.
    rewrite (IH _ _ _ E2). unfold last_value. cbn [fold_left]. f_equal. destruct r as [v|e]; [|apply (C143_additivity_kept s a s1 e E)].
    unfold add_fit in E. destruct (sample_if_not_none _ _ _ _) as [[Xs rng']|]; [|discriminate].
    destruct (pick_calc O N _ Xs _ _ _) as [c|]; [|discriminate]. destruct (calculate_pd_single O N c None) as [c1 [u|]]; [|discriminate].
    destruct (callable (aa_pf a) _ _) as [preds|]; [|discriminate]. destruct (bind _ _) as [[full x]|]; [|discriminate]. injection E as <- <-. reflexivity.
  Qed.
End Kept.

(** a call that returns, then one where the model raises: the index of the first stays *)
Example C143_additivity_last_example : exists v,
  snd (add_fits Zcell xQ rotR meter0 [mkadd exP exX; failing_args]) = [Ok (Fin v); Err PredictError]
  /\ ad_index (fst (add_fits Zcell xQ rotR meter0 [mkadd exP exX; failing_args])) = Some (Fin v).
Proof. eexists; split; vm_compute; reflexivity. Qed.

Print Assumptions C143_additivity_kept.
Print Assumptions C143_additivity_last.
