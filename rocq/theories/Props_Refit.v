(** C99: a refit does not depend on what the object was used for before. *)
From Verif Require Import Py Num NumR Sorting Frame Rng PdCalc PdSpec PdMethods PdMethodFacts Props_Methods2 Additivity Perm CondDepth SplitScore Props_Zen2 Props_Perm Props_Share Props_Forest Props_Split2 Props_Additivity.
From Coq Require Import QArith.
Open Scope string_scope.
Open Scope nat_scope.
Open Scope list_scope.

Section Refit.
  Context {C V G : Type} (O : cell_ops C) (N : num_ops V) (R : rng_ops G) (srt : sorter).

  (** the sample does not depend on the generator when all rows are used *)
  Definition same_sample (n : option nat) (g1 g2 : G) : Prop := n = None \/ g1 = g2.

  Lemma sample_same g1 g2 (X : frame C) n : same_sample n g1 g2 ->
    match sample_if_not_none R g1 X n, sample_if_not_none R g2 X n with
    | Ok (X1, h1), Ok (X2, h2) => X1 = X2 /\ (g1 = g2 -> h1 = h2)
    | Err e1, Err e2 => e1 = e2
    | _, _ => False
    end.
  Proof.
    intros [->| ->]; cbn; [auto|]. destruct (sample_if_not_none R g2 X n) as [[X1 h1]|e]; auto.
  Qed.

  Theorem C99_pd_partial k s1 s2 (a : fargs C V) s1' s2' r1 r2 : same_sample (a_n a) (m_rng s1) (m_rng s2) ->
    PdMethods.fit O N R srt k s1 a = (s1', r1) -> PdMethods.fit O N R srt k s2 a = (s2', r2) ->
    r1 = r2
    /\ (r1 = Ok tt -> m_X s1' = m_X s2' /\ m_calc s1' = m_calc s2' /\ m_ovo s1' = m_ovo s2' /\ m_fi s1' = m_fi s2' /\ m_features s1' = m_features s2'
        /\ (k <> Greenwell -> a_ova a = true -> m_ova s1' = m_ova s2')).
  Proof.
    intros Hn H1 H2. unfold PdMethods.fit, fit_base in H1, H2. pose proof (sample_same _ _ (a_X a) _ Hn) as Hs.
    destruct (sample_if_not_none R (m_rng s1) (a_X a) (a_n a)) as [[X1 g1]|e1], (sample_if_not_none R (m_rng s2) (a_X a) (a_n a)) as [[X2 g2]|e2]; try contradiction;
      [|injection H1 as <- <-; injection H2 as <- <-; split; [congruence|discriminate]].
    destruct Hs as [<- _].
    destruct (pick_calc O N (a_model a) X1 _ _ _) as [c|e]; [|injection H1 as <- <-; injection H2 as <- <-; split; [congruence|discriminate]].
    destruct (ovo_of _ _ _ _ _ _ _ c) as [c1 [t|e]]; [|injection H1 as <- <-; injection H2 as <- <-; split; [congruence|discriminate]].
    unfold pd_importance in H1, H2. cbn [sample_if_not_none] in H1, H2.
    destruct (pick_calc O N (a_model a) X1 _ 2000 (Some c1)) as [c1'|e]; [|injection H1 as <- <-; injection H2 as <- <-; split; [congruence|discriminate]].
    destruct (pdp_importance _ _ _ _ _ c1') as [c2 [fi|e]]; [|injection H1 as <- <-; injection H2 as <- <-; split; [congruence|discriminate]].
    cbn [m_calc m_X m_features m_predict m_rng m_ova m_ovo m_fi] in H1, H2. destruct k as [norm|].
    - destruct (a_ova a); [|injection H1 as <- <-; injection H2 as <- <-; cbn; intuition congruence].
      destruct (friedman_ova _ _ _ _ _ _ _ c2) as [c3 [ova|e]]; injection H1 as <- <-; injection H2 as <- <-; cbn; intuition congruence.
    - injection H1 as <- <-. injection H2 as <- <-. cbn. intuition congruence.
  Qed.

  Theorem C99_additivity_partial s1 s2 (a : aargs C V) s1' s2' r1 r2 : same_sample (aa_n a) (ad_rng s1) (ad_rng s2) ->
    add_fit O N R s1 a = (s1', r1) -> add_fit O N R s2 a = (s2', r2) ->
    r1 = r2 /\ (forall v, r1 = Ok v -> ad_X s1' = ad_X s2' /\ ad_calc s1' = ad_calc s2' /\ ad_preds s1' = ad_preds s2' /\ ad_full s1' = ad_full s2' /\ ad_index s1' = ad_index s2').
  Proof.
    intros Hn H1 H2. unfold add_fit in H1, H2. pose proof (sample_same _ _ (aa_X a) _ Hn) as Hs.
    destruct (sample_if_not_none R (ad_rng s1) (aa_X a) (aa_n a)) as [[X1 g1]|e1], (sample_if_not_none R (ad_rng s2) (aa_X a) (aa_n a)) as [[X2 g2]|e2]; try contradiction;
      [|injection H1 as <- <-; injection H2 as <- <-; split; [congruence|discriminate]].
    destruct Hs as [<- _].
    destruct (pick_calc _ _ _ _ _ _ _) as [c|e]; [|injection H1 as <- <-; injection H2 as <- <-; split; [congruence|discriminate]].
    destruct (calculate_pd_single _ _ _ _) as [c1 [u|e]]; [|injection H1 as <- <-; injection H2 as <- <-; split; [congruence|discriminate]].
    destruct (callable _ _ _) as [preds|e]; [|injection H1 as <- <-; injection H2 as <- <-; split; [congruence|discriminate]].
    destruct (bind _ _) as [[full v]|e]; injection H1 as <- <-; injection H2 as <- <-; (split; [congruence|]); [intros; cbn; auto 6|discriminate].
  Qed.

  Theorem C99_forest s1 s2 m s1' s2' r1 r2 : cmd_fit (V := V) N srt s1 m = (s1', r1) -> cmd_fit N srt s2 m = (s2', r2) -> r1 = r2 /\ (r1 = Ok tt -> s1' = s2').
  Proof.
    unfold cmd_fit. intros H1 H2. destruct (fo_names m); [|injection H1 as <- <-; injection H2 as <- <-; split; [congruence|discriminate]].
    destruct (calculate_cmd _ _) as [[raw infos]|e]; [|injection H1 as <- <-; injection H2 as <- <-; split; [congruence|discriminate]].
    destruct (minimal_depth_importance _ _ _ _); injection H1 as <- <-; injection H2 as <- <-; split; congruence.
  Qed.

  Theorem C99_split s1 s2 arg im fm od s1' s2' r1 r2 : ss_fit (V := V) N srt s1 arg im fm od = (s1', r1) -> ss_fit N srt s2 arg im fm od = (s2', r2) -> r1 = r2 /\ (r1 = Ok tt -> s1' = s2').
  Proof.
    unfold ss_fit. intros H1 H2. destruct (match arg with Model m => _ | Handler h => _ end) as [h|e]; [|injection H1 as <- <-; injection H2 as <- <-; split; [congruence|discriminate]].
    destruct (check_metrics (h_package h) im fm) as [u|e]; [|injection H1 as <- <-; injection H2 as <- <-; split; [congruence|discriminate]].
    destruct (full_result _ _ _) as [fr|e]; [|injection H1 as <- <-; injection H2 as <- <-; split; [congruence|discriminate]].
    destruct (get_ovo _ _ _ _ _) as [ov|e]; [|injection H1 as <- <-; injection H2 as <- <-; split; [congruence|discriminate]].
    destruct (split_importance _ _ _ _ _); injection H1 as <- <-; injection H2 as <- <-; split; congruence.
  Qed.

  (** permutations use the generator even if all rows are used *)
  Theorem C99_performance_partial m entropy s1 s2 (a : sargs C V) s1' s2' r1 r2 l1 l2 : sj_rng s1 = sj_rng s2 ->
    sj_fit N R srt m entropy s1 a = (s1', r1, l1) -> sj_fit N R srt m entropy s2 a = (s2', r2, l2) -> r1 = r2 /\ l1 = l2 /\ (r1 = Ok tt -> s1' = s2').
  Proof.
    unfold sj_fit. intros Hg H1 H2. rewrite Hg in H1. destruct (sample_both _ _ _ _ _) as [[[Xs ys] g1]|e]; [|injection H1 as <- <- <-; injection H2 as <- <- <-; split; [congruence|split; [congruence|discriminate]]].
    destruct (perf_based_ovo _ _ _ _ _ _ _ _ _ _) as [st [t|e]]; [|injection H1 as <- <- <-; injection H2 as <- <- <-; split; [congruence|split; [congruence|discriminate]]].
    destruct (permutation_importance _ _ _ _ _ _ _ _ _ _) as [st2 [fi|e]]; injection H1 as <- <- <-; injection H2 as <- <- <-; (split; [congruence|split; congruence]).
  Qed.
End Refit.

Definition rfA : fargs Z (ext Q) :=
  {| a_model := a_model (mkargs zP zX None false None); a_X := zX; a_n := Some 3; a_predict := None; a_features := None; a_batch := 3; a_calc := None; a_ova := false |}.
Definition rf1 := fst (fitQ (Friedman true) init0 rfA).
Definition rf2 := fst (fitQ (Friedman true) rf1 rfA).

(** with a sample the second fit of an object, with the same arguments, has another outcome: the
    generator is made once, when the object is made *)
Theorem C99_sampled_refuted :
  exists (a : fargs Z (ext Q)) s1 s2, fitQ (Friedman true) init0 a = (s1, Ok tt) /\ fitQ (Friedman true) s1 a = (s2, Ok tt)
    /\ m_ovo s1 = Some [("a", "c", Fin (100 # 2161)); ("b", "c", Fin (1 # 1987)); ("a", "b", Fin 0%Q)]
    /\ m_ovo s2 = Some [("a", "c", Fin (25 # 1636)); ("b", "c", Fin (1 # 3139)); ("a", "b", Fin 0%Q)].
Proof. exists rfA, rf1, rf2. repeat (split; [vm_compute; reflexivity|]). vm_compute. reflexivity. Qed.
(** the permutation method, with all rows *)
Definition rfP := ex_args times (ex_y [0; 0; 3; 35; 40]%Z) None 1.
Definition rfs1 := fst (fst (ex_fit (MSE xQ) 5 (sj_init 1) rfP)).
Definition rfs2 := fst (fst (ex_fit (MSE xQ) 5 rfs1 rfP)).
Theorem C99_performance_refuted :
  exists (a : sargs Z (ext Q)) s1 s2 l1 l2, sa_n a = None /\ ex_fit (MSE xQ) 5 (sj_init 1) a = (s1, Ok tt, l1) /\ ex_fit (MSE xQ) 5 s1 a = (s2, Ok tt, l2)
    /\ sj_ovo s1 = Some [("a", "b", Fin (4806 # 5))] /\ sj_ovo s2 = Some [("a", "b", Fin (472 # 5))].
Proof. exists rfP, rfs1, rfs2. do 2 eexists. split; [reflexivity|]. repeat (split; [vm_compute; reflexivity|]). vm_compute. reflexivity. Qed.

(** an object fitted before and a new one *)
Example C99_pd_example :
  let a := mkargs zP zX' None false None in
  same_sample (a_n a) (m_rng zS2) (m_rng (m_init 5 : mstate Z (ext Q) nat))
  /\ snd (fitQ Greenwell zS2 a) = Ok tt /\ m_ovo zS2 <> None /\ m_ovo (fst (fitQ Greenwell zS2 a)) <> m_ovo zS2
  /\ m_ovo (fst (fitQ Greenwell zS2 a)) = m_ovo (fst (fitQ Greenwell (m_init 5) a)).
Proof. cbv zeta. split; [left; reflexivity|]. split; [vm_compute; reflexivity|]. split; [vm_compute; discriminate|]. split; [vm_compute; discriminate|vm_compute; reflexivity]. Qed.
Example C99_additivity_example :
  let a := mkadd (adP (fun x y => x * y)%Z) (adX ["a"; "b"] [[0;0];[0;1];[1;0];[1;1]]%Z) in
  let old := fst (add_fit Zcell xQ rotR ad0 (mkadd (adP (fun x y => 2 * x + y * y)%Z) (adX ["a"; "b"] [[0;0];[1;3];[2;1];[2;2]]%Z))) in
  same_sample (aa_n a) (ad_rng old) (ad_rng (ad0 : astate Z (ext Q) nat)) /\ ad_index old = Some (Fin 1%Q) /\ snd (add_fit Zcell xQ rotR old a) = Ok (Fin (2 # 3)%Q) /\ snd (add_fit Zcell xQ rotR ad0 a) = Ok (Fin (2 # 3)%Q).
Proof. cbv zeta. split; [left; reflexivity|]. repeat (split; [vm_compute; reflexivity|]). vm_compute. reflexivity. Qed.
Example C99_trees_example :
  let old := fst (ss_fit xQ isort ss_init (Model (xgb_of ex_ts)) "sum_gain" "sum_gain" false) in
  ss_ovo old <> None /\ snd (ss_fit xQ isort old (Model (xgb_of (firstn 1 ex_ts))) "mean_depth" "sum_gain" false) = Ok tt
  /\ ss_ovo (fst (ss_fit xQ isort old (Model (xgb_of (firstn 1 ex_ts))) "mean_depth" "sum_gain" false)) <> ss_ovo old
  /\ snd (cmd_fit xQ isort (fst (cmd_fit xQ isort cs_init ex_forest)) {| fo_names := Some ["y"; "x"]; fo_trees := fo_trees ex_forest |}) = Ok tt.
Proof. cbv zeta. split; [vm_compute; discriminate|]. split; [vm_compute; reflexivity|]. split; [vm_compute; discriminate|]. vm_compute. reflexivity. Qed.

Print Assumptions C99_pd_partial.
Print Assumptions C99_additivity_partial.
Print Assumptions C99_forest.
Print Assumptions C99_split.
Print Assumptions C99_performance_partial.
Print Assumptions C99_sampled_refuted.
Print Assumptions C99_performance_refuted.
