(** C143, continued: calling the additivity meter and the partial dependence importance again after failures. *)
From Verif Require Import Py Num NumR Sorting Frame Rng PdCalc PdSpec PdFacts PdProofs PdTheorems PdErrors PdApi PdMethods MethodSpec PdMethodFacts PdMethodRun Additivity
  Props_Pd Props_Methods2 Props_Additivity Perm Failing Props_Failing.
From Coq Require Import QArith Lia.
Open Scope string_scope.
Open Scope nat_scope.
Open Scope list_scope.

Section Again.
  Context {C V G : Type} (O : cell_ops C) (N : num_ops V) (HO : cell_ok O) (Hnan : n_isnan N (n_nan N) = true) (Rg : rng_ops G) (HR : rng_ok Rg) (srt : sorter).
  Notation complete := (PdMethodRun.complete O).

  (** ** Specification *)
  (** a calculator of this model and data that was left behind after [n0] requests, some of which may have
      failed, and a model that answers by [g] from then on *)
  Definition left_behind (n0 m : nat) (Xs : frame C) (g : list C -> V) (c : calc C V) : Prop :=
    n0 <= length (c_log c) /\ exists P b, reachable O N m Xs P b c /\ rowwise P g /\ works_from P n0.

  Lemma add_fit_value s a rng' c c1 preds m P b g Xs : wf_frame Xs -> sample_if_not_none Rg (ad_rng s) (aa_X a) (aa_n a) = Ok (Xs, rng') ->
    pick_calc O N (aa_model a) Xs (aa_pf a) (aa_batch a) (aa_calc a) = Ok c -> reachable O N m Xs P b c -> rowwise P g -> rowwise (callable (aa_pf a)) g ->
    calculate_pd_single O N c None = (c1, Ok tt) -> callable (aa_pf a) (length (c_log c1)) (f_rows Xs) = Ok preds ->
    let out := additivity_of N (combine (f_cols Xs) (map (fun p => map (PD1_at N g (f_rows Xs) p) (f_rows Xs)) (seq 0 (length (f_cols Xs))))) (map g (f_rows Xs)) in
    add_fit O N Rg s a = ({| ad_rng := rng'; ad_calc := Some c1; ad_X := Some Xs; ad_preds := Some (map g (f_rows Xs)); ad_full := Some (fst out); ad_index := Some (snd out) |}, Ok (snd out)).
  Proof.
    intros HX Es Ec Hr Hg Hpf E1 Ep out. unfold add_fit. rewrite Es, Ec, E1, Ep, (effects_of O N HO Hnan Xs c c1 m P b g HX Hg Hr E1). cbn [bind].
    apply Hpf in Ep. subst preds. rewrite map_length, Nat.eqb_refl. fold out. destruct out. reflexivity.
  Qed.

  (** the second call, with the calculator the failed calls left behind, against a call of a model that never fails *)
  Theorem C143_additivity_again n0 s1 a1 s1' r1 s2 a2 s2' r2 c g Xs rng1 rng2 : wf_frame (aa_X a1) ->
    sample_if_not_none Rg (ad_rng s1) (aa_X a1) (aa_n a1) = Ok (Xs, rng1) -> sample_if_not_none Rg (ad_rng s2) (aa_X a2) (aa_n a2) = Ok (Xs, rng2) -> complete Xs ->
    add_explains_total O N a1 g Xs -> add_fit O N Rg s1 a1 = (s1', r1) ->
    aa_calc a2 = Some c -> left_behind n0 (md_id (aa_model a2)) Xs g c -> rowwise (callable (aa_pf a2)) g -> works_from (callable (aa_pf a2)) n0 -> add_fit O N Rg s2 a2 = (s2', r2) ->
    (exists v, r1 = Ok v) /\ r2 = r1 /\ ad_index s2' = ad_index s1' /\ ad_full s2' = ad_full s1' /\ ad_preds s2' = ad_preds s1' /\ ad_X s2' = ad_X s1'.
  Proof.
    intros HX0 Es1 Es2 Hc H1 F1 Ea (Hn & P & b & Hr & Hg & Ht) Hpf Htp F2. destruct (sample_wf Rg _ _ _ _ _ HR HX0 Es1) as (HX & _).
    destruct H1 as (Hpf1 & Htp1 & Hc1).
    assert (Hp : exists c0 P b, pick_calc O N (aa_model a1) Xs (aa_pf a1) (aa_batch a1) (aa_calc a1) = Ok c0 /\ reachable O N (md_id (aa_model a1)) Xs P b c0 /\ rowwise P g /\ total P).
    { destruct (aa_calc a1) as [c9|].
      - destruct Hc1 as (P1 & b1 & A & B & D). exists c9, P1, b1. split; [|auto]. eapply (pick_calc_ok O N HO); [exact HX|exact A|reflexivity].
      - exists (calc_init O N (md_id (aa_model a1)) Xs (callable (aa_pf a1)) (aa_batch a1)), (callable (aa_pf a1)), (aa_batch a1). split; [reflexivity|]. split; [exists []; reflexivity|auto]. }
    destruct Hp as (c0 & P1 & b1 & Ec & A & B & D).
    destruct (single_run O N HO Xs P1 b1 _ c0 None HX D Hc A (fun f H => H)) as (c1 & E1 & _). destruct (Htp1 (length (c_log c1)) (f_rows Xs)) as (p1 & Ep1).
    rewrite (add_fit_value s1 a1 rng1 c0 c1 p1 _ P1 b1 g Xs HX Es1 Ec A B Hpf1 E1 Ep1) in F1.
    destruct (single_again O N HO n0 Xs P b _ c None HX Ht Hc (conj Hr Hn) (fun f H => H)) as (c2 & E2 & _ & Hn2). destruct (Htp (length (c_log c2)) (f_rows Xs) Hn2) as (p2 & Ep2).
    rewrite (add_fit_value s2 a2 rng2 c c2 p2 (md_id (aa_model a2)) P b g Xs HX Es2) in F2; try assumption; [|rewrite Ea; eapply (pick_calc_ok O N HO); [exact HX|exact Hr|reflexivity]].
    injection F1 as <- <-. injection F2 as <- <-. cbn. split; [eauto|]. repeat split; reflexivity.
  Qed.

  Theorem C143_importance_again n0 g1 md1 X1 n1 pf1 fs1 bs1 given1 c1' r1 g2 md2 X2 n2 pf2 fs2 bs2 c c2' r2 g Xs rng1 rng2 : wf_frame X1 ->
    sample_if_not_none Rg g1 X1 n1 = Ok (Xs, rng1) -> sample_if_not_none Rg g2 X2 n2 = Ok (Xs, rng2) -> complete Xs ->
    let fs := match fs1 with None => f_cols X1 | Some l => l end in
    match fs2 with None => f_cols X2 | Some l => l end = fs -> (forall f, In f fs -> In f (f_cols Xs)) ->
    rowwise (callable (get_predict_function md1 pf1)) g -> total (callable (get_predict_function md1 pf1)) ->
    match given1 with None => True | Some c => exists P b, reachable O N (md_id md1) Xs P b c /\ rowwise P g /\ total P end ->
    pd_importance O N Rg srt g1 md1 X1 n1 pf1 fs1 bs1 given1 = (c1', r1) ->
    left_behind n0 (md_id md2) Xs g c -> pd_importance O N Rg srt g2 md2 X2 n2 pf2 fs2 bs2 (Some c) = (c2', r2) -> r2 = r1.
  Proof.
    intros HX0 Es1 Es2 Hc fs Hfs Hin Hpf Htp Hg1 F1 (Hn & P & b & Hr & Hg & Ht) F2. destruct (sample_wf Rg _ _ _ _ _ HR HX0 Es1) as (HX & _).
    unfold pd_importance in F1, F2. rewrite Es1 in F1. rewrite Es2 in F2. fold fs in F1. rewrite Hfs in F2.
    rewrite (pick_calc_ok O N HO md2 Xs (get_predict_function md2 pf2) bs2 _ P b c HX Hr eq_refl) in F2.
    destruct (pdp_importance_again O N HO Hnan srt n0 Xs fs c _ P b g HX Hg Ht Hc (conj Hr Hn) Hin) as (c2 & E2 & _). rewrite E2 in F2. injection F2 as _ <-.
    assert (Hp : exists c0 P b, pick_calc O N md1 Xs (get_predict_function md1 pf1) bs1 given1 = Ok c0 /\ reachable O N (md_id md1) Xs P b c0 /\ rowwise P g /\ total P).
    { destruct given1 as [c9|].
      - destruct Hg1 as (P1 & b1 & A & B & D). exists c9, P1, b1. split; [|auto]. eapply (pick_calc_ok O N HO); [exact HX|exact A|reflexivity].
      - exists (calc_init O N (md_id md1) Xs (callable (get_predict_function md1 pf1)) bs1), (callable (get_predict_function md1 pf1)), bs1. split; [reflexivity|]. split; [exists []; reflexivity|auto]. }
    destruct Hp as (c0 & P1 & b1 & Ec & A & B & D). rewrite Ec in F1.
    destruct (pdp_importance_run O N HO Hnan srt Xs fs c0 _ P1 b1 g HX B D Hc A Hin) as (c3 & E3 & _). rewrite E3 in F1. injection F1 as _ <-. reflexivity.
  Qed.
End Again.

(** ** Example: the model that raises at its second request *)
Definition meter_calc := match ad_calc (fst (add_fit Zcell xQ rotR meter0 failing_args)) with Some c => c | None => calc_init Zcell xQ 0 exX fP 3 end.
Definition again_args : aargs Z (ext Q) := {| aa_model := a_model fresh; aa_X := exX; aa_n := None; aa_predict := None; aa_batch := 3%Z; aa_calc := Some meter_calc |}.
Example C143_additivity_again_example :
  left_behind Zcell xQ 2 (md_id (aa_model again_args)) exX exg meter_calc
  /\ snd (add_fit Zcell xQ rotR meter0 failing_args) = Err PredictError
  /\ (exists v, snd (add_fit Zcell xQ rotR meter0 again_args) = Ok (Fin v) /\ snd (add_fit Zcell xQ rotR meter0 (mkadd exP exX)) = Ok (Fin v))
  /\ (exists t, snd (pd_importance Zcell xQ rotR isort 0 (a_model fresh) exX None None None 3 (Some meter_calc)) = Ok t
      /\ snd (pd_importance Zcell xQ rotR isort 0 (aa_model (mkadd exP exX)) exX None None None 3 None) = Ok t).
Proof.
  split; [|split; [vm_compute; reflexivity|]].
  - split; [apply Nat.leb_le; vm_compute; reflexivity|]. exists fP, 3%Z. split; [exists [OpSingle None]; vm_compute; reflexivity|].
    split; [intros n rows ys; unfold fP; destruct (n =? 1); [discriminate|congruence]|]. intros n rows Hn; unfold fP; destruct (Nat.eqb_spec n 1); [lia|eauto].
  - split; eexists; split; vm_compute; reflexivity.
Qed.

Print Assumptions C143_additivity_again.
Print Assumptions C143_importance_again.
