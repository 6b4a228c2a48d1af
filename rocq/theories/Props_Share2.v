(** C97, continued: the additivity meter and the partial dependence importance with the calculator of a fitted method. *)
From Verif Require Import Py Num NumR Sorting Frame Rng PdCalc EngineFacts PdSpec PdFacts PdProofs PdTheorems PdErrors PdApi PdMethods MethodSpec
  PdMethodFacts PdMethodRun Props_Pd Props_Methods Props_Methods2 Additivity Zenplot ZenFacts Props_Zen Props_Zen2 Props_Share.
From Coq Require Import QArith.
Open Scope string_scope.
Open Scope nat_scope.
Open Scope list_scope.

(** ** Specification *)
(** every picture that can be asked for is the same, or raises the same exception *)
Definition same_pictures {C V G} (N : num_ops V) (s s' : mstate C V G) : Prop :=
  (forall f f2 kind, plot_profile s' f f2 kind = plot_profile s f f2 kind) /\ (forall k kind, plot_zenplot N s' k kind = plot_zenplot N s k kind).
(** calculations of one feature or of all others, not of pairs *)
Definition not_pairs (o : op) : Prop := match o with OpPairs _ _ => False | _ => True end.

Section Zen.
  Context {C V G : Type} (N : num_ops V).
  Lemma key_pairs (c c' : calc C V) p : c_pairs c' = c_pairs c -> get_pair_key c' p = get_pair_key c p.
  Proof. intros E. unfold get_pair_key. rewrite E. reflexivity. Qed.
  Lemma pd_range_pairs (c c' : calc C V) rows : c_pairs c' = c_pairs c -> forall lo hi, pd_range N c' rows lo hi = pd_range N c rows lo hi.
  Proof.
    intros E. induction rows as [|r rows IH]; intros lo hi; [reflexivity|]. cbn [pd_range]. rewrite (key_pairs c c' _ E), E.
    destruct (dict_get _ _ _) as [e|]; cbn [bind]; [|reflexivity]. destruct (np_max N _); cbn [bind]; [|reflexivity]. destruct (np_min N _); cbn [bind]; [|reflexivity]. apply IH.
  Qed.
  Lemma zen_loop_pairs (c c' : calc C V) kind nr nc n : c_pairs c' = c_pairs c -> forall pair cand row col,
    zen_loop N c' kind nr nc n pair cand row col = zen_loop N c kind nr nc n pair cand row col.
  Proof.
    intros E. assert (Ev : forall p, get_pd_pairs_values c' p = get_pd_pairs_values c p) by (intros p; unfold get_pd_pairs_values; rewrite (key_pairs c c' _ E), E; reflexivity).
    induction n as [|n IH]; intros pair cand row col; [reflexivity|]. cbn [zen_loop]. rewrite Ev.
    destruct (get_pd_pairs_values c pair) as [e|]; cbn [bind]; [|reflexivity]. destruct (negb _); [reflexivity|]. destruct (drawable _ _ _); cbn [bind]; [|reflexivity].
    destruct (find_next_pair_index N cand (snd pair)) as [[idx continued]|]; cbn [bind]; [|reflexivity]. destruct (loc idx cand) as [r|]; cbn [bind]; [|reflexivity].
    rewrite IH. reflexivity.
  Qed.
  Lemma zenplot_pairs (s : mstate C V G) c c' k kind : m_calc s = Some c -> c_pairs c' = c_pairs c -> plot_zenplot N (with_calc s c') k kind = plot_zenplot N s k kind.
  Proof.
    intros Hc E. unfold plot_zenplot, with_calc. cbn [m_ovo m_calc]. rewrite Hc. destruct (m_ovo s) as [ovo|]; [|reflexivity].
    cbv zeta. unfold get_pd_dict. rewrite (pd_range_pairs c c' _ E). destruct (pd_range N c _ _ _); cbn [bind]; [|reflexivity].
    destruct (combine _ _); [reflexivity|]. rewrite (zen_loop_pairs c c' _ _ _ _ E). reflexivity.
  Qed.
End Zen.

Section Share.
  Context {C V G : Type} (O : cell_ops C) (N : num_ops V) (HO : cell_ok O) (HN : num_ord_ok N) (R : rng_ops G) (HR : rng_ok R) (srt : sorter).

  Lemma pairs_untouched ops : Forall not_pairs ops -> forall c, c_pairs (run O N c ops) = c_pairs c.
  Proof.
    induction 1 as [|o ops Ho _ IH]; intros c; [reflexivity|]. change (run O N c (o :: ops)) with (run O N (fst (step O N c o)) ops). rewrite IH.
    destruct o as [fs|ps a|fs]; [|destruct Ho|]; cbn [step]; [unfold calculate_pd_single|unfold calculate_pd_minus_single]; destruct (seq2 _ _); reflexivity.
  Qed.

  (** profiles of single features computed on the calculator of a fitted method *)
  Theorem C97_first_order k s a s' g Xs c ops : wf_frame (a_X a) -> PdMethods.fit O N R srt k s a = (s', Ok tt) -> m_X s' = Some Xs -> explains O N a g Xs -> m_calc s' = Some c ->
    Forall not_pairs ops -> same_pictures N s' (with_calc s' (run O N c ops)).
  Proof.
    intros HX H HXs Hex Hc Ho. pose proof (pairs_untouched ops Ho c) as E. split; [|intros; apply (zenplot_pairs N s' c); assumption].
    intros f [f2|] kind; [|apply (C97_calls O N HO HN R HR srt k s a s' g Xs c ops f f kind HX H HXs Hex Hc)].
    unfold plot_profile, with_calc. cbn [m_calc]. rewrite Hc, (key_pairs c _ _ E), E. reflexivity.
  Qed.

  Lemma single_op c c' r : calculate_pd_single O N c None = (c', r) -> c' = run O N c [OpSingle None].
  Proof. intros H. unfold run. cbn [fold_left step]. rewrite H. reflexivity. Qed.

  (** the additivity meter, whatever comes of it *)
  Theorem C97_additivity k s a s' g Xs c s2 a2 s2' r c2 : wf_frame (a_X a) -> PdMethods.fit O N R srt k s a = (s', Ok tt) -> m_X s' = Some Xs -> explains O N a g Xs -> m_calc s' = Some c ->
    aa_calc a2 = Some c -> ad_calc s2 = None -> add_fit O N R s2 a2 = (s2', r) -> ad_calc s2' = Some c2 -> same_pictures N s' (with_calc s' c2).
  Proof.
    intros HX H HXs Hex Hc Ha Hn H2 Hc2. assert (E : c2 = run O N c [OpSingle None]).
    { unfold add_fit in H2. destruct (sample_if_not_none _ _ _ _) as [[X2 rng']|e]; [|injection H2 as <- <-; congruence].
      rewrite Ha in H2. destruct (pick_calc O N _ X2 _ _ _) as [c0|e] eqn:Ep; [|injection H2 as <- <-; cbn in Hc2; congruence].
      assert (c0 = c) as ->. { unfold pick_calc in Ep. destruct (negb _); [discriminate|]. destruct (negb _); [discriminate|]. congruence. }
      destruct (calculate_pd_single O N c None) as [c1 r1] eqn:E1. apply single_op in E1. destruct r1 as [[]|e]; [|injection H2 as <- <-; cbn in Hc2; congruence].
      destruct (callable _ _ _) as [preds|e]; [|injection H2 as <- <-; cbn in Hc2; congruence].
      match type of H2 with match ?x with _ => _ end = _ => destruct x as [[full v]|e] end; injection H2 as <- <-; cbn in Hc2; congruence. }
    rewrite E. apply (C97_first_order k s a s' g Xs c); try assumption. repeat constructor.
  Qed.

  (** the partial dependence importance, whatever comes of it *)
  Theorem C97_importance k s a s' g Xs c rng md X n pf fs bs c2 r : wf_frame (a_X a) -> PdMethods.fit O N R srt k s a = (s', Ok tt) -> m_X s' = Some Xs -> explains O N a g Xs -> m_calc s' = Some c ->
    pd_importance O N R srt rng md X n pf fs bs (Some c) = (Some c2, r) -> same_pictures N s' (with_calc s' c2).
  Proof.
    intros HX H HXs Hex Hc H2. assert (E : exists ops, Forall not_pairs ops /\ c2 = run O N c ops).
    { unfold pd_importance in H2. destruct (sample_if_not_none _ _ _ _) as [[X2 rng']|e]; [|exists []; split; [constructor|injection H2 as <- <-; reflexivity]].
      destruct (pick_calc O N _ X2 _ _ _) as [c0|e] eqn:Ep; [|exists []; split; [constructor|injection H2 as <- <-; reflexivity]].
      assert (c0 = c) as ->. { unfold pick_calc in Ep. destruct (negb _); [discriminate|]. destruct (negb _); [discriminate|]. congruence. }
      exists [OpSingle None]. split; [repeat constructor|]. unfold pdp_importance in H2. destruct (calculate_pd_single O N c None) as [c1 r1] eqn:E1. apply single_op in E1.
      destruct r1 as [[]|e]; injection H2 as <- <-; exact E1. }
    destruct E as (ops & Ho & ->). apply (C97_first_order k s a s' g Xs c); assumption.
  Qed.
End Share.

(** ** Example: Friedman's method fitted first, then the additivity meter with its calculator *)
Definition shAdd : aargs Z (ext Q) := {| aa_model := a_model shA; aa_X := zX; aa_n := None; aa_predict := None; aa_batch := 3%Z; aa_calc := Some shC |}.
Definition shMeter : astate Z (ext Q) nat := {| ad_rng := 0; ad_calc := None; ad_X := None; ad_preds := None; ad_full := None; ad_index := None |}.
Definition shMeter2 := fst (add_fit Zcell xQ rotR shMeter shAdd).
Definition shC3 : calc Z (ext Q) := match ad_calc shMeter2 with Some c => c | None => calc_init Zcell xQ 0 zX zP2 3 end.
Example C97_additivity_example :
  snd (add_fit Zcell xQ rotR shMeter shAdd) = Ok (Fin (2 # 3)) /\ ad_calc shMeter2 = Some shC3
  /\ pd_importance Zcell xQ rotR isort 0 (a_model shA) zX None None None 3 (Some shC) = (Some shC3, Ok [("a", Fin (3 # 4)); ("c", Fin (1 # 2)); ("b", Fin 0%Q)])
  /\ same_pictures xQ zS2 (with_calc zS2 shC3)
  /\ plot_profile (with_calc zS2 shC3) "a" (Some "c") "colormesh" = Ok (PMesh "c" "a" [0; 1; 2; 3]%Z [0; 1]%Z [[Fin 0%Q; NaN; Fin 0%Q; NaN]; [NaN; Fin 1%Q; NaN; Fin 3%Q]]).
Proof.
  assert (E2 : ad_calc shMeter2 = Some shC3) by (vm_compute; reflexivity).
  split; [vm_compute; reflexivity|]. split; [exact E2|]. split; [vm_compute; reflexivity|]. split; [|vm_compute; reflexivity].
  destruct C97_example as (A & B & _ & F & K & _).
  assert (D : PdMethods.fit Zcell xQ rotR isort (Friedman true) init0 shA = (zS2, Ok tt)) by (vm_compute; reflexivity).
  refine (C97_additivity Zcell xQ Zcell_ok xQ_ord rotR rotR_ok isort (Friedman true) init0 shA zS2 zg2 zX shC shMeter shAdd shMeter2 (snd (add_fit Zcell xQ rotR shMeter shAdd)) shC3 A D F B K _ _ _ E2).
  - reflexivity.
  - reflexivity.
  - unfold shMeter2. apply surjective_pairing.
Qed.

Print Assumptions C97_first_order.
Print Assumptions C97_additivity.
Print Assumptions C97_importance.
