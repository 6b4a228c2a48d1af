(** C134, continued: the normalised H statistic of a model that answers differently every time. *)
From Verif Require Import Py Num NumR Sorting Frame Rng PdCalc EngineFacts PdSpec PdFacts PdProofs PdTheorems PdErrors PdApi PdMethods MethodSpec
  PdMethodFacts PdMethodRun PdMethodReal PdMethodReal2 GreenwellFacts Props_Pd Props_Methods Props_Methods2 Views Props_Views PdAny Props_Any Props_Terms Props_Stable Props_Stable2 Props_Share Props_Noise.
From Coq Require Import Reals Lra QArith.
Open Scope string_scope.
Open Scope nat_scope.
Open Scope list_scope.

Lemma hstat_root_noise {C} (rows : list (list C)) f12 f1 f2 pd1 pd2 pd12 eps : rows <> [] ->
  Forall2 (fun r x => within (f12 r) eps x) rows pd12 -> Forall2 (fun r x => within (f1 r) eps x) rows pd1 -> Forall2 (fun r x => within (f2 r) eps x) rows pd2 ->
  (eps < Rstd (map f12 rows))%R -> roots_close eps (Rstd (map f12 rows)) (H_value xR rows true (fun r => Fin (f12 r)) (fun r => Fin (f1 r)) (fun r => Fin (f2 r))) (hstat xR pd1 pd2 pd12 true).
Proof.
  intros Hne F12 F1 F2 Hsig. apply within_list in F12 as (k12 & -> & F12). apply within_list in F1 as (k1 & -> & F1). apply within_list in F2 as (k2 & -> & F2).
  assert (He : (0 <= eps)%R).
  { destruct rows as [|r t]; [congruence|]. inversion F1; subst. eapply Rle_trans; [apply Rabs_pos|eassumption]. }
  set (ix := map (fun i => [i]) (seq 0 (length rows)) : list (list nat)). set (at_ := fun r : list nat => match r with i :: _ => i | [] => 0 end).
  assert (Hix : ix <> []) by (unfold ix; destruct rows; [congruence|discriminate]).
  assert (Er : forall f : list C -> R, map (fun r => Fin (f r)) rows = map (fun r => Fin (f (nth (at_ r) rows []))) ix).
  { intros f. unfold ix. rewrite map_map. cbn [at_]. symmetry. apply (map_nth_seq (fun r => Fin (f r)) rows []). }
  assert (Ek : forall k f, Forall2 (fun r k => (Rabs (k - f r) <= eps)%R) rows k -> map Fin k = map (fun r => Fin (nth (at_ r) k 0%R)) ix).
  { intros k f F. unfold ix. rewrite map_map. cbn [at_]. rewrite (Forall2_same_length _ _ _ F). symmetry. apply (map_nth_seq Fin k 0%R). }
  rewrite <- hstat_rows, !Er, (Ek k1 f1 F1), (Ek k2 f2 F2), (Ek k12 f12 F12), !hstat_rows.
  assert (Hc : forall k f, Forall2 (fun r k => (Rabs (k - f r) <= eps)%R) rows k -> forall r, In r ix -> (Rabs (nth (at_ r) k 0 - f (nth (at_ r) rows [])) <= eps)%R).
  { intros k f F r Hr. unfold ix in Hr. apply in_map_iff in Hr as (i & <- & Hi). apply in_seq in Hi. cbn [at_].
    apply (Forall2_nth_seq (fun r k => (Rabs (k - f r) <= eps)%R) rows k [] 0%R i F). lia. }
  assert (Es : Rstd (map f12 rows) = Rstd (map (fun r => f12 (nth (at_ r) rows [])) ix)) by (f_equal; unfold ix; rewrite map_map; symmetry; apply (map_nth_seq f12 rows [])). rewrite Es in *.
  apply (H_root_close ix Hix eps He (fun r => f12 (nth (at_ r) rows [])) (fun r => f1 (nth (at_ r) rows [])) (fun r => f2 (nth (at_ r) rows []))
           (fun r => nth (at_ r) k12 0%R) (fun r => nth (at_ r) k1 0%R) (fun r => nth (at_ r) k2 0%R)); try (intros r _; reflexivity); try exact Hsig; intros r Hr; eapply Hc; eassumption.
Qed.

Section Noise.
  Context {C G : Type} (O : cell_ops C) (HO : cell_ok O) (Rg : rng_ops G) (HR : rng_ok Rg) (srt : sorter) (Hs : sorter_ok srt).
  Notation fit := (PdMethods.fit O xR Rg srt).
  Notation "'fin' h" := (fun r => Fin (h r)) (at level 10, only parsing).
  Notation values X p := (np_unique O (col_at p (f_rows X))).

  Lemma fillna0_roots eps sg v w : roots_close eps sg v w -> roots_close eps sg (or_zero xR v) (fillna0 xR w).
  Proof. intros (x & x' & -> & -> & H). exists x, x'. split; [reflexivity|]. split; [reflexivity|exact H]. Qed.

  (** *** Friedman's pairs *)
  Lemma friedman_ovo_root X fs ps c c' t m P b h eps :
    wf_frame X -> f_rows X <> [] -> noisy P h eps -> reachable O xR m X P b c -> (forall p, In p ps -> In (fst p) fs /\ In (snd p) fs) ->
    friedman_ovo O xR srt true X fs ps c = (c', Ok t) ->
    exists l, t = table xR srt l /\ reachable O xR m X P b c'
      /\ Forall2 (fun pr r => fst r = pr /\ exists p q, nth_error (f_cols X) p = Some (fst pr) /\ nth_error (f_cols X) q = Some (snd pr) /\ p <> q
                     /\ ((eps < joint_spread (f_rows X) h p q)%R -> roots_close eps (joint_spread (f_rows X) h p q) (H_pair xR (fin h) (f_rows X) true p q) (snd r))) ps l.
  Proof.
    intros HX Hne Hn Hr Hps H. unfold friedman_ovo in H.
    destruct (calculate_pd_pairs O xR c (Some ps) false) as [c1 [[]|e]] eqn:E1; [|discriminate].
    destruct (calculate_pd_single O xR c1 (Some fs)) as [c2 [[]|e]] eqn:E2; [|discriminate].
    apply pair_equal_spec in H as [<- H].
    assert (Hr1 : reachable O xR m X P b c1) by (eapply (reachable_step O xR m X P b c (OpPairs (Some ps) false)); [exact Hr|exact E1]).
    assert (Hr2 : reachable O xR m X P b c2) by (eapply (reachable_step O xR m X P b c1 (OpSingle (Some fs))); [exact Hr1|exact E2]).
    destruct (mapM _ ps) as [l|e] eqn:El; cbn [bind] in H; [|discriminate]. injection H as H.
    pose proof (single_isolation O xR HO m X P b c1 (Some fs) c2 (Ok tt) HX Hr1 E2) as (Hpc & _).
    exists l. split; [subst t; reflexivity|]. split; [exact Hr2|]. apply mapM_Ok_inv in El. eapply Forall2_weaken; [|exact El].
    intros [f1 f2] x Hin Hx. cbv beta in Hx. cbn [fst snd] in *. destruct (Hps _ Hin) as [Hf1 Hf2]; cbn [fst snd] in *.
    destruct (column X f1) as [x1|] eqn:C1; cbn [bind] in Hx; [|discriminate].
    destruct (get_pd_single O c2 f1 (Some x1)) as [pd1|] eqn:G1; cbn [bind] in Hx; [|discriminate].
    destruct (column X f2) as [x2|] eqn:C2; cbn [bind] in Hx; [|discriminate].
    destruct (get_pd_single O c2 f2 (Some x2)) as [pd2|] eqn:G2; cbn [bind] in Hx; [|discriminate].
    destruct (get_pd_pairs O c2 f1 f2 (combine x1 x2)) as [pd12|] eqn:G12; cbn [bind] in Hx; [|discriminate].
    injection Hx as <-. cbn [fst snd]. split; [reflexivity|].
    apply column_pos in C1 as (p & Hp & _ & ->). apply column_pos in C2 as (q & Hq & _ & ->).
    assert (Hpq : p <> q).
    { intros <-. assert (f1 = f2) by congruence. subst f2.
      destruct (reachable_shaped O xR HO m X P b c2 HX Hr2) as ((_ & Hs2 & _) & HXc & _). rewrite HXc in Hs2.
      unfold get_pd_pairs in G12. destruct (dict_get pair_eqb (get_pair_key c2 (f1, f1)) (c_pairs c2)) as [e|] eqn:Ee; [|discriminate].
      apply PdFacts.dict_get_assoc in Ee. eapply PdProofs.pshape_assoc in Ee as [Ee _]; [|exact Hs2].
      unfold get_pair_key in Ee. pose proof HX as (Hnd & _).
      assert (Hk : In (f1, f1) (combinations2 (f_cols X))) by (destruct (assoc _ _ _); exact Ee).
      apply combinations2_irrefl in Hk; [|exact Hnd]. congruence. }
    exists p, q. split; [exact Hp|]. split; [exact Hq|]. split; [exact Hpq|]. intros Hsig.
    destruct (single_noise O HO m X P b c1 (Some fs) c2 h eps p f1 HX Hne Hn Hr1 E2 Hf1 Hp) as ((y1 & A1 & B1) & _). rewrite A1 in G1. injection G1 as <-.
    destruct (single_noise O HO m X P b c1 (Some fs) c2 h eps q f2 HX Hne Hn Hr1 E2 Hf2 Hq) as ((y2 & A2 & B2) & _). rewrite A2 in G2. injection G2 as <-.
    rewrite (get_pd_pairs_ext O c2 c1 f1 f2 _ Hpc) in G12.
    destruct (pair_noise O HO m X P b c (Some ps) c1 h eps p q f1 f2 HX Hne Hn Hr E1 (or_introl Hin) Hp Hq Hpq) as (y12 & A12 & B12). rewrite A12 in G12. injection G12 as <-.
    pose proof (hstat_root_noise (f_rows X) (RPD2_at (f_rows X) h p q) (RPD1_at (f_rows X) h p) (RPD1_at (f_rows X) h q) y1 y2 y12 eps Hne B12 B1 B2 Hsig) as K.
    rewrite (H_value_same (f_rows X) true (PD2_at xR (fin h) (f_rows X) p q) (PD1_at xR (fin h) (f_rows X) p) (PD1_at xR (fin h) (f_rows X) q)) in K.
    - exact K.
    - apply (PD2_at_fin (f_rows X) (length (f_cols X)) (wf_rows X HX)); eapply pos_lt; eassumption.
    - apply (PD1_at_fin (f_rows X) (length (f_cols X)) (wf_rows X HX)); eapply pos_lt; eassumption.
    - apply (PD1_at_fin (f_rows X) (length (f_cols X)) (wf_rows X HX)); eapply pos_lt; eassumption.
  Qed.

  Theorem C134_normalised_pairs s a s' h eps Xs :
    wf_frame (a_X a) -> fit (Friedman true) s a = (s', Ok tt) -> m_X s' = Some Xs -> explains_noisy O a h eps Xs -> f_rows Xs <> [] ->
    exists t, m_ovo s' = Some t
      /\ Permutation (map fst t) (combinations2 (all_features a))
      /\ forall f1 f2 v, In (f1, f2, v) t ->
           exists p q, nth_error (f_cols Xs) p = Some f1 /\ nth_error (f_cols Xs) q = Some f2 /\ p <> q
             /\ ((eps < joint_spread (f_rows Xs) h p q)%R -> roots_close eps (joint_spread (f_rows Xs) h p q) (or_zero xR (H_pair xR (fin h) (f_rows Xs) true p q)) v).
  Proof.
    intros HX H HXs Hex Hne. apply fit_ok in H as (Xs' & rng' & c & c1 & t & c2 & fi & Es & Ec & Eo & Ei & E1 & E2 & E3 & E4 & E5 & E6).
    rewrite HXs in E1; injection E1 as <-. destruct (sample_wf Rg _ _ _ _ _ HR HX Es) as (HwX & _).
    destruct (noisy_calc O _ _ _ _ _ Hex Ec) as (m & P & b & Hr & Hn). cbn [ovo_of] in Eo.
    apply (friedman_ovo_root Xs _ _ _ _ _ m P b h eps HwX Hne Hn Hr) in Eo as (l & -> & _ & F); [|intros p; apply combinations2_fst_snd].
    exists (table xR srt l). split; [exact E3|]. split.
    - rewrite (table_keys xR srt Hs xR_ord). replace (map fst l) with (combinations2 (all_features a)); [reflexivity|]. clear - F. induction F as [|x y l k [E _] F IH]; [reflexivity|]. cbn. congruence.
    - intros f1 f2 v Hv. apply (table_In xR srt Hs xR_ord) in Hv as (w & Hw & ->). apply (Forall2_In_right _ _ _ _ F) in Hw as (pr & _ & Epr & p & q & Hp & Hq & Hpq & Hc).
      cbn [fst snd] in *. subst pr. exists p, q. split; [exact Hp|]. split; [exact Hq|]. split; [exact Hpq|]. intros Hsig. apply fillna0_roots, Hc, Hsig.
  Qed.

  (** *** Friedman's one versus all *)
  Lemma friedman_ova_root pf X fs c c' t m P b h eps c0 :
    wf_frame X -> f_rows X <> [] -> noisy P h eps -> noisy (callable pf) h eps -> reachable O xR m X P b c0 ->
    calculate_pd_single O xR c0 None = (c, Ok tt) ->
    friedman_ova O xR srt true pf X fs c = (c', Ok t) ->
    exists l, t = table xR srt l
      /\ Forall2 (fun f r => fst r = f /\ exists p, nth_error (f_cols X) p = Some f
           /\ ((eps < Rstd (map h (f_rows X)))%R -> roots_close eps (Rstd (map h (f_rows X))) (H_all xR (fin h) (f_rows X) true p) (snd r))) fs l.
  Proof.
    intros HX Hne Hn Hpf Hr0 E0 H. unfold friedman_ova in H.
    assert (Hr : reachable O xR m X P b c) by (eapply (reachable_step O xR m X P b c0 (OpSingle None)); [exact Hr0|exact E0]).
    destruct (calculate_pd_minus_single xR c (Some fs)) as [c1 [[]|e]] eqn:E1; [|discriminate].
    apply pair_equal_spec in H as [<- H].
    destruct (callable pf (length (c_log c1)) (f_rows X)) as [preds|e] eqn:Ep; cbn [bind] in H; [|discriminate].
    apply Hpf in Ep.
    destruct (mapM _ fs) as [l|e] eqn:El; cbn [bind] in H; [|discriminate]. injection H as H.
    pose proof (minus_isolation O xR HO m X P b c (Some fs) c1 (Ok tt) HX Hr E1) as (_ & Hsc & _).
    exists l. split; [subst t; reflexivity|]. apply mapM_Ok_inv in El. eapply Forall2_weaken; [|exact El].
    intros f x Hin Hx. cbv beta in Hx. destruct (column X f) as [xf|] eqn:C1; cbn [bind] in Hx; [|discriminate].
    destruct (get_pd_single O c1 f (Some xf)) as [pd_f|] eqn:G1; cbn [bind] in Hx; [|discriminate].
    destruct (get_pd_minus_single c1 f) as [pd_m|] eqn:G2; cbn [bind] in Hx; [|discriminate].
    apply column_pos in C1 as (p & Hp & _ & ->).
    assert (Hf : In f (f_cols X)) by (eapply nth_error_In, Hp).
    rewrite (get_pd_single_ext O c1 c f _ Hsc) in G1.
    destruct (single_noise O HO m X P b c0 None c h eps p f HX Hne Hn Hr0 E0 Hf Hp) as ((y1 & A1 & B1) & _). rewrite A1 in G1. injection G1 as <-.
    destruct (proj1 (proj2 (C132_noise O HO m X P b c h eps p f HX Hne Hn Hr Hp)) (Some fs) c1 E1 Hin) as (y2 & A2 & B2). rewrite A2 in G2. injection G2 as <-.
    assert (Bp : Forall2 (fun r x => within (h r) eps x) (f_rows X) preds) by exact Ep.
    rewrite hstat_np_equal in Hx by (rewrite <- (Forall2_len' _ _ _ Bp); eapply Forall2_len'; eassumption). cbn [bind] in Hx.
    injection Hx as <-. cbn [fst snd]. split; [reflexivity|]. exists p. split; [exact Hp|]. intros Hsig.
    assert (B2' : Forall2 (fun r x => within (RPDminus (f_rows X) h p r) eps x) (f_rows X) y2).
    { eapply Forall2_weaken; [|exact B2]. intros r x Hrr Hw. replace (RPDminus (f_rows X) h p r) with (PDminus Rmean h (f_rows X) p r); [exact Hw|].
      unfold PDminus, RPDminus. f_equal. clear - HX Hp Hrr. assert (Hl : forall s, In s (f_rows X) -> p < length s) by (intros s Hss; rewrite (wf_rows X HX s Hss); eapply pos_lt; exact Hp).
      revert Hl. generalize (f_rows X). intros rows Hl. unfold col_at. induction rows as [|s t IH]; [reflexivity|]. cbn.
      destruct (nth_error s p) eqn:E; [|apply nth_error_None in E; specialize (Hl s (or_introl eq_refl)); lia]. cbn. f_equal. apply IH. intros; apply Hl; right; assumption. }
    pose proof (hstat_root_noise (f_rows X) h (RPD1_at (f_rows X) h p) (RPDminus (f_rows X) h p) y1 y2 preds eps Hne Bp B1 B2' Hsig) as K.
    rewrite (H_value_same (f_rows X) true (fin h) (PD1_at xR (fin h) (f_rows X) p) (fun r => PDminus (np_mean xR) (fin h) (f_rows X) p r)) in K.
    - exact K.
    - intros r _; reflexivity.
    - apply (PD1_at_fin (f_rows X) (length (f_cols X)) (wf_rows X HX)); eapply pos_lt; eassumption.
    - apply (PDminus_at_fin (f_rows X) (length (f_cols X)) (wf_rows X HX)); eapply pos_lt; eassumption.
  Qed.

  Theorem C134_normalised_one_versus_all s a s' h eps Xs :
    wf_frame (a_X a) -> fit (Friedman true) s a = (s', Ok tt) -> m_X s' = Some Xs -> explains_noisy O a h eps Xs -> f_rows Xs <> [] -> a_ova a = true ->
    exists t, m_ova s' = Some t
      /\ Permutation (map fst t) (all_features a)
      /\ forall f v, In (f, v) t -> exists p, nth_error (f_cols Xs) p = Some f
           /\ ((eps < Rstd (map h (f_rows Xs)))%R -> roots_close eps (Rstd (map h (f_rows Xs))) (or_zero xR (H_all xR (fin h) (f_rows Xs) true p)) v).
  Proof.
    intros HX H HXs Hex Hne Ho. apply fit_ok in H as (Xs' & rng' & c & c1 & t & c2 & fi & Es & Ec & Eo & Ei & E1 & E2 & E3 & E4 & E5 & E6).
    rewrite HXs in E1; injection E1 as <-. destruct (sample_wf Rg _ _ _ _ _ HR HX Es) as (HwX & _).
    destruct (noisy_calc O _ _ _ _ _ Hex Ec) as (m & P & b & Hr & Hn). cbn [ovo_of] in Eo.
    apply (friedman_ovo_root Xs _ _ _ _ _ m P b h eps HwX Hne Hn Hr) in Eo as (_ & _ & Hr1 & _); [|intros p; apply combinations2_fst_snd].
    apply (pdp_importance_noise O HO srt Xs _ _ _ _ m P b h eps HwX Hne Hn Hr1) in Ei as (_ & _ & Hcs & _).
    rewrite Ho in E6. destruct E6 as (c3 & ova & Ev & Em & _).
    apply (friedman_ova_root _ Xs _ _ _ _ m P b h eps c1 HwX Hne Hn (proj1 Hex) Hr1 Hcs) in Ev as (l & -> & F).
    exists (table xR srt l). split; [exact Em|]. split.
    - rewrite (table_keys xR srt Hs xR_ord). replace (map fst l) with (all_features a); [reflexivity|]. clear - F. revert F. generalize (all_features a). intros fs F. induction F as [|x y l k [E _] F IH]; [reflexivity|]. cbn. congruence.
    - intros f v Hv. apply (table_In xR srt Hs xR_ord) in Hv as (w & Hw & ->). apply (Forall2_In_right _ _ _ _ F) in Hw as (f' & _ & Ef & p & Hp & Hc).
      cbn [fst snd] in *. subst f'. exists p. split; [exact Hp|]. intros Hsig. apply fillna0_roots, Hc, Hsig.
  Qed.

End Noise.

(** ** The model of [C134_example]: its normalised value for (a, b) shows the interaction *)
Example C134_normalised_example : exists s' t x,
  PdMethods.fit Zcell xR rotR isort (Friedman true) init0 nargs = (s', Ok tt) /\ m_ovo s' = Some t /\ In ("a", "b", Fin x) t /\ (6 / 100 < x)%R.
Proof.
  destruct (PdMethods.fit Zcell xR rotR isort (Friedman true) init0 nargs) as [s' r] eqn:E.
  assert (Hex : explains_noisy Zcell nargs th (/ 100) rX) by (split; [exact nP_noisy|exact I]).
  assert (Hrows : f_rows rX <> []) by discriminate.
  destruct (C134_returns Zcell Zcell_ok rotR rotR_ok isort true init0 nargs s' r th (/ 100) rX (m_rng init0) rX_wf eq_refl Hrows nP_noisy
     (fun n rows => ex_intro _ _ eq_refl) I (Z_complete rX) (proj1 rX_wf) (fun f Hf => Hf) E) as [-> EX].
  destruct (C134_normalised_pairs Zcell Zcell_ok rotR rotR_ok isort isort_ok init0 nargs s' th (/ 100) rX rX_wf E EX Hex Hrows) as (t & T & K & V).
  assert (I1 : In ("a", "b") (map fst t)) by (rewrite K; cbn; auto). apply in_map_iff in I1 as ([[f1 f2] v] & F1 & I1). injection F1 as -> ->.
  assert (P : forall p f, nth_error (f_cols rX) p = Some f -> (f = "a" -> p = 0) /\ (f = "b" -> p = 1)).
  { intros p f Hf. destruct p as [|[|[|p]]]; cbn in Hf; [injection Hf as <-| injection Hf as <-| injection Hf as <-| destruct p; discriminate]; repeat split; congruence. }
  destruct (V _ _ _ I1) as (p & q & Hp & Hq & _ & B). apply P in Hp as (Hp & _). apply P in Hq as (_ & Hq). rewrite (Hp eq_refl), (Hq eq_refl), (th_H true), th_spread in B. clear Hp Hq.
  assert (S : (47 / 100 < sqrt (2 / 9))%R). { rewrite <- (sqrt_Rsqr (47 / 100)) by lra. apply sqrt_lt_1_alt. unfold Rsqr. lra. }
  destruct B as (x & x' & Ex & -> & Hx & Hx' & B); [lra|]. cbn in Ex. injection Ex as <-.
  exists s', t, x'. split; [reflexivity|]. split; [exact T|]. split; [exact I1|].
  assert (R3 : sqrt (1 / 9) = (1 / 3)%R) by (replace (1 / 9)%R with (Rsqr (1 / 3)) by (unfold Rsqr; lra); apply sqrt_Rsqr; lra). rewrite R3 in B.
  assert (K' : (/ 100 * (3 + 1 / 3) / (sqrt (2 / 9) - / 100) <= 75 / 1000)%R).
  { apply (Rmult_le_reg_r (sqrt (2 / 9) - / 100)); [lra|]. unfold Rdiv at 1. rewrite Rmult_assoc, Rinv_l by lra. lra. }
  assert (L : (25 / 100 <= sqrt x')%R) by (revert B; unfold Rabs; destruct (Rcase_abs _); lra).
  rewrite <- (sqrt_sqrt x' Hx'). nra.
Qed.

Print Assumptions C134_normalised_pairs.
Print Assumptions C134_normalised_one_versus_all.
