(** What a fit asks of the model (C92). *)
From Verif Require Import Py Num Sorting Frame Rng PdCalc EngineFacts PdSpec PdFacts PdProofs PdTheorems PdErrors PdApi PdMethods PdMethodFacts ForestFacts Cost Props_Pd Props_Methods Props_Methods2.
From Coq Require Import QArith.
Open Scope string_scope.
Open Scope nat_scope.
Open Scope list_scope.

(** ** Specification *)

(** [d f] values are enough to list the values of column [f] *)
Definition values_listed {C} (X : frame C) (d : string -> nat) : Prop :=
  forall f p, nth_error (f_cols X) p = Some f -> exists L, incl (col_at p (f_rows X)) L /\ length L <= d f.
Definition sum_over {A} (w : A -> nat) (l : list A) : nat := fold_right (fun x n => w x + n) 0 l.

(** profiles needed: one value per observed pair (Friedman) or per combination of values
    (Greenwell), one per value of each column, one per row and feature for one-versus-all *)
Definition pair_profiles (k : kind) (d : string -> nat) (n : nat) (fs : list string) : nat :=
  match k with
  | Friedman _ => sum_over (fun _ => n) (combinations2 fs)
  | Greenwell => sum_over (fun p => d (fst p) * d (snd p)) (combinations2 fs)
  end.
Definition all_profiles (k : kind) (ova : bool) (n : nat) (fs : list string) : nat :=
  match k with Friedman _ => if ova then length fs * n else 0 | Greenwell => 0 end.

Lemma sum_over_list_sum {A} (w : A -> nat) l : sum_over w l = list_sum (map w l).
Proof. induction l as [|x t IH]; [reflexivity|]. cbn [sum_over fold_right map]. rewrite list_sum_cons. unfold sum_over in IH. rewrite IH. reflexivity. Qed.
Lemma list_sum_le {A} (w w' : A -> nat) l : (forall x, In x l -> w x <= w' x) -> list_sum (map w l) <= list_sum (map w' l).
Proof. induction l as [|x t IH]; intros H; [reflexivity|]. cbn [map]. rewrite !list_sum_cons. pose proof (H x (or_introl eq_refl)). pose proof (IH (fun y Hy => H y (or_intror Hy))). lia. Qed.
Lemma list_sum_scale {A} (w : A -> nat) n l : list_sum (map (fun x => w x * n) l) = list_sum (map w l) * n.
Proof. induction l as [|x t IH]; [reflexivity|]. cbn [map]. rewrite !list_sum_cons. lia. Qed.

Section Budget.
  Context {C V G : Type} (O : cell_ops C) (N : num_ops V) (HO : cell_ok O) (Hnan : n_isnan N (n_nan N) = true)
          (R : rng_ops G) (HR : rng_ok R) (srt : sorter).
  Notation fit := (fit O N R srt).
  Notation calc := (calc C V).

  Lemma grid_listed X d f : wf_frame X -> values_listed X d -> length (grid O X f) <= d f.
  Proof.
    intros HX Hd. destruct (in_dec string_dec f (f_cols X)) as [Hf|Hf].
    - apply In_nth_error in Hf as (p & Hp). rewrite (grid_of O X HX p f Hp). destruct (Hd f p Hp) as (L & HL & Hl).
      etransitivity; [|exact Hl]. apply NoDup_incl_length; [apply (np_unique_NoDup O HO)|]. intros v Hv. apply HL, (np_unique_sub O HO), Hv.
    - unfold grid. destruct (column X f) as [l|] eqn:E; [|cbn; lia]. apply column_pos in E as (p & Hp & _). exfalso. apply Hf, (nth_error_In _ _ Hp).
  Qed.

  (** the calls a fit makes, in order, up to the one that fails *)
  Definition stages (k : kind) (fs : list string) (ova : bool) (c0 c : calc) : Prop :=
    exists c1 r1, calculate_pd_pairs O N c0 (Some (combinations2 fs)) (match k with Greenwell => true | _ => false end) = (c1, r1)
    /\ (c = c1 \/ r1 = Ok tt /\
        exists c2 r2, match k with Greenwell => (c2, r2) = (c1, Ok tt) | Friedman _ => calculate_pd_single O N c1 (Some fs) = (c2, r2) end
        /\ (c = c2 \/ r2 = Ok tt /\
            exists c3 r3, calculate_pd_single O N c2 None = (c3, r3)
            /\ (c = c3 \/ r3 = Ok tt /\ exists norm, k = Friedman norm /\ ova = true /\
                exists c4 r4, calculate_pd_minus_single N c3 (Some fs) = (c4, r4) /\ c = c4))).

  Lemma pdp_stage X fs (c c' : calc) r : pdp_importance O N srt X fs c = (c', r) ->
    exists r', calculate_pd_single O N c None = (c', r') /\ (forall t, r = Ok t -> r' = Ok tt).
  Proof.
    unfold pdp_importance. destruct (calculate_pd_single O N c None) as [d [[]|e]]; intros H; injection H as <- <-; [exists (Ok tt); auto|]. exists (Err e). split; [reflexivity|discriminate].
  Qed.
  Lemma ova_stage norm pf X fs (c c' : calc) r : friedman_ova O N srt norm pf X fs c = (c', r) -> exists r', calculate_pd_minus_single N c (Some fs) = (c', r').
  Proof. unfold friedman_ova. destruct (calculate_pd_minus_single N c (Some fs)) as [d [[]|e]]; intros H; injection H as <- <-; eauto. Qed.
  Lemma ovo_stage k X fs ps (c c' : calc) r : ovo_of O N srt k X fs ps c = (c', r) ->
    exists c1 r1, calculate_pd_pairs O N c (Some ps) (match k with Greenwell => true | _ => false end) = (c1, r1)
    /\ (c' = c1 /\ (forall t, r <> Ok t) \/ r1 = Ok tt /\ exists r2, match k with Greenwell => (c', r2) = (c1, Ok tt) | Friedman _ => calculate_pd_single O N c1 (Some fs) = (c', r2) end
          /\ (forall t, r = Ok t -> r2 = Ok tt)).
  Proof.
    destruct k as [norm|]; cbn [ovo_of]; [unfold friedman_ovo|unfold greenwell_ovo]; destruct (calculate_pd_pairs O N c (Some ps) _) as [c1 [[]|e]] eqn:E1; intros H.
    - destruct (calculate_pd_single O N c1 (Some fs)) as [c2 [[]|e]] eqn:E2; injection H as <- <-; exists c1, (Ok tt); split; [reflexivity| |reflexivity|]; right; (split; [reflexivity|]); eexists; (split; [exact E2|]); [auto|discriminate].
    - injection H as <- <-. exists c1, (Err e). split; [reflexivity|]. left. split; [reflexivity|discriminate].
    - injection H as <- <-. exists c1, (Ok tt). split; [reflexivity|]. right. split; [reflexivity|]. exists (Ok tt). auto.
    - injection H as <- <-. exists c1, (Err e). split; [reflexivity|]. left. split; [reflexivity|discriminate].
  Qed.

  Lemma fit_stages k s a s' r c : a_calc a = None -> m_calc s = None -> fit k s a = (s', r) -> m_calc s' = Some c ->
    exists Xs rng', sample_if_not_none R (m_rng s) (a_X a) (a_n a) = Ok (Xs, rng') /\ m_X s' = Some Xs
    /\ stages k (all_features a) (a_ova a) (calc_init O N (md_id (a_model a)) Xs (callable (pf_of a)) (a_batch a)) c.
  Proof.
    intros Ha Hs H Hc. unfold fit, fit_base in H. fold (all_features a) in H. fold (pf_of a) in H.
    destruct (sample_if_not_none R (m_rng s) (a_X a) (a_n a)) as [[Xs rng']|e] eqn:Es; [|injection H as <- <-; cbn in Hc; congruence].
    rewrite Ha in H. cbn [pick_calc] in H. set (c0 := calc_init O N _ Xs _ _) in *. unfold stages.
    destruct (ovo_of O N srt k Xs (all_features a) (combinations2 (all_features a)) c0) as [c2 ro] eqn:Eo.
    destruct (ovo_stage _ _ _ _ _ _ _ Eo) as (c1 & r1 & E1 & Hst).
    destruct ro as [t|e].
    2:{ injection H as <- <-. cbn in Hc. injection Hc as <-. exists Xs, rng'. split; [reflexivity|]. split; [reflexivity|]. exists c1, r1. split; [exact E1|].
        destruct Hst as [[-> _]|(-> & r2 & E2 & _)]; [left; reflexivity|]. right. split; [reflexivity|]. exists c2, r2. split; [exact E2|left; reflexivity]. }
    destruct Hst as [[_ Hst]|(-> & r2 & E2 & Hr2)]; [exfalso; eapply Hst; reflexivity|]. specialize (Hr2 t eq_refl). subst r2.
    unfold pd_importance in H. cbn [sample_if_not_none] in H.
    destruct (pick_calc O N (a_model a) Xs (get_predict_function (a_model a) None) 2000 (Some c2)) as [c2'|e] eqn:Ep.
    2:{ injection H as <- <-. cbn in Hc. injection Hc as <-. exists Xs, rng'. split; [reflexivity|]. split; [reflexivity|]. exists c1, (Ok tt). split; [exact E1|].
        right. split; [reflexivity|]. exists c2, (Ok tt). split; [exact E2|left; reflexivity]. }
    assert (c2' = c2). { unfold pick_calc in Ep. destruct (negb _); [discriminate|]. destruct (negb _); [discriminate|]. congruence. } subst c2'.
    destruct (pdp_importance O N srt Xs (all_features a) c2) as [c3 ri] eqn:Ei.
    destruct (pdp_stage _ _ _ _ _ Ei) as (r3 & E3 & Hr3).
    destruct ri as [fi|e].
    2:{ injection H as <- <-. cbn in Hc. injection Hc as <-. exists Xs, rng'. split; [reflexivity|]. split; [reflexivity|]. exists c1, (Ok tt). split; [exact E1|].
        right. split; [reflexivity|]. exists c2, (Ok tt). split; [exact E2|]. right. split; [reflexivity|]. exists c3, r3. split; [exact E3|left; reflexivity]. }
    specialize (Hr3 fi eq_refl). subst r3. cbn [m_calc m_X m_features m_predict m_rng m_ova m_ovo m_fi] in H.
    assert (Hdone : forall c, c = c3 -> exists c1 r1, calculate_pd_pairs O N c0 (Some (combinations2 (all_features a))) (match k with Greenwell => true | _ => false end) = (c1, r1)
    /\ (c = c1 \/ r1 = Ok tt /\
        exists c2 r2, match k with Greenwell => (c2, r2) = (c1, Ok tt) | Friedman _ => calculate_pd_single O N c1 (Some (all_features a)) = (c2, r2) end
        /\ (c = c2 \/ r2 = Ok tt /\
            exists c3 r3, calculate_pd_single O N c2 None = (c3, r3)
            /\ (c = c3 \/ r3 = Ok tt /\ exists norm, k = Friedman norm /\ a_ova a = true /\
                exists c4 r4, calculate_pd_minus_single N c3 (Some (all_features a)) = (c4, r4) /\ c = c4)))).
    { intros d ->. exists c1, (Ok tt). split; [exact E1|]. right. split; [reflexivity|]. exists c2, (Ok tt). split; [exact E2|]. right. split; [reflexivity|]. exists c3, (Ok tt). split; [exact E3|left; reflexivity]. }
    destruct k as [norm|].
    - destruct (a_ova a) eqn:Eova.
      + destruct (friedman_ova O N srt norm (pf_of a) Xs (all_features a) c3) as [c4 rv] eqn:Ev. destruct (ova_stage _ _ _ _ _ _ _ Ev) as (r4 & E4).
        assert (Hm : m_X s' = Some Xs /\ c = c4) by (destruct rv; injection H as <- <-; cbn in *; split; [reflexivity|congruence|reflexivity|congruence]). destruct Hm as [Hm ->].
        exists Xs, rng'. split; [reflexivity|]. split; [exact Hm|]. exists c1, (Ok tt). split; [exact E1|]. right. split; [reflexivity|]. exists c2, (Ok tt). split; [exact E2|]. right. split; [reflexivity|].
        exists c3, (Ok tt). split; [exact E3|]. right. split; [reflexivity|]. exists norm. split; [reflexivity|]. split; [reflexivity|]. exists c4, r4. auto.
      + injection H as <- <-. cbn in Hc. injection Hc as <-. exists Xs, rng'. split; [reflexivity|]. split; [reflexivity|]. apply Hdone; reflexivity.
    - injection H as <- <-. cbn in Hc. injection Hc as <-. exists Xs, rng'. split; [reflexivity|]. split; [reflexivity|]. apply Hdone; reflexivity.
  Qed.

  (** C92: no request is larger than the batch size plus the work for one feature, whatever the model does *)
  Theorem C92_request_size k s a s' r c Xs d w : wf_frame (a_X a) -> a_calc a = None -> m_calc s = None ->
    fit k s a = (s', r) -> m_calc s' = Some c -> m_X s' = Some Xs ->
    values_listed Xs d -> 1 <= w -> (forall f, In f (f_cols Xs) -> d f <= w) ->
    (forall norm, k = Friedman norm -> a_ova a = true -> length (f_rows Xs) <= w) ->
    forall q, In q (c_log c) -> (Z.of_nat (length q) <= Z.max 0 (a_batch a) + Z.of_nat (w * length (f_rows Xs)))%Z.
  Proof.
    intros HX Ha Hs H Hc HXs Hd Hw Hdw Hova. destruct (fit_stages k s a s' r c Ha Hs H Hc) as (Xs' & rng' & Es & EX & Hst).
    rewrite HXs in EX. injection EX as <-. destruct (sample_wf R _ _ _ _ _ HR HX Es) as (HwX & _).
    set (b := a_batch a) in *. set (m := md_id (a_model a)) in *. set (P := callable (pf_of a)) in *. set (fs := all_features a) in *.
    set (ok := fun c : calc => reachable O N m Xs P b c /\ forall q, In q (c_log c) -> (Z.of_nat (length q) <= Z.max 0 b + Z.of_nat (w * length (f_rows Xs)))%Z).
    assert (Hmore : forall c1 c2 o r2 w', ok c1 -> w' <= w -> step O N c1 o = (c2, r2) -> (exists reqs, c_log c2 = c_log c1 ++ reqs /\ requests_ok Xs b w' reqs) -> ok c2).
    { intros c1 c2 o r2 w' [Hr Hq] Hle E (reqs & El & Hf & _). split; [eapply reachable_step; eassumption|]. intros q Hin. rewrite El in Hin. apply in_app_or in Hin as [Hin|Hin]; [apply Hq, Hin|].
      rewrite Forall_forall in Hf. destruct (Hf q Hin) as [Hsz _]. nia. }
    assert (Hgrid : forall gs f, In f (feats Xs gs) -> length (grid O Xs f) <= w).
    { intros gs f _. destruct (in_dec string_dec f (f_cols Xs)) as [Hf|Hf]; [etransitivity; [apply (grid_listed Xs d f HwX Hd)|auto]|].
      unfold grid. destruct (column Xs f) as [l|] eqn:E; [|cbn; lia]. apply column_pos in E as (p & Hp & _). exfalso. apply Hf, (nth_error_In _ _ Hp). }
    assert (Hsingle : forall c1 gs c2 r2, ok c1 -> calculate_pd_single O N c1 gs = (c2, r2) -> ok c2).
    { intros c1 gs c2 r2 Hk E. eapply (Hmore c1 c2 (OpSingle gs) r2 w Hk (le_n _) E). eapply (single_requests O N HO m Xs P b); [exact HwX|apply Hk|apply Hgrid|exact E]. }
    assert (H0 : ok (calc_init O N m Xs P b)) by (split; [exists []; reflexivity|intros q []]).
    enough (ok c) as [_ Hok] by exact Hok. destruct Hst as (c1 & r1 & E1 & Hst).
    assert (H1 : ok c1). { eapply (Hmore _ c1 (OpPairs _ _) r1 1 H0 Hw E1). eapply (pairs_requests O N HO m Xs P b); [exact HwX|apply H0|exact E1]. }
    destruct Hst as [->|(-> & c2 & r2 & E2 & Hst)]; [exact H1|].
    assert (H2 : ok c2) by (destruct k; [eapply Hsingle; eassumption|injection E2 as -> _; exact H1]).
    destruct Hst as [->|(-> & c3 & r3 & E3 & Hst)]; [exact H2|]. assert (H3 : ok c3) by (eapply Hsingle; eassumption).
    destruct Hst as [->|(-> & norm & Ek & Eo & c4 & r4 & E4 & ->)]; [exact H3|].
    eapply (Hmore c3 c4 (OpMinus _) r4 (length (f_rows Xs)) H3); [eauto|exact E4|]. eapply (minus_requests O N HO m Xs P b); [exact HwX|apply H3|exact E4].
  Qed.

  (** rows sent over the stages, with [extra] for the second pass over the single profiles *)
  Lemma stages_cost k fs ova c0 c m Xs P b d extra : wf_frame Xs -> values_listed Xs d -> reachable O N m Xs P b c0 ->
    (forall c1 c2 c3 r3, reachable O N m Xs P b c1 -> match k with Greenwell => c2 = c1 | Friedman _ => calculate_pd_single O N c1 (Some fs) = (c2, Ok tt) end ->
       calculate_pd_single O N c2 None = (c3, r3) ->
       total_rows (c_log c3) <= total_rows (c_log c1) + (sum_over d (f_cols Xs) + extra) * length (f_rows Xs)) ->
    match k with Greenwell => True | Friedman _ => sum_over d fs <= sum_over d (f_cols Xs) + extra end ->
    stages k fs ova c0 c ->
    total_rows (c_log c) <= total_rows (c_log c0) + (pair_profiles k d (length (f_rows Xs)) fs + sum_over d (f_cols Xs) + extra + all_profiles k ova (length (f_rows Xs)) fs) * length (f_rows Xs).
  Proof.
    intros HwX Hd Hr0 Hsing Hle (c1 & r1 & E1 & Hst).
    assert (H1 : total_rows (c_log c1) <= total_rows (c_log c0) + pair_profiles k d (length (f_rows Xs)) fs * length (f_rows Xs)).
    { pose proof (pairs_cost O N HO m Xs P b c0 _ _ c1 r1 HwX Hr0 E1) as Hp. rewrite list_sum_scale in Hp. etransitivity; [exact Hp|].
      apply Nat.add_le_mono_l, Nat.mul_le_mono_r. destruct k; cbn [pair_profiles]; rewrite sum_over_list_sum; apply list_sum_le; intros p _; unfold pair_cells; [lia|].
      apply Nat.mul_le_mono; apply grid_listed; assumption. }
    assert (Hr1 : reachable O N m Xs P b c1) by (eapply (reachable_step O N m Xs P b c0 (OpPairs _ _)); [exact Hr0|exact E1]).
    set (n := length (f_rows Xs)) in *.
    destruct Hst as [->|(-> & c2 & r2 & E2 & Hst)]; [nia|].
    assert (H2 : total_rows (c_log c2) <= total_rows (c_log c1) + (sum_over d (f_cols Xs) + extra) * n).
    { destruct k; [|injection E2 as -> _; lia]. pose proof (single_cost O N HO m Xs P b c1 _ c2 r2 HwX Hr1 E2) as Hp. rewrite list_sum_scale in Hp. etransitivity; [exact Hp|].
      apply Nat.add_le_mono_l, Nat.mul_le_mono_r. etransitivity; [|exact Hle]. rewrite sum_over_list_sum. apply list_sum_le. intros f _. apply grid_listed; assumption. }
    destruct Hst as [->|(-> & c3 & r3 & E3 & Hst)]; [nia|].
    assert (H3 : total_rows (c_log c3) <= total_rows (c_log c1) + (sum_over d (f_cols Xs) + extra) * n).
    { eapply (Hsing c1 c2 c3 r3 Hr1); [|exact E3]. destruct k; [exact E2|injection E2 as ->; reflexivity]. }
    assert (Hr2 : reachable O N m Xs P b c2) by (destruct k; [eapply (reachable_step O N m Xs P b c1 (OpSingle _)); [exact Hr1|exact E2]|injection E2 as ->; exact Hr1]).
    assert (Hr3 : reachable O N m Xs P b c3) by (eapply (reachable_step O N m Xs P b c2 (OpSingle _)); [exact Hr2|exact E3]).
    destruct Hst as [->|(-> & norm & -> & -> & c4 & r4 & E4 & ->)]; [nia|].
    pose proof (minus_cost O N HO m Xs P b c3 _ c4 r4 HwX Hr3 E4) as Hp. cbn [feats] in Hp. cbn [all_profiles pair_profiles] in *. fold n in Hp. nia.
  Qed.

  (** the total number of rows sent to the model, whatever it does *)
  Theorem C92_rows_any_model k s a s' r c Xs d : wf_frame (a_X a) -> a_calc a = None -> m_calc s = None ->
    fit k s a = (s', r) -> m_calc s' = Some c -> m_X s' = Some Xs -> values_listed Xs d ->
    total_rows (c_log c) <= (pair_profiles k d (length (f_rows Xs)) (all_features a) + sum_over d (f_cols Xs)
                             + (match k with Friedman _ => sum_over d (all_features a) | Greenwell => 0 end)
                             + all_profiles k (a_ova a) (length (f_rows Xs)) (all_features a)) * length (f_rows Xs).
  Proof.
    intros HX Ha Hs H Hc HXs Hd. destruct (fit_stages k s a s' r c Ha Hs H Hc) as (Xs' & rng' & Es & EX & Hst).
    rewrite HXs in EX. injection EX as <-. destruct (sample_wf R _ _ _ _ _ HR HX Es) as (HwX & _).
    eapply (stages_cost k _ _ _ c (md_id (a_model a)) Xs (callable (pf_of a)) (a_batch a) d) in Hst; [exact Hst|exact HwX|exact Hd|exists []; reflexivity| |destruct k; [lia|exact I]].
    intros c1 c2 c3 r3 Hr1 E2 E3.
    assert (Hr2 : reachable O N (md_id (a_model a)) Xs (callable (pf_of a)) (a_batch a) c2) by (destruct k; [eapply (reachable_step O N _ _ _ _ c1 (OpSingle _)); [exact Hr1|exact E2]|subst; exact Hr1]).
    pose proof (single_cost O N HO _ Xs _ _ c2 None c3 r3 HwX Hr2 E3) as Hp. rewrite list_sum_scale in Hp. cbn [feats] in Hp.
    assert (Hcols : list_sum (map (fun f => length (grid O Xs f)) (f_cols Xs)) <= sum_over d (f_cols Xs)) by (rewrite sum_over_list_sum; apply list_sum_le; intros f _; apply grid_listed; assumption).
    destruct k as [norm|]; [|subst c2; nia].
    pose proof (single_cost O N HO _ Xs _ _ c1 _ c2 _ HwX Hr1 E2) as Hp2. rewrite list_sum_scale in Hp2. cbn [feats] in Hp2.
    assert (Hfs : list_sum (map (fun f => length (grid O Xs f)) (all_features a)) <= sum_over d (all_features a)) by (rewrite sum_over_list_sum; apply list_sum_le; intros f _; apply grid_listed; assumption). nia.
  Qed.

  (** a row-wise model whose profiles are numbers is asked once for every value needed *)
  Theorem C92_rows k s a s' r c Xs d g : wf_frame (a_X a) -> a_calc a = None -> m_calc s = None ->
    fit k s a = (s', r) -> m_calc s' = Some c -> m_X s' = Some Xs -> values_listed Xs d ->
    rowwise (callable (pf_of a)) g ->
    (forall p v, In v (col_at p (f_rows Xs)) -> n_isnan N (PD1 (np_mean N) g (f_rows Xs) p v) = false) ->
    NoDup (all_features a) -> incl (all_features a) (f_cols Xs) ->
    total_rows (c_log c) <= (pair_profiles k d (length (f_rows Xs)) (all_features a) + sum_over d (f_cols Xs)
                             + all_profiles k (a_ova a) (length (f_rows Xs)) (all_features a)) * length (f_rows Xs).
  Proof.
    intros HX Ha Hs H Hc HXs Hd Hg Hnum Hnd Hincl. destruct (fit_stages k s a s' r c Ha Hs H Hc) as (Xs' & rng' & Es & EX & Hst).
    rewrite HXs in EX. injection EX as <-. destruct (sample_wf R _ _ _ _ _ HR HX Es) as (HwX & _).
    set (fs := all_features a) in *.
    assert (Hsplit : forall w : string -> nat, sum_over w (f_cols Xs) = sum_over w fs + sum_over (fun f => if in_dec string_dec f fs then 0 else w f) (f_cols Xs)).
    { intros w. pose proof HwX as (Hcn & _). rewrite !sum_over_list_sum.
      assert (Hperm : Permutation (f_cols Xs) (fs ++ filter (fun f => if in_dec string_dec f fs then false else true) (f_cols Xs))).
      { apply NoDup_Permutation; [exact Hcn| |].
        - apply NoDup_app_disj; [exact Hnd|apply NoDup_filter, Hcn|]. intros f Hf Hf2. apply filter_In in Hf2 as [_ Hf2]. destruct (in_dec string_dec f fs); [discriminate|contradiction].
        - intros f. rewrite in_app_iff, filter_In. split.
          + intros Hf. destruct (in_dec string_dec f fs) as [i|i] eqn:Ei; [left; exact i|right; auto].
          + intros [Hf|[Hf _]]; auto. }
      rewrite (Permutation_list_sum (Permutation_map w Hperm)), map_app, list_sum_app. f_equal. clear. generalize (f_cols Xs) as l. induction l as [|f l IH]; [reflexivity|]. cbn [filter map].
      destruct (in_dec string_dec f fs); cbn [map]; rewrite ?list_sum_cons; lia. }
    eapply (stages_cost k _ _ _ c (md_id (a_model a)) Xs (callable (pf_of a)) (a_batch a) d 0) in Hst; [rewrite Nat.add_0_r in Hst; exact Hst|exact HwX|exact Hd|exists []; reflexivity| |destruct k; [rewrite Nat.add_0_r, (Hsplit d); lia|exact I]].
    intros c1 c2 c3 r3 Hr1 E2 E3. rewrite Nat.add_0_r.
    assert (Hr2 : reachable O N (md_id (a_model a)) Xs (callable (pf_of a)) (a_batch a) c2) by (destruct k; [eapply (reachable_step O N _ _ _ _ c1 (OpSingle _)); [exact Hr1|exact E2]|subst; exact Hr1]).
    destruct k as [norm|].
    - pose proof (single_cost_ready O N HO _ Xs _ _ c2 None c3 r3 (fun f => if in_dec string_dec f fs then true else false) HwX Hr2) as Hp.
      rewrite list_sum_scale in Hp. cbn [feats] in Hp. specialize (fun Q => Hp Q E3).
      pose proof (single_cost O N HO _ Xs _ _ c1 _ c2 _ HwX Hr1 E2) as Hp2. rewrite list_sum_scale in Hp2. cbn [feats] in Hp2.
      assert (Hfs : list_sum (map (fun f => length (grid O Xs f)) fs) <= sum_over d fs) by (rewrite sum_over_list_sum; apply list_sum_le; intros f _; apply grid_listed; assumption).
      rewrite (Hsplit d).
      assert (Hrest : list_sum (map (fun f => if (if in_dec string_dec f fs then true else false) then 0 else length (grid O Xs f)) (f_cols Xs)) <= sum_over (fun f => if in_dec string_dec f fs then 0 else d f) (f_cols Xs)).
      { rewrite sum_over_list_sum. apply list_sum_le. intros f _. destruct (in_dec string_dec f fs); [lia|apply grid_listed; assumption]. }
      cut (total_rows (c_log c3) <= total_rows (c_log c2) + list_sum (map (fun f => if (if in_dec string_dec f fs then true else false) then 0 else length (grid O Xs f)) (f_cols Xs)) * length (f_rows Xs)); [nia|].
      apply Hp. intros f Hf. destruct (in_dec string_dec f fs) as [Hin|]; [|discriminate].
      destruct (In_nth_error _ _ (Hincl f Hin)) as (p & Hpn).
      destruct (pd_single_exact O N HO Hnan _ Xs _ _ c1 g (Some fs) c2 p f HwX Hg Hr1 E2 Hin Hpn) as [_ Hall].
      eexists. split; [exact Hall|]. intros x Hx. apply in_map_iff in Hx as (v & <- & Hv). apply Hnum, (np_unique_sub O HO), Hv.
    - subst c2. pose proof (single_cost O N HO _ Xs _ _ c1 None c3 r3 HwX Hr2 E3) as Hp. rewrite list_sum_scale in Hp. cbn [feats] in Hp.
      assert (Hcols : list_sum (map (fun f => length (grid O Xs f)) (f_cols Xs)) <= sum_over d (f_cols Xs)) by (rewrite sum_over_list_sum; apply list_sum_le; intros f _; apply grid_listed; assumption). nia.
  Qed.
End Budget.

(** three rows, two values of "a" and three of "b": the bounds are met exactly *)
Definition ex_d (f : string) : nat := if String.eqb f "a" then 2 else 3.
Example C92_example :
  let fit1 k ova := match m_calc (fst (fitQ k init0 (mkargs exP exX None ova None))) with Some c => map (@length _) (c_log c) | None => [] end in
  let bound k ova := (pair_profiles k ex_d 3 ["a"; "b"] + sum_over ex_d ["a"; "b"] + all_profiles k ova 3 ["a"; "b"]) * 3 in
  (fit1 (Friedman true) true, bound (Friedman true) true) = ([6; 3; 6; 9; 9; 9], 42)
  /\ (fit1 Greenwell false, bound Greenwell false) = ([6; 6; 6; 6; 9], 33).
Proof. vm_compute. split; reflexivity. Qed.
Example C92_listed : values_listed exX ex_d.
Proof.
  intros f p Hp. destruct p as [|[|p]]; cbn in Hp; [injection Hp as <-; exists [1; 2]%Z|injection Hp as <-; exists [10; 20; 30]%Z|destruct p; discriminate]; (split; [intros v Hv; cbn in *; tauto|vm_compute; lia]).
Qed.

(** a model that predicts NaN is asked again for the same profiles: hence the hypothesis of [C92_rows] *)
Example C92_nan_example :
  match m_calc (fst (fitQ (Friedman true) init0 (mkargs (fun _ rows => Ok (map (fun _ => NaN) rows)) exX None false None))) with
  | Some c => (total_rows (c_log c), (pair_profiles (Friedman true) ex_d 3 ["a"; "b"] + sum_over ex_d ["a"; "b"]) * 3) = (39, 24)
  | None => False
  end.
Proof. vm_compute. reflexivity. Qed.

Print Assumptions C92_request_size.
Print Assumptions C92_rows_any_model.
Print Assumptions C92_rows.
