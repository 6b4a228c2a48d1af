(** What fit does when the model always answers, the data have no missing values and the
    requested features are columns: the results are a function of the data and of the
    row-wise function of the model alone. *)
From Verif Require Import Py Num NumR Sorting Frame Rng PdCalc PdSpec PdFacts PdProofs PdTheorems PdErrors PdApi PdMethods MethodSpec PdMethodFacts.
Open Scope nat_scope.

Section Run.
  Context {C V G : Type} (O : cell_ops C) (N : num_ops V) (HO : cell_ok O) (Hnan : n_isnan N (n_nan N) = true)
          (R : rng_ops G) (HR : rng_ok R) (srt : sorter).
  Notation calc := (calc C V).
  Notation predictor := (nat -> list (list C) -> result (list V)).

  (** the model never raises *)
  Definition total (P : predictor) : Prop := forall n rows, exists ys, P n rows = Ok ys.
  (** no missing values *)
  Definition complete (X : frame C) : Prop :=
    forall f p v, nth_error (f_cols X) p = Some f -> In v (col_at p (f_rows X)) -> c_isnan O v = false.

  Lemma grid_complete X f v : wf_frame X -> complete X -> In v (grid O X f) -> c_isnan O v = false.
  Proof.
    intros HX Hc Hv. pose proof (grid_In_col O _ _ _ Hv) as Hcol. apply In_nth_error in Hcol as (p & Hp).
    rewrite (grid_of O X HX p f Hp) in Hv. apply (np_unique_sub O HO) in Hv. eapply Hc; eassumption.
  Qed.

  Lemma single_run X P b m c fs : wf_frame X -> total P -> complete X -> reachable O N m X P b c ->
    (forall f, In f (feats X fs) -> In f (f_cols X)) ->
    exists c', calculate_pd_single O N c fs = (c', Ok tt) /\ reachable O N m X P b c'.
  Proof.
    intros HX Ht Hc Hr Hf. destruct (calculate_pd_single O N c fs) as [c' r] eqn:H. exists c'. split.
    - destruct r as [[]|e]; [reflexivity|exfalso].
      destruct (single_outcome O N HO m X P b c fs c' (Err e) HX Hr H) as [He _].
      destruct (He e eq_refl) as [(n & rows & Hn & Hp)|[(-> & f & Hin & Hno)|(-> & f & v & Hin & Hv & Hvn)]].
      + destruct (Ht n rows) as (ys & Hy); congruence.
      + auto.
      + rewrite (grid_complete X f v HX Hc Hv) in Hvn; discriminate.
    - eapply (reachable_step O N m X P b c (OpSingle fs)); [exact Hr|exact H].
  Qed.

  Lemma minus_run X P b m c fs : wf_frame X -> total P -> reachable O N m X P b c ->
    (forall f, In f (feats X fs) -> In f (f_cols X)) ->
    exists c', calculate_pd_minus_single N c fs = (c', Ok tt) /\ reachable O N m X P b c'.
  Proof.
    intros HX Ht Hr Hf. destruct (calculate_pd_minus_single N c fs) as [c' r] eqn:H. exists c'. split.
    - destruct r as [[]|e]; [reflexivity|exfalso].
      destruct (minus_outcome O N HO m X P b c fs c' (Err e) HX Hr H) as [He _].
      destruct (He e eq_refl) as [(n & rows & Hn & Hp)|(-> & f & Hin & Hno)].
      + destruct (Ht n rows) as (ys & Hy); congruence.
      + auto.
    - eapply (reachable_step O N m X P b c (OpMinus fs)); [exact Hr|exact H].
  Qed.

  Definition known_pairs (X : frame C) (ps : list (string * string)) : Prop :=
    forall p, In p ps -> In (fst p) (f_cols X) /\ In (snd p) (f_cols X) /\ fst p <> snd p.

  Lemma pairs_run X P b m c ps a : wf_frame X -> total P -> complete X -> reachable O N m X P b c -> known_pairs X ps ->
    exists c', calculate_pd_pairs O N c (Some ps) a = (c', Ok tt) /\ reachable O N m X P b c'.
  Proof.
    intros HX Ht Hc Hr Hk. destruct (calculate_pd_pairs O N c (Some ps) a) as [c' r] eqn:H. exists c'. split.
    - destruct r as [[]|e]; [reflexivity|exfalso].
      destruct (pairs_outcome O N HO m X P b c (Some ps) a c' (Err e) HX Hr H) as [He _].
      destruct (He e eq_refl) as [(n & rows & Hn & Hp)|[(-> & f1 & f2 & Hin & Hno)|(-> & f & v & pr & Hin & _ & Hv & Hvn)]].
      + destruct (Ht n rows) as (ys & Hy); congruence.
      + apply Hk in Hin as (H1 & H2 & H3). cbn in *. tauto.
      + rewrite (grid_complete X f v HX Hc Hv) in Hvn; discriminate.
    - eapply (reachable_step O N m X P b c (OpPairs (Some ps) a)); [exact Hr|exact H].
  Qed.

  Lemma known_combinations X fs : NoDup fs -> (forall f, In f fs -> In f (f_cols X)) -> known_pairs X (combinations2 fs).
  Proof.
    intros Hnd Hin [f1 f2] Hp. cbn. pose proof (combinations2_irrefl fs f1 f2 Hnd Hp) as Hne.
    apply combinations2_In in Hp as [H1 H2]. auto.
  Qed.

  Lemma column_known (X : frame C) p f : wf_frame X -> nth_error (f_cols X) p = Some f -> column X f = Ok (col_at p (f_rows X)).
  Proof. intros (Hnd & _) Hp. unfold column. rewrite (col_pos_NoDup _ _ _ Hnd Hp); reflexivity. Qed.

  Lemma mapM_all {A B} (f : A -> result B) (h : A -> B) l : (forall x, In x l -> f x = Ok (h x)) -> mapM f l = Ok (map h l).
  Proof.
    induction l as [|x t IH]; intros H; cbn; [reflexivity|]. rewrite (H x (or_introl eq_refl)). cbn [bind].
    rewrite IH by (intros; apply H; right; assumption). reflexivity.
  Qed.

  Lemma friedman_ovo_run norm X fs c m P b g :
    wf_frame X -> rowwise P g -> total P -> complete X -> reachable O N m X P b c ->
    NoDup fs -> (forall f, In f fs -> In f (f_cols X)) ->
    exists c', friedman_ovo O N srt norm X fs (combinations2 fs) c
      = (c', Ok (table N srt (map (friedman_raw N X g norm) (combinations2 fs)))) /\ reachable O N m X P b c'.
  Proof.
    intros HX Hg Ht Hc Hr Hnd Hin. pose proof (known_combinations X fs Hnd Hin) as Hk.
    destruct (friedman_ovo O N srt norm X fs (combinations2 fs) c) as [c' r] eqn:H.
    assert (Hok : exists t, r = Ok t).
    { unfold friedman_ovo in H.
      destruct (pairs_run X P b m c (combinations2 fs) false HX Ht Hc Hr Hk) as (c1 & E1 & Hr1). rewrite E1 in H.
      destruct (single_run X P b m c1 (Some fs) HX Ht Hc Hr1 Hin) as (c2 & E2 & Hr2). rewrite E2 in H.
      apply (f_equal snd) in H; cbn [snd] in H; subst r.
      pose proof (single_isolation O N HO m X P b c1 (Some fs) c2 (Ok tt) HX Hr1 E2) as (Hpc & _).
      eexists. erewrite (mapM_all _ (fun p => (fst p, snd p, H_pair N g (f_rows X) norm (posn X (fst p)) (posn X (snd p))))); [reflexivity|].
      intros [f1 f2] Hp. cbn [fst snd]. destruct (Hk _ Hp) as (Hi1 & Hi2 & Hne); cbn [fst snd] in *.
      apply combinations2_In in Hp as Hp'. destruct Hp' as [Hf1 Hf2]; cbn [fst snd] in *.
      apply In_nth_error in Hi1 as (p & Hp1). apply In_nth_error in Hi2 as (q & Hq1).
      assert (Hpq : p <> q) by congruence.
      rewrite (column_known X p f1 HX Hp1), (column_known X q f2 HX Hq1). cbn [bind].
      destruct (pd_single_exact O N HO Hnan m X P b c1 g (Some fs) c2 p f1 HX Hg Hr1 E2 Hf1 Hp1) as [A1 _].
      destruct (pd_single_exact O N HO Hnan m X P b c1 g (Some fs) c2 q f2 HX Hg Hr1 E2 Hf2 Hq1) as [A2 _].
      rewrite (A1 (col_at p (f_rows X))), (A2 (col_at q (f_rows X))) by auto. cbn [bind].
      assert (Hlen : forall r, In r (f_rows X) -> p < length r /\ q < length r)
        by (intros r Hrr; split; eapply wf_len; eassumption).
      rewrite (get_pd_pairs_ext O c2 c1 f1 f2 _ Hpc).
      rewrite (pd_pairs_exact O N HO Hnan m X P b c g (Some (combinations2 fs)) false c1 p q f1 f2 HX Hg Hr E1); auto.
      2: left; exact Hp.
      2: intros v w Hvw; apply (combine_cols_In p q); assumption.
      cbn [bind]. f_equal. rewrite (posn_nth X p f1 HX Hp1), (posn_nth X q f2 HX Hq1). f_equal.
      unfold H_pair. rewrite <- hstat_rows. f_equal.
      - apply col_at_map. intros r Hrr; apply Hlen, Hrr.
      - apply col_at_map. intros r Hrr; apply Hlen, Hrr.
      - exact (combine_cols p q (f_rows X) _ (n_nan N) Hlen). }
    destruct Hok as (t & ->). exists c'.
    destruct (friedman_ovo_spec O N HO Hnan srt norm X fs _ c c' t m P b g HX Hg Hr (fun p => combinations2_fst_snd fs p) H) as (-> & Hr' & _).
    split; [reflexivity|exact Hr'].
  Qed.

  Lemma greenwell_ovo_run X fs c m P b g :
    wf_frame X -> rowwise P g -> total P -> complete X -> reachable O N m X P b c ->
    NoDup fs -> (forall f, In f fs -> In f (f_cols X)) ->
    exists c', greenwell_ovo O N srt X fs (combinations2 fs) c
      = (c', do l <- mapM (fun p => do v <- greenwell_raw O N X g fs p; Ok (ordered X p, v)) (combinations2 fs); Ok (table N srt l))
      /\ reachable O N m X P b c'.
  Proof.
    intros HX Hg Ht Hc Hr Hnd Hin. pose proof (known_combinations X fs Hnd Hin) as Hk.
    destruct (greenwell_ovo O N srt X fs (combinations2 fs) c) as [c' r] eqn:H. exists c'.
    destruct (greenwell_ovo_spec O N HO Hnan srt X fs _ c c' r m P b g HX Hg Hr H) as (Hr' & r0 & E & _ & A).
    split; [|exact Hr']. destruct (pairs_run X P b m c (combinations2 fs) true HX Ht Hc Hr Hk) as (c1 & E1 & _).
    rewrite E1 in E. injection E as <- <-. destruct (A eq_refl) as [_ ->]. reflexivity.
  Qed.

  Definition imp_raw (X : frame C) (g : list C -> V) (fs : list string) (f : string) : result V :=
    calc_importance N (map (PD1 (np_mean N) g (f_rows X) (posn X f)) (np_unique O (col_at (posn X f) (f_rows X)))) (is_numerical X fs f).
  Definition imp_val (X : frame C) (g : list C -> V) (fs : list string) : result (list (string * V)) :=
    do l <- mapM (fun f => do v <- imp_raw X g fs f; Ok (f, v)) fs; Ok (table N srt l).

  Lemma pdp_importance_run X fs c m P b g :
    wf_frame X -> rowwise P g -> total P -> complete X -> reachable O N m X P b c ->
    (forall f, In f fs -> In f (f_cols X)) ->
    exists c', pdp_importance O N srt X fs c = (c', imp_val X g fs) /\ reachable O N m X P b c'
      /\ calculate_pd_single O N c None = (c', Ok tt).
  Proof.
    intros HX Hg Ht Hc Hr Hin.
    destruct (single_run X P b m c None HX Ht Hc Hr (fun f H => H)) as (c1 & E1 & Hr1).
    exists c1. split; [|auto]. unfold pdp_importance. rewrite E1. f_equal. unfold imp_val.
    erewrite (mapM_ext _ (fun f => do v <- imp_raw X g fs f; Ok (f, v))); [reflexivity|].
    intros f Hf. apply Hin in Hf. pose proof Hf as Hf'. apply In_nth_error in Hf as (p & Hp).
    destruct (pd_single_exact O N HO Hnan m X P b c g None c1 p f HX Hg Hr E1 Hf' Hp) as [_ A].
    rewrite A. cbn [bind]. unfold imp_raw. rewrite (posn_nth X p f HX Hp). reflexivity.
  Qed.

  Lemma friedman_ova_run norm pf X fs c m P b g c0 :
    wf_frame X -> rowwise P g -> total P -> rowwise (callable pf) g -> total (callable pf) ->
    reachable O N m X P b c0 -> calculate_pd_single O N c0 None = (c, Ok tt) ->
    (forall f, In f fs -> In f (f_cols X)) ->
    exists c', friedman_ova O N srt norm pf X fs c = (c', Ok (table N srt (map (ova_raw N X g norm) fs))).
  Proof.
    intros HX Hg Ht Hpf Htp Hr0 E0 Hin. unfold friedman_ova.
    assert (Hr : reachable O N m X P b c) by (eapply (reachable_step O N m X P b c0 (OpSingle None)); [exact Hr0|exact E0]).
    destruct (minus_run X P b m c (Some fs) HX Ht Hr Hin) as (c1 & E1 & Hr1). rewrite E1. exists c1. f_equal.
    destruct (Htp (length (c_log c1)) (f_rows X)) as (preds & Ep). rewrite Ep. apply Hpf in Ep. subst preds. cbn [bind].
    pose proof (minus_isolation O N HO m X P b c (Some fs) c1 (Ok tt) HX Hr E1) as (_ & Hsc & _).
    rewrite (mapM_all _ (ova_raw N X g norm)); [reflexivity|].
    intros f Hf. pose proof (Hin f Hf) as Hi. apply In_nth_error in Hi as (p & Hp).
    rewrite (column_known X p f HX Hp). cbn [bind].
    rewrite (get_pd_single_ext O c1 c f _ Hsc).
    destruct (pd_single_exact O N HO Hnan m X P b c0 g None c p f HX Hg Hr0 E0 (Hin f Hf) Hp) as [A _].
    rewrite A by auto. cbn [bind].
    rewrite (pd_minus_exact O N HO Hnan m X P b c g (Some fs) c1 p f HX Hg Hr E1 Hf Hp). cbn [bind].
    rewrite hstat_np_equal by (rewrite !map_length; try reflexivity; symmetry; eapply wf_column_length; eassumption). cbn [bind].
    unfold ova_raw. rewrite (posn_nth X p f HX Hp). f_equal. f_equal. unfold H_all. rewrite <- hstat_rows. f_equal.
    apply col_at_map. intros r Hrr; eapply wf_len; eassumption.
  Qed.

  (** ** The outcome of fit *)
  Definition ovo_val (k : kind) (X : frame C) (g : list C -> V) (fs : list string) : result (list (string * string * V)) :=
    match k with
    | Friedman norm => Ok (table N srt (map (friedman_raw N X g norm) (combinations2 fs)))
    | Greenwell => do l <- mapM (fun p => do v <- greenwell_raw O N X g fs p; Ok (ordered X p, v)) (combinations2 fs); Ok (table N srt l)
    end.
  Definition fit_val (k : kind) (s : mstate C V G) (X : frame C) (g : list C -> V) (fs : list string) (ova : bool) :=
    match ovo_val k X g fs with
    | Err e => (Err e, m_ovo s, m_fi s, m_ova s)
    | Ok t =>
        match imp_val X g fs with
        | Err e => (Err e, Some t, m_fi s, m_ova s)
        | Ok fi => (Ok tt, Some t, Some fi,
                    match k with
                    | Friedman norm => if ova then Some (table N srt (map (ova_raw N X g norm) fs)) else m_ova s
                    | Greenwell => m_ova s
                    end)
        end
    end.

  (** the call explains [g], its predict function and its calculator always answer, and the
      calculator, if supplied, was made for the same model and data *)
  Definition explains_total (a : fargs C V) (g : list C -> V) (Xs : frame C) : Prop :=
    rowwise (callable (pf_of a)) g /\ total (callable (pf_of a))
    /\ match a_calc a with
       | None => True
       | Some c => exists P b, reachable O N (md_id (a_model a)) Xs P b c /\ rowwise P g /\ total P
       end.

  Lemma reachable_model m X P b c : wf_frame X -> reachable O N m X P b c -> c_model c = m /\ c_X c = X.
  Proof. intros HX Hr. destruct (reachable_shaped O N HO m X P b c HX Hr) as (_ & ? & _ & _ & ?). auto. Qed.

  Lemma pick_calc_ok md X pf bs m P b c : wf_frame X -> reachable O N m X P b c -> m = md_id md ->
    pick_calc O N md X pf bs (Some c) = Ok c.
  Proof.
    intros HX Hr ->. destruct (reachable_model _ _ _ _ _ HX Hr) as [E1 E2]. unfold pick_calc.
    rewrite E1, E2, Nat.eqb_refl, frame_equals_refl. reflexivity.
  Qed.

  Theorem fit_run k s a s' r g Xs rng' :
    wf_frame (a_X a) -> sample_if_not_none R (m_rng s) (a_X a) (a_n a) = Ok (Xs, rng') ->
    explains_total a g Xs -> complete Xs ->
    NoDup (all_features a) -> (forall f, In f (all_features a) -> In f (f_cols Xs)) ->
    fit O N R srt k s a = (s', r) ->
    (r, m_ovo s', m_fi s', m_ova s') = fit_val k s Xs g (all_features a) (a_ova a).
  Proof.
    intros HX0 Es (Hpf & Htp & Hcalc) Hc Hnd Hin H.
    destruct (sample_wf R _ _ _ _ _ HR HX0 Es) as (HX & _).
    unfold fit, fit_base in H. rewrite Es in H. fold (all_features a) in H. fold (pf_of a) in H.
    assert (Hpick : exists c P b, pick_calc O N (a_model a) Xs (pf_of a) (a_batch a) (a_calc a) = Ok c
              /\ reachable O N (md_id (a_model a)) Xs P b c /\ rowwise P g /\ total P).
    { destruct (a_calc a) as [c0|].
      - destruct Hcalc as (P & b & Hr & Hg & Ht). exists c0, P, b. split; [|auto]. eapply pick_calc_ok; [exact HX|exact Hr|reflexivity].
      - exists (calc_init O N (md_id (a_model a)) Xs (callable (pf_of a)) (a_batch a)), (callable (pf_of a)), (a_batch a).
        split; [reflexivity|]. split; [exists []; reflexivity|auto]. }
    destruct Hpick as (c & P & b & Ec & Hr & Hg & Ht). rewrite Ec in H.
    assert (Hovo : exists c1, ovo_of O N srt k Xs (all_features a) (combinations2 (all_features a)) c = (c1, ovo_val k Xs g (all_features a))
                     /\ reachable O N (md_id (a_model a)) Xs P b c1).
    { destruct k as [norm|].
      - apply (friedman_ovo_run norm Xs _ c _ P b g); assumption.
      - apply (greenwell_ovo_run Xs _ c _ P b g); assumption. }
    destruct Hovo as (c1 & Eo & Hr1). rewrite Eo in H. unfold fit_val.
    destruct (ovo_val k Xs g (all_features a)) as [t|e]; [|injection H as <- <-; reflexivity].
    unfold pd_importance in H. cbn [sample_if_not_none] in H.
    rewrite (pick_calc_ok (a_model a) Xs _ 2000 _ P b c1 HX Hr1 eq_refl) in H.
    destruct (pdp_importance_run Xs (all_features a) c1 _ P b g HX Hg Ht Hc Hr1 Hin) as (c2 & Ei & Hr2 & Es2).
    rewrite Ei in H. destruct (imp_val Xs g (all_features a)) as [fi|e]; [|injection H as <- <-; reflexivity].
    cbn [m_calc m_X m_features m_predict m_rng m_ova m_ovo m_fi m_model m_pairs m_fi_obj] in H.
    destruct k as [norm|]; [|injection H as <- <-; reflexivity].
    destruct (a_ova a); [|injection H as <- <-; reflexivity].
    destruct (friedman_ova_run norm (pf_of a) Xs (all_features a) c2 _ P b g c1 HX Hg Ht Hpf Htp Hr1 Es2 Hin) as (c3 & Ev).
    rewrite Ev in H. injection H as <- <-. reflexivity.
  Qed.
End Run.
