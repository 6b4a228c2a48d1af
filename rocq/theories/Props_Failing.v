(** C143: a model that raises.  The exception reaches the caller unchanged, nothing is asked after it, and a later call
    with the same calculator gives the values of a run without failures. *)
From Verif Require Import Py Num NumR Sorting Frame Rng PdCalc PdSpec PdFacts PdProofs PdTheorems PdErrors PdApi PdMethods MethodSpec PdMethodFacts PdMethodRun Additivity
  Props_Pd Props_Methods2 Perm Failing.
From Coq Require Import QArith Lia.
Open Scope string_scope.
Open Scope nat_scope.
Open Scope list_scope.

(** ** Specification *)

(** The outcome [r] of a call whose requests, from number [n0] on, are recorded in [log]: if the model raises at some
    request, then that request is the last one and its exception is the outcome; otherwise the outcome is a value, one
    of the library's [own] exceptions, or an exception raised by [extra], a prediction made outside the batches. *)
Definition reports {C V A} (own : exn -> Prop) (P : nat -> list (list C) -> result (list V)) (n0 : nat) (log : list (list (list C))) (extra : option (result (list V))) (r : result A) : Prop :=
  (forall n rows e, n0 <= n -> nth_error log n = Some rows -> P n rows = Err e -> r = Err e /\ length log = S n)
  /\ (forall e, r = Err e -> own e \/ extra = Some (Err e) \/ exists n rows, length log = S n /\ n0 <= n /\ nth_error log n = Some rows /\ P n rows = Err e)
  /\ (forall a, r = Ok a -> forall e, extra <> Some (Err e)).

Lemma reports_of {C V A} (own : exn -> Prop) (P : nat -> list (list C) -> result (list V)) n0 log extra (r : result A) :
  match r with
  | Ok _ => answered P n0 log /\ (forall e, extra <> Some (Err e))
  | Err e => (answered P n0 log /\ (own e \/ extra = Some (Err e))) \/ stopped P n0 log e
  end -> reports own P n0 log extra r.
Proof.
  intros H. assert (Hstop : forall e, stopped P n0 log e -> (forall n rows e', n0 <= n -> nth_error log n = Some rows -> P n rows = Err e' -> e' = e /\ length log = S n)
    /\ exists n rows, length log = S n /\ n0 <= n /\ nth_error log n = Some rows /\ P n rows = Err e).
  { intros e (log' & rows & -> & Hn & Ha & E). split.
    - intros n rows' e' Hn' Hr Hp. destruct (Nat.lt_ge_cases n (length log')) as [L|L].
      + rewrite nth_error_app1 in Hr by exact L. destruct (Ha n rows' Hn' Hr). congruence.
      + rewrite nth_error_app2 in Hr by exact L. destruct (n - length log') as [|j] eqn:Ej; [|destruct j; discriminate]. injection Hr as <-. assert (n = length log') as -> by lia. rewrite app_length. cbn. split; [congruence|lia].
    - exists (length log'), rows. rewrite app_length, nth_error_app2, Nat.sub_diag by lia. cbn. repeat split; auto; lia. }
  assert (Hno : answered P n0 log -> forall n rows e (Q : Prop), n0 <= n -> nth_error log n = Some rows -> P n rows = Err e -> Q).
  { intros Ha n rows e Q Hn Hr Hp. destruct (Ha n rows Hn Hr). congruence. }
  destruct r as [a|e].
  - destruct H as [Ha He]. split; [intros n rows e Hn Hr Hp; exact (Hno Ha n rows e _ Hn Hr Hp)|]. split; [discriminate|]. intros _ _. exact He.
  - split; [|split; [|discriminate]].
    + intros n rows e' Hn Hr Hp. destruct H as [[Ha _]|Hs]; [exact (Hno Ha n rows e' _ Hn Hr Hp)|]. destruct (Hstop e Hs) as [HA _]. destruct (HA n rows e' Hn Hr Hp) as [-> L]. auto.
    + intros e' E. injection E as <-. destruct H as [[_ [Hl|Hx]]|Hs]; [auto|auto|]. right; right. apply (Hstop e Hs).
Qed.

Section Fit.
  Context {C V G : Type} (O : cell_ops C) (N : num_ops V) (Rg : rng_ops G) (srt : sorter).
  Notation fit := (PdMethods.fit O N Rg srt).

  (** the calculator a call works with *)
  Definition begins (md : model C V) (X : frame C) (pf : option (nat -> list (list C) -> result (list V))) (bs : Z) (given : option (calc C V)) : calc C V :=
    match given with Some c => c | None => calc_init O N (md_id md) X (callable pf) bs end.
  Lemma pick_begins md X pf bs given c : pick_calc O N md X pf bs given = Ok c -> c = begins md X pf bs given.
  Proof. unfold pick_calc, begins. destruct given as [c0|]; [|congruence]. destruct (negb _); [discriminate|]. destruct (negb _); congruence. Qed.
  Lemma continued_self c : continued (length (c_log c)) (c : calc C V).
  Proof. split; [lia|]. intros n rows Hn Hr. assert (n < length (c_log c)) by (apply nth_error_Some; congruence). lia. Qed.

  (** fit of the methods of Friedman and Greenwell *)
  Theorem C143_fit k s a s' r : fit k s a = (s', r) ->
    match sample_if_not_none Rg (m_rng s) (a_X a) (a_n a) with
    | Err e => r = Err e
    | Ok (Xs, _) =>
        let c := begins (a_model a) Xs (pf_of a) (a_batch a) (a_calc a) in
        (a_calc a <> None /\ r = Err ValueError /\ m_calc s' = m_calc s) \/
        exists c', m_calc s' = Some c' /\ c_predict c' = c_predict c /\ length (c_log c) <= length (c_log c') /\ exists extra,
          reports library (c_predict c) (length (c_log c)) (c_log c') extra r
          /\ (extra = None \/ a_ova a = true /\ extra = Some (callable (pf_of a) (length (c_log c')) (f_rows Xs)))
          /\ (forall norm, k = Friedman norm -> a_ova a = true -> r = Ok tt -> extra <> None)
    end.
  Proof.
    intros H. unfold PdMethods.fit, fit_base in H. fold (pf_of a) in H. destruct (sample_if_not_none Rg (m_rng s) (a_X a) (a_n a)) as [[Xs rng']|e]; [|congruence]. cbv zeta.
    pose proof (pick_raises O N (a_model a) Xs (pf_of a) (a_batch a) (a_calc a)) as Hpr. destruct (pick_calc O N (a_model a) Xs (pf_of a) (a_batch a) (a_calc a)) as [c|e] eqn:Ep.
    2: { left. unfold pick_calc in Ep. destruct (a_calc a) as [c0|]; [|discriminate]. injection H as <- <-. split; [discriminate|]. split; [|reflexivity]. destruct (negb _); [congruence|]. destruct (negb _); [congruence|discriminate]. }
    rewrite <- (pick_begins _ _ _ _ _ _ Ep). right. clear Hpr Ep.
    assert (Hfin : forall c', kept c c' -> (match r with Ok _ => continued (length (c_log c)) c' | Err e => (continued (length (c_log c)) c' /\ library e) \/ stopped (c_predict c) (length (c_log c)) (c_log c') e end) ->
      c_predict c' = c_predict c /\ length (c_log c) <= length (c_log c') /\ reports library (c_predict c) (length (c_log c)) (c_log c') None r).
    { intros c' Hk Hr. pose proof (proj1 Hk) as E. split; [exact E|]. split.
      - destruct r; [apply Hr|]. destruct Hr as [[Hr _]|(l & rows & -> & Hl & _)]; [apply Hr|]. rewrite app_length. cbn. lia.
      - apply reports_of. destruct r as [u|e]; [destruct Hr as [_ Hr]; rewrite E in Hr; split; [exact Hr|discriminate]|]. destruct Hr as [[[_ Hr] He]|Hr]; [left; rewrite E in Hr; auto|right; exact Hr]. }
    pose proof (ovo_leads O N srt k Xs (match a_features a with None => f_cols (a_X a) | Some l => l end) (combinations2 (match a_features a with None => f_cols (a_X a) | Some l => l end)) (length (c_log c)) c (continued_self c)) as [K1 L1].
    destruct (ovo_of O N srt k Xs _ _ c) as [c1 [t|e]]; cbn [fst snd] in K1, L1.
    2: { injection H as <- <-. exists c1. split; [reflexivity|]. destruct (Hfin c1 K1 L1) as (E1 & E2 & E3). split; [exact E1|]. split; [exact E2|]. exists None. split; [exact E3|]. split; [auto|discriminate]. }
    unfold pd_importance in H. cbn [sample_if_not_none] in H.
    destruct (pick_calc O N (a_model a) Xs (get_predict_function (a_model a) None) 2000 (Some c1)) as [c1'|e] eqn:Ep.
    2: { injection H as <- <-. exists c1. split; [reflexivity|]. pose proof (pick_raises O N (a_model a) Xs (get_predict_function (a_model a) None) 2000 (Some c1)) as Hpr. rewrite Ep in Hpr.
         destruct (Hfin c1 K1 (or_introl (conj L1 Hpr))) as (E1 & E2 & E3). split; [exact E1|]. split; [exact E2|]. exists None. split; [exact E3|]. split; [auto|discriminate]. }
    apply pick_begins in Ep. cbn [begins] in Ep. subst c1'.
    pose proof (leads_through (length (c_log c)) c c1 _ K1 (pdp_importance_leads O N srt Xs (match a_features a with None => f_cols (a_X a) | Some l => l end) (length (c_log c)) c1 L1)) as [K2 L2].
    destruct (pdp_importance O N srt Xs _ c1) as [c2 [fi|e]]; cbn [fst snd] in K2, L2.
    2: { injection H as <- <-. exists c2. split; [reflexivity|]. destruct (Hfin c2 K2 L2) as (E1 & E2 & E3). split; [exact E1|]. split; [exact E2|]. exists None. split; [exact E3|]. split; [auto|discriminate]. }
    assert (Hdone : (s', r) = ({| m_rng := rng'; m_predict := Some (pf_of a); m_model := Some (a_model a); m_X := Some Xs; m_features := Some match a_features a with None => f_cols (a_X a) | Some l => l end;
        m_pairs := Some (combinations2 match a_features a with None => f_cols (a_X a) | Some l => l end); m_calc := Some c2; m_ovo := Some t; m_fi := Some fi; m_fi_obj := true; m_ova := m_ova s |}, Ok tt) ->
      (forall norm, k = Friedman norm -> a_ova a = false) ->
      exists c', m_calc s' = Some c' /\ c_predict c' = c_predict c /\ length (c_log c) <= length (c_log c') /\ exists extra, reports library (c_predict c) (length (c_log c)) (c_log c') extra r
        /\ (extra = None \/ a_ova a = true /\ extra = Some (callable (pf_of a) (length (c_log c')) (f_rows Xs))) /\ (forall norm, k = Friedman norm -> a_ova a = true -> r = Ok tt -> extra <> None)).
    { intros E Hk. injection E as -> ->. exists c2. split; [reflexivity|]. destruct (Hfin c2 K2 L2) as (E1 & E2 & E3). split; [exact E1|]. split; [exact E2|]. exists None. split; [exact E3|]. split; [auto|].
      intros norm E Ho. rewrite (Hk norm E) in Ho. discriminate. }
    destruct k as [norm|]; [|apply Hdone; [congruence|discriminate]]. destruct (a_ova a) eqn:Ho; [|apply Hdone; [congruence|reflexivity]]. clear Hdone.
    cbn [m_calc m_X m_features m_predict] in H.
    pose proof (friedman_ova_leads O N srt norm (pf_of a) Xs (match a_features a with None => f_cols (a_X a) | Some l => l end) (length (c_log c)) c2 L2) as Hl.
    destruct (friedman_ova O N srt norm (pf_of a) Xs _ c2) as [c3 r3] eqn:E3.
    destruct Hl as [Hl|(c' & e & Hl & Hk & Hc & He)].
    - apply (leads_through (length (c_log c)) c c2 _ K2) in Hl. destruct Hl as [K3 L3]. cbn [fst snd] in K3, L3. destruct r3 as [t3|e].
      + injection H as <- <-. exists c3. split; [reflexivity|]. destruct (Hfin c3 K3 L3) as (A1 & A2 & _). split; [exact A1|]. split; [exact A2|].
        exists (Some (callable (pf_of a) (length (c_log c3)) (f_rows Xs))). destruct (friedman_ova_asked O N srt norm _ _ _ _ _ _ E3) as (ys & Hy). split; [|split; [right; auto|discriminate]].
        apply reports_of. destruct L3 as [_ L3]. rewrite A1 in L3. split; [exact L3|]. intros e. rewrite Hy. discriminate.
      + injection H as <- <-. exists c3. split; [reflexivity|]. destruct (Hfin c3 K3 L3) as (A1 & A2 & A3). split; [exact A1|]. split; [exact A2|]. exists None. split; [exact A3|]. split; [auto|discriminate].
    - injection Hl as -> ->. injection H as <- <-. exists c'. split; [reflexivity|]. destruct (kept_trans _ _ _ K2 Hk) as (A1 & _). split; [exact A1|]. destruct Hc as [Hc1 Hc2]. split; [exact Hc1|].
      exists (Some (callable (pf_of a) (length (c_log c')) (f_rows Xs))). split; [|split; [right; auto|discriminate]]. apply reports_of. left. rewrite A1 in Hc2. rewrite He. auto.
  Qed.

  (** the partial dependence importance *)
  Theorem C143_importance g md X n pf fs bs given c' r : pd_importance O N Rg srt g md X n pf fs bs given = (c', r) ->
    match sample_if_not_none Rg g X n with
    | Err e => r = Err e
    | Ok (Xs, _) =>
        let c := begins md Xs (get_predict_function md pf) bs given in
        (given <> None /\ r = Err ValueError /\ c' = given) \/
        exists c1, c' = Some c1 /\ c_predict c1 = c_predict c /\ length (c_log c) <= length (c_log c1) /\ reports library (c_predict c) (length (c_log c)) (c_log c1) None r
    end.
  Proof.
    unfold pd_importance. destruct (sample_if_not_none Rg g X n) as [[Xs rng']|e]; [|congruence]. cbv zeta. intros H.
    destruct (pick_calc O N md Xs (get_predict_function md pf) bs given) as [c|e] eqn:Ep.
    2: { left. unfold pick_calc in Ep. destruct given as [c0|]; [|discriminate]. injection H as <- <-. split; [discriminate|]. split; [|reflexivity]. destruct (negb _); [congruence|]. destruct (negb _); [congruence|discriminate]. }
    rewrite <- (pick_begins _ _ _ _ _ _ Ep). right. clear Ep.
    pose proof (pdp_importance_leads O N srt Xs (match fs with None => f_cols X | Some l => l end) (length (c_log c)) c (continued_self c)) as [K L].
    destruct (pdp_importance O N srt Xs _ c) as [c1 r1]; cbn [fst snd] in K, L. injection H as <- <-. exists c1. split; [reflexivity|]. pose proof (proj1 K) as E. split; [exact E|]. split.
    - destruct r1; [apply L|]. destruct L as [[L _]|(l & rows & -> & Hl & _)]; [apply L|]. rewrite app_length. cbn. lia.
    - apply reports_of. destruct r1 as [t|e]; [destruct L as [_ L]; rewrite E in L; split; [exact L|discriminate]|]. destruct L as [[[_ L] He]|L]; [left; rewrite E in L; auto|right; exact L].
  Qed.

  (** the additivity meter *)
  Theorem C143_additivity s a s' r : add_fit O N Rg s a = (s', r) ->
    match sample_if_not_none Rg (ad_rng s) (aa_X a) (aa_n a) with
    | Err e => r = Err e
    | Ok (Xs, _) =>
        let c := begins (aa_model a) Xs (aa_pf a) (aa_batch a) (aa_calc a) in
        (aa_calc a <> None /\ r = Err ValueError /\ ad_calc s' = ad_calc s) \/
        exists c', ad_calc s' = Some c' /\ c_predict c' = c_predict c /\ length (c_log c) <= length (c_log c') /\ exists extra,
          reports library (c_predict c) (length (c_log c)) (c_log c') extra r
          /\ (extra = None \/ extra = Some (callable (aa_pf a) (length (c_log c')) (f_rows Xs)))
          /\ (forall v, r = Ok v -> extra <> None)
    end.
  Proof.
    unfold add_fit. destruct (sample_if_not_none Rg (ad_rng s) (aa_X a) (aa_n a)) as [[Xs rng']|e]; [|congruence]. cbv zeta. intros H.
    destruct (pick_calc O N (aa_model a) Xs (aa_pf a) (aa_batch a) (aa_calc a)) as [c|e] eqn:Ep.
    2: { left. unfold pick_calc in Ep. destruct (aa_calc a) as [c0|]; [|discriminate]. injection H as <- <-. split; [discriminate|]. split; [|reflexivity]. destruct (negb _); [congruence|]. destruct (negb _); [congruence|discriminate]. }
    rewrite <- (pick_begins _ _ _ _ _ _ Ep). right. clear Ep.
    pose proof (calculate_pd_single_leads O N (length (c_log c)) c None (continued_self c)) as [K L]. destruct (calculate_pd_single O N c None) as [c1 [u|e]]; cbn [fst snd] in K, L.
    2: { injection H as <- <-. exists c1. split; [reflexivity|]. pose proof (proj1 K) as E. split; [exact E|]. split.
         - destruct L as [[L _]|(l & rows & -> & Hl & _)]; [apply L|]. rewrite app_length. cbn. lia.
         - exists None. split; [|split; [auto|discriminate]]. apply reports_of. destruct L as [[[_ L] He]|L]; [left; rewrite E in L; auto|right; exact L]. }
    pose proof (proj1 K) as E. destruct L as [L1 L2]. rewrite E in L2.
    destruct (callable (aa_pf a) (length (c_log c1)) (f_rows Xs)) as [preds|e] eqn:Ex.
    2: { injection H as <- <-. exists c1. split; [reflexivity|]. split; [exact E|]. split; [exact L1|]. exists (Some (Err e)). split; [|split; [right; congruence|discriminate]]. apply reports_of. left. auto. }
    set (x := bind _ _) in H. assert (Hx : raises library x).
    { unfold x. apply raises_bind; [apply raises_mapM; intros; apply raises_bind; [apply raises_column|intros; apply raises_bind; [apply get_pd_single_raises|intros; exact I]]|]. intros pds. destruct (_ =? _); [exact I|]. cbn. unfold library. auto. }
    destruct x as [[full v]|e]; injection H as <- <-; exists c1; (split; [reflexivity|]; split; [exact E|]; split; [exact L1|]; exists (Some (Ok preds)); split; [|split; [right; congruence|discriminate]]; apply reports_of).
    - split; [exact L2|discriminate].
    - left. auto.
  Qed.
End Fit.

(** ** The permutation based methods *)
Section Permuting.
  Context {C V G : Type} (N : num_ops V) (Rg : rng_ops G) (srt : sorter) (P : nat -> list (list C) -> result (list V)) (m : metric V).
  (** the errors of the library, of a call without features, and of the metric *)
  Definition permuting_error (e : exn) : Prop := library e \/ e = TypeError \/ exists y yhat, mt_calc m y yhat = Err e.
  (** an action that was started after requests that were all answered *)
  Definition careful {A} (x : act A) : Prop := forall s : pst C G, answered P 0 (p_log s) ->
    match x s with (s', Ok _) => answered P 0 (p_log s') | (s', Err e) => (answered P 0 (p_log s') /\ permuting_error e) \/ stopped P 0 (p_log s') e end.
  Lemma careful_ret {A} (x : A) : careful (ret x).
  Proof. intros s H. exact H. Qed.
  Lemma careful_raise {A} e : permuting_error e -> careful (raise (A:=A) e).
  Proof. intros He s H. left. auto. Qed.
  Lemma careful_andthen {A B} (x : act A) (k : A -> act B) : careful x -> (forall a, careful (k a)) -> careful (andthen x k).
  Proof. intros Hx Hk s Hs. unfold andthen. specialize (Hx s Hs). destruct (x s) as [s' [a|e]]; [exact (Hk a s' Hx)|exact Hx]. Qed.
  Lemma careful_lift {A} (r : result A) : raises permuting_error r -> careful (lift r).
  Proof. intros Hr s H. unfold lift. destruct r; [exact H|left; auto]. Qed.
  Lemma careful_draw n : careful (draw Rg n).
  Proof. intros s H. unfold draw. destruct (r_perm Rg (p_rng s) n). exact H. Qed.
  Lemma careful_traverse {A B} (f : A -> act B) l : (forall x, careful (f x)) -> careful (traverse f l).
  Proof. intros Hf. induction l as [|x l IH]; cbn [traverse]; [apply careful_ret|]. apply careful_andthen; [apply Hf|]. intros y. apply careful_andthen; [exact IH|]. intros ys. apply careful_ret. Qed.
  Lemma careful_ask rows : careful (ask (Some P) rows).
  Proof.
    intros s H. unfold ask. destruct (P (length (p_log s)) rows) as [ys|e] eqn:E; cbn [p_log]; [eapply answered_snoc; eassumption|]. right. exists (p_log s), rows. split; [reflexivity|]. split; [lia|]. auto.
  Qed.
  Lemma careful_score y rows : careful (score (Some P) m y rows).
  Proof. apply careful_andthen; [apply careful_ask|]. intros yhat. apply careful_lift. destruct (mt_calc m y yhat) eqn:E; cbn; [exact I|]. right; right. eauto. Qed.
  Lemma permute_cols_raises cols p rows fs : raises permuting_error (permute_cols (C:=C) cols p rows fs).
  Proof.
    unfold permute_cols. enough (H : forall acc, raises permuting_error acc -> raises permuting_error (fold_left (fun acc f => do rs <- acc; permute_col cols p rs f) fs acc)) by (apply H; exact I).
    induction fs as [|f fs IH]; intros acc Ha; cbn [fold_left]; [exact Ha|]. apply IH. apply raises_bind; [exact Ha|]. intros rs. unfold permute_col. destruct (col_pos cols f); [exact I|left; left; reflexivity].
  Qed.
  Lemma careful_permute_score X y fs ref : careful (permute_score N Rg (Some P) m X y fs ref).
  Proof. apply careful_andthen; [apply careful_draw|]. intros p. apply careful_andthen; [apply careful_lift, permute_cols_raises|]. intros rows. apply careful_andthen; [apply careful_score|]. intros v. apply careful_ret. Qed.
  Lemma careful_ovo X y ps n : careful (perf_based_ovo N Rg srt (Some P) m X y ps n).
  Proof.
    apply careful_andthen; [apply careful_score|]. intros ref. apply careful_andthen; [|intros rows; apply careful_ret]. apply careful_traverse. intros pr. apply careful_andthen; [|intros l; apply careful_ret].
    apply careful_traverse. intros _. apply careful_andthen; [|intros v; apply careful_ret]. unfold inter.
    apply careful_andthen; [apply careful_permute_score|]. intros s1. apply careful_andthen; [apply careful_permute_score|]. intros s2. apply careful_andthen; [apply careful_permute_score|]. intros s12. apply careful_ret.
  Qed.
  Lemma careful_loop X y fs w : careful (corrupt_loop Rg (Some P) m X y fs w).
  Proof.
    revert w. induction fs as [|f fs IH]; intros w; cbn [corrupt_loop]; [apply careful_ret|]. apply careful_andthen; [|intros vw; apply careful_andthen; [apply IH|intros l; apply careful_ret]].
    unfold corrupt. apply careful_andthen; [destruct (col_pos (f_cols X) f); [apply careful_ret|apply careful_raise; left; left; reflexivity]|]. intros k. apply careful_andthen; [apply careful_draw|]. intros p.
    apply careful_andthen; [apply careful_score|]. intros v. apply careful_ret.
  Qed.
  Lemma careful_importance X y n fs : careful (permutation_importance N Rg srt (Some P) m X y n fs).
  Proof.
    apply careful_andthen; [apply careful_score|]. intros base. destruct fs as [fs|]; [|apply careful_raise; right; left; reflexivity]. apply careful_andthen; [apply careful_loop|]. intros scores.
    destruct (map _ (dedup fs)); [apply careful_raise; left; left; reflexivity|apply careful_ret].
  Qed.

  (** the permutation importance *)
  Theorem C143_permutation X y n fs g s' r : permutation_importance N Rg srt (Some P) m X y n fs {| p_log := []; p_rng := g |} = (s', r) -> reports permuting_error P 0 (p_log s') None r.
  Proof.
    intros E. pose proof (careful_importance X y n fs {| p_log := []; p_rng := g |}) as H. rewrite E in H. apply reports_of. cbn [p_log] in H. assert (H0 : answered P 0 []) by (intros [|k] rows _ Hk; discriminate). specialize (H H0).
    destruct r as [t|e]; [split; [exact H|discriminate]|]. destruct H as [[Ha He]|Hs]; auto.
  Qed.
  (** fit of the performance based method *)
  Theorem C143_performance entropy s a s' r log : md_predict (sa_model a) = Some P -> sj_fit N Rg srt m entropy s a = (s', r, log) -> reports permuting_error P 0 log None r.
  Proof.
    intros EP. unfold sj_fit. rewrite EP. assert (H0 : answered P 0 []) by (intros [|k] rows _ Hk; discriminate). assert (Hsb : raises permuting_error (sample_both Rg (sj_rng s) (sa_X a) (sa_y a) (sa_n a))).
    { unfold sample_both. destruct (sa_n a) as [k|] eqn:En; [|exact I]. apply raises_bind.
      - pose proof (sample_raises Rg (sj_rng s) (sa_X a) (Some k)) as H. destruct (sample_if_not_none _ _ _ _); [exact I|left; exact H].
      - intros [Xs g']. destruct (t_series (sa_y a)).
        + apply raises_bind; [|intros; exact I]. unfold series_take. apply raises_bind; [|intros; exact I]. apply raises_mapM. intros z. destruct (filter _ _); [left; left; reflexivity|exact I].
        + apply raises_bind; [|intros; exact I]. unfold np_take. apply raises_mapM. intros z. destruct (_ && _); [|left; right; left; reflexivity]. pose proof (raises_nth (Z.to_nat (if z <? 0 then Z.of_nat (length (t_vals (sa_y a))) + z else z)%Z) (t_vals (sa_y a))) as H. destruct (get_nth _ _); [exact I|left; exact H]. }
    destruct (sample_both Rg (sj_rng s) (sa_X a) (sa_y a) (sa_n a)) as [[[Xs ys] g1]|e].
    2: { intros E. injection E as <- <- <-. apply reports_of. left. auto. }
    cbv zeta. pose proof (careful_ovo Xs ys (combinations2 (match sa_features a with None => f_cols (sa_X a) | Some l => l end)) (sa_repeat a) {| p_log := []; p_rng := g1 |} H0) as H1.
    destruct (perf_based_ovo N Rg srt (Some P) m Xs ys _ (sa_repeat a) {| p_log := []; p_rng := g1 |}) as [s1 [t|e]].
    2: { intros E. injection E as <- <- <-. apply reports_of. destruct H1 as [[Ha He]|Hs]; auto. }
    pose proof (careful_importance Xs ys (sa_repeat a) (Some (match sa_features a with None => f_cols (sa_X a) | Some l => l end)) {| p_log := p_log s1; p_rng := entropy |} H1) as H2.
    destruct (permutation_importance N Rg srt (Some P) m Xs ys (sa_repeat a) _ {| p_log := p_log s1; p_rng := entropy |}) as [s2 [fi|e]]; intros E; injection E as <- <- <-; apply reports_of.
    - split; [exact H2|discriminate].
    - destruct H2 as [[Ha He]|Hs]; auto.
  Qed.
End Permuting.

(** ** Calling again after failures *)
Section Again.
  Context {C V G : Type} (O : cell_ops C) (N : num_ops V) (HO : cell_ok O) (Hnan : n_isnan N (n_nan N) = true) (Rg : rng_ops G) (HR : rng_ok Rg) (srt : sorter) (n0 : nat).
  Notation complete := (PdMethodRun.complete O).
  Definition live (k : nat) (m : nat) (X : frame C) P b (c : calc C V) : Prop := reachable O N m X P b c /\ k <= length (c_log c).

  Lemma single_again k X P b m c fs : wf_frame X -> works_from P k -> complete X -> live k m X P b c -> (forall f, In f (feats X fs) -> In f (f_cols X)) ->
    exists c', calculate_pd_single O N c fs = (c', Ok tt) /\ live k m X P b c'.
  Proof.
    intros HX Ht Hc [Hr Hk] Hf. pose proof (calculate_pd_single_leads O N (length (c_log c)) c fs (continued_self c)) as [_ L]. destruct (calculate_pd_single O N c fs) as [c' r] eqn:H. exists c'.
    assert (r = Ok tt) as ->.
    { destruct r as [[]|e]; [reflexivity|exfalso]. destruct (single_outcome O N HO m X P b c fs c' (Err e) HX Hr H) as [He _].
      destruct (He e eq_refl) as [(n & rows & Hn & Hp)|[(-> & f & Hin & Hno)|(-> & f & v & Hin & Hv & Hvn)]].
      - destruct (Ht n rows) as (ys & Hy); [lia|congruence].
      - auto.
      - rewrite (grid_complete O HO X f v HX Hc Hv) in Hvn; discriminate. }
    split; [reflexivity|]. cbn [fst snd] in L. split; [eapply (reachable_step O N m X P b c (OpSingle fs)); [exact Hr|exact H]|]. destruct L. lia.
  Qed.
  Lemma minus_again k X P b m c fs : wf_frame X -> works_from P k -> live k m X P b c -> (forall f, In f (feats X fs) -> In f (f_cols X)) ->
    exists c', calculate_pd_minus_single N c fs = (c', Ok tt) /\ live k m X P b c'.
  Proof.
    intros HX Ht [Hr Hk] Hf. pose proof (calculate_pd_minus_leads N (length (c_log c)) c fs (continued_self c)) as [_ L]. destruct (calculate_pd_minus_single N c fs) as [c' r] eqn:H. exists c'.
    assert (r = Ok tt) as ->.
    { destruct r as [[]|e]; [reflexivity|exfalso]. destruct (minus_outcome O N HO m X P b c fs c' (Err e) HX Hr H) as [He _].
      destruct (He e eq_refl) as [(n & rows & Hn & Hp)|(-> & f & Hin & Hno)]; [destruct (Ht n rows) as (ys & Hy); [lia|congruence]|auto]. }
    split; [reflexivity|]. cbn [fst snd] in L. split; [eapply (reachable_step O N m X P b c (OpMinus fs)); [exact Hr|exact H]|]. destruct L. lia.
  Qed.
  Lemma pairs_again k X P b m c ps a : wf_frame X -> works_from P k -> complete X -> live k m X P b c -> known_pairs X ps ->
    exists c', calculate_pd_pairs O N c (Some ps) a = (c', Ok tt) /\ live k m X P b c'.
  Proof.
    intros HX Ht Hc [Hr Hk] Hp0. pose proof (calculate_pd_pairs_leads O N (length (c_log c)) c (Some ps) a (continued_self c)) as [_ L]. destruct (calculate_pd_pairs O N c (Some ps) a) as [c' r] eqn:H. exists c'.
    assert (r = Ok tt) as ->.
    { destruct r as [[]|e]; [reflexivity|exfalso]. destruct (pairs_outcome O N HO m X P b c (Some ps) a c' (Err e) HX Hr H) as [He _].
      destruct (He e eq_refl) as [(n & rows & Hn & Hp)|[(-> & f1 & f2 & Hin & Hno)|(-> & f & v & pr & Hin & _ & Hv & Hvn)]].
      - destruct (Ht n rows) as (ys & Hy); [lia|congruence].
      - apply Hp0 in Hin as (H1 & H2 & H3). cbn in *. tauto.
      - rewrite (grid_complete O HO X f v HX Hc Hv) in Hvn; discriminate. }
    split; [reflexivity|]. cbn [fst snd] in L. split; [eapply (reachable_step O N m X P b c (OpPairs (Some ps) a)); [exact Hr|exact H]|]. destruct L. lia.
  Qed.

  Lemma friedman_ovo_again norm X fs c m P b g :
    wf_frame X -> rowwise P g -> works_from P n0 -> complete X -> live n0 m X P b c ->
    NoDup fs -> (forall f, In f fs -> In f (f_cols X)) ->
    exists c', friedman_ovo O N srt norm X fs (combinations2 fs) c
      = (c', Ok (table N srt (map (friedman_raw N X g norm) (combinations2 fs)))) /\ live n0 m X P b c'.
  Proof.
    intros HX Hg Ht Hc Hl Hnd Hin. pose proof (proj1 Hl) as Hr. pose proof (known_combinations X fs Hnd Hin) as Hk.
    destruct (friedman_ovo O N srt norm X fs (combinations2 fs) c) as [c' r] eqn:H.
    assert (Hok : (exists t, r = Ok t) /\ live n0 m X P b c').
    { unfold friedman_ovo in H.
      destruct (pairs_again n0 X P b m c (combinations2 fs) false HX Ht Hc Hl Hk) as (c1 & E1 & Hl1). rewrite E1 in H. pose proof (proj1 Hl1) as Hr1.
      destruct (single_again n0 X P b m c1 (Some fs) HX Ht Hc Hl1 Hin) as (c2 & E2 & Hl2). rewrite E2 in H.
      pose proof (f_equal fst H) as H9; cbn [fst] in H9; subst c'; apply (f_equal snd) in H; cbn [snd] in H; subst r. split; [|exact Hl2].
      pose proof (single_isolation O N HO m X P b c1 (Some fs) c2 (Ok tt) HX Hr1 E2) as (Hpc & _).
      eexists. erewrite (mapM_all _ (fun p => (fst p, snd p, H_pair N g (f_rows X) norm (posn X (fst p)) (posn X (snd p))))); [reflexivity|].
      intros [f1 f2] Hp. cbn [fst snd]. destruct (Hk _ Hp) as (Hi1 & Hi2 & Hne); cbn [fst snd] in *.
      apply combinations2_In in Hp as Hp'. destruct Hp' as [Hf1 Hf2]; cbn [fst snd] in *.
      apply In_nth_error in Hi1 as (p & Hp1). apply In_nth_error in Hi2 as (q & Hq1).
      assert (Hpq : p <> q) by congruence.
      rewrite (column_known X p f1 HX Hp1), (column_known X q f2 HX Hq1). cbn [bind].
      destruct (pd_single_exact O N HO Hnan m X P b c1 g (Some fs) c2 p f1 HX Hg Hr1 E2 Hf1 Hp1) as [A1 _].
      destruct (pd_single_exact O N HO Hnan m X P b c1 g (Some fs) c2 q f2 HX Hg Hr1 E2 Hf2 Hq1) as [A2 _].
      rewrite (A1 (col_at p (f_rows X))), (A2 (col_at q (f_rows X))) by auto. cbn [bind].
      assert (Hlen : forall r, In r (f_rows X) -> p < length r /\ q < length r)
        by (intros r Hrr; split; eapply wf_len; eassumption).
      rewrite (get_pd_pairs_ext O c2 c1 f1 f2 _ Hpc).
      rewrite (pd_pairs_exact O N HO Hnan m X P b c g (Some (combinations2 fs)) false c1 p q f1 f2 HX Hg Hr E1); auto.
      2: left; exact Hp.
      2: intros v w Hvw; apply (combine_cols_In p q); assumption.
      cbn [bind]. f_equal. rewrite (posn_nth X p f1 HX Hp1), (posn_nth X q f2 HX Hq1). f_equal.
      unfold H_pair. rewrite <- hstat_rows. f_equal.
      - apply col_at_map. intros r Hrr; apply Hlen, Hrr.
      - apply col_at_map. intros r Hrr; apply Hlen, Hrr.
      - exact (combine_cols p q (f_rows X) _ (n_nan N) Hlen). }
    destruct Hok as ((t & ->) & Hlive). exists c'.
    destruct (friedman_ovo_spec O N HO Hnan srt norm X fs _ c c' t m P b g HX Hg Hr (fun p => combinations2_fst_snd fs p) H) as (-> & _).
    split; [reflexivity|exact Hlive].
  Qed.

  Lemma greenwell_ovo_again X fs c m P b g :
    wf_frame X -> rowwise P g -> works_from P n0 -> complete X -> live n0 m X P b c ->
    NoDup fs -> (forall f, In f fs -> In f (f_cols X)) ->
    exists c', greenwell_ovo O N srt X fs (combinations2 fs) c
      = (c', do l <- mapM (fun p => do v <- greenwell_raw O N X g fs p; Ok (ordered X p, v)) (combinations2 fs); Ok (table N srt l))
      /\ live n0 m X P b c'.
  Proof.
    intros HX Hg Ht Hc Hl Hnd Hin. pose proof (proj1 Hl) as Hr. pose proof (known_combinations X fs Hnd Hin) as Hk.
    destruct (greenwell_ovo O N srt X fs (combinations2 fs) c) as [c' r] eqn:H. exists c'.
    destruct (greenwell_ovo_spec O N HO Hnan srt X fs _ c c' r m P b g HX Hg Hr H) as (Hr' & r0 & E & _ & A).
    destruct (pairs_again n0 X P b m c (combinations2 fs) true HX Ht Hc Hl Hk) as (c1 & E1 & Hl1).
    rewrite E1 in E. injection E as <- <-. split; [|exact Hl1]. destruct (A eq_refl) as [_ ->]. reflexivity.
  Qed.

  Lemma pdp_importance_again X fs c m P b g :
    wf_frame X -> rowwise P g -> works_from P n0 -> complete X -> live n0 m X P b c ->
    (forall f, In f fs -> In f (f_cols X)) ->
    exists c', pdp_importance O N srt X fs c = (c', imp_val O N srt X g fs) /\ live n0 m X P b c'
      /\ calculate_pd_single O N c None = (c', Ok tt).
  Proof.
    intros HX Hg Ht Hc Hl Hin. pose proof (proj1 Hl) as Hr.
    destruct (single_again n0 X P b m c None HX Ht Hc Hl (fun f H => H)) as (c1 & E1 & Hr1).
    exists c1. split; [|auto]. unfold pdp_importance. rewrite E1. f_equal. unfold imp_val.
    erewrite (mapM_ext _ (fun f => do v <- imp_raw O N X g fs f; Ok (f, v))); [reflexivity|].
    intros f Hf. apply Hin in Hf. pose proof Hf as Hf'. apply In_nth_error in Hf as (p & Hp).
    destruct (pd_single_exact O N HO Hnan m X P b c g None c1 p f HX Hg Hr E1 Hf' Hp) as [_ A].
    rewrite A. cbn [bind]. unfold imp_raw. rewrite (posn_nth X p f HX Hp). reflexivity.
  Qed.

  Lemma friedman_ova_again norm pf X fs c m P b g c0 :
    wf_frame X -> rowwise P g -> works_from P n0 -> rowwise (callable pf) g -> works_from (callable pf) n0 ->
    live n0 m X P b c -> reachable O N m X P b c0 -> calculate_pd_single O N c0 None = (c, Ok tt) ->
    (forall f, In f fs -> In f (f_cols X)) ->
    exists c', friedman_ova O N srt norm pf X fs c = (c', Ok (table N srt (map (ova_raw N X g norm) fs))).
  Proof.
    intros HX Hg Ht Hpf Htp Hl Hr0 E0 Hin. unfold friedman_ova. pose proof (proj1 Hl) as Hr.
    destruct (minus_again n0 X P b m c (Some fs) HX Ht Hl Hin) as (c1 & E1 & Hl1). rewrite E1. exists c1. f_equal.
    destruct (Htp (length (c_log c1)) (f_rows X) (proj2 Hl1)) as (preds & Ep). rewrite Ep. apply Hpf in Ep. subst preds. cbn [bind].
    pose proof (minus_isolation O N HO m X P b c (Some fs) c1 (Ok tt) HX Hr E1) as (_ & Hsc & _).
    rewrite (mapM_all _ (ova_raw N X g norm)); [reflexivity|].
    intros f Hf. pose proof (Hin f Hf) as Hi. apply In_nth_error in Hi as (p & Hp).
    rewrite (column_known X p f HX Hp). cbn [bind].
    rewrite (get_pd_single_ext O c1 c f _ Hsc).
    destruct (pd_single_exact O N HO Hnan m X P b c0 g None c p f HX Hg Hr0 E0 (Hin f Hf) Hp) as [A _].
    rewrite A by auto. cbn [bind].
    rewrite (pd_minus_exact O N HO Hnan m X P b c g (Some fs) c1 p f HX Hg Hr E1 Hf Hp). cbn [bind].
    rewrite hstat_np_equal by (rewrite !map_length; try reflexivity; symmetry; eapply wf_column_length; eassumption). cbn [bind].
    unfold ova_raw. rewrite (posn_nth X p f HX Hp). f_equal. f_equal. unfold H_all. rewrite <- hstat_rows. f_equal.
    apply col_at_map. intros r Hrr; eapply wf_len; eassumption.
  Qed.


  (** the predict function and the calculator answer from request [n0] on; the calculator was made for this model and data *)
  Definition explains_from (a : fargs C V) (g : list C -> V) (Xs : frame C) : Prop :=
    rowwise (callable (pf_of a)) g /\ works_from (callable (pf_of a)) n0 /\ exists c P b, a_calc a = Some c /\ n0 <= length (c_log c) /\ reachable O N (md_id (a_model a)) Xs P b c /\ rowwise P g /\ works_from P n0.

  Theorem fit_again k s a s' r g Xs rng' : wf_frame (a_X a) -> sample_if_not_none Rg (m_rng s) (a_X a) (a_n a) = Ok (Xs, rng') -> explains_from a g Xs -> complete Xs ->
    NoDup (all_features a) -> (forall f, In f (all_features a) -> In f (f_cols Xs)) -> PdMethods.fit O N Rg srt k s a = (s', r) ->
    (r, m_ovo s', m_fi s', m_ova s') = fit_val O N srt k s Xs g (all_features a) (a_ova a).
  Proof.
    intros HX0 Es (Hpf & Htp & c & P & b & Ea & Hn & Hr & Hg & Ht) Hc Hnd Hin H.
    destruct (sample_wf Rg _ _ _ _ _ HR HX0 Es) as (HX & _).
    unfold PdMethods.fit, fit_base in H. rewrite Es in H. fold (all_features a) in H. fold (pf_of a) in H.
    rewrite Ea, (pick_calc_ok O N HO (a_model a) Xs (pf_of a) (a_batch a) _ P b c HX Hr eq_refl) in H.
    assert (Hovo : exists c1, ovo_of O N srt k Xs (all_features a) (combinations2 (all_features a)) c = (c1, ovo_val O N srt k Xs g (all_features a))
                     /\ live n0 (md_id (a_model a)) Xs P b c1).
    { destruct k as [norm|].
      - apply (friedman_ovo_again norm Xs _ c _ P b g); try assumption. split; assumption.
      - apply (greenwell_ovo_again Xs _ c _ P b g); try assumption. split; assumption. }
    destruct Hovo as (c1 & Eo & Hl1). rewrite Eo in H. unfold fit_val. pose proof (proj1 Hl1) as Hr1.
    destruct (ovo_val O N srt k Xs g (all_features a)) as [t|e]; [|injection H as <- <-; reflexivity].
    unfold pd_importance in H. cbn [sample_if_not_none] in H.
    rewrite (pick_calc_ok O N HO (a_model a) Xs _ 2000 _ P b c1 HX Hr1 eq_refl) in H.
    destruct (pdp_importance_again Xs (all_features a) c1 _ P b g HX Hg Ht Hc Hl1 Hin) as (c2 & Ei & Hl2 & Es2).
    rewrite Ei in H. destruct (imp_val O N srt Xs g (all_features a)) as [fi|e]; [|injection H as <- <-; reflexivity].
    cbn [m_calc m_X m_features m_predict m_rng m_ova m_ovo m_fi m_model m_pairs m_fi_obj] in H.
    destruct k as [norm|]; [|injection H as <- <-; reflexivity].
    destruct (a_ova a); [|injection H as <- <-; reflexivity].
    destruct (friedman_ova_again norm (pf_of a) Xs (all_features a) c2 _ P b g c1 HX Hg Ht Hpf Htp Hl2 Hr1 Es2 Hin) as (c3 & Ev).
    rewrite Ev in H. injection H as <- <-. reflexivity.
  Qed.

  (** the second call, with the calculator the failed calls left behind, against a call of a model that never fails *)
  Theorem C143_again k s a1 s1' r1 a2 s2' r2 g Xs rng' : wf_frame (a_X a1) -> a_X a2 = a_X a1 -> a_n a2 = a_n a1 -> a_features a2 = a_features a1 -> a_ova a2 = a_ova a1 ->
    sample_if_not_none Rg (m_rng s) (a_X a1) (a_n a1) = Ok (Xs, rng') -> complete Xs -> NoDup (all_features a1) -> (forall f, In f (all_features a1) -> In f (f_cols Xs)) ->
    explains_total O N a1 g Xs -> PdMethods.fit O N Rg srt k s a1 = (s1', r1) ->
    explains_from a2 g Xs -> PdMethods.fit O N Rg srt k s a2 = (s2', r2) ->
    r2 = r1 /\ m_ovo s2' = m_ovo s1' /\ m_fi s2' = m_fi s1' /\ m_ova s2' = m_ova s1'.
  Proof.
    intros HX EX En Ef Eo Es Hc Hnd Hin H1 F1 H2 F2. assert (Ea : all_features a2 = all_features a1) by (unfold all_features; rewrite Ef, EX; reflexivity).
    pose proof (fit_run O N HO Hnan Rg HR srt k s a1 s1' r1 g Xs rng' HX Es H1 Hc Hnd Hin F1) as V1.
    pose proof (fit_again k s a2 s2' r2 g Xs rng') as V2. rewrite EX, En, Ea, Eo in V2. specialize (V2 HX Es H2 Hc Hnd Hin F2). rewrite <- V1 in V2. injection V2 as -> -> -> ->. auto.
  Qed.
End Again.

(** * Examples *)

(** a model that raises at its second request *)
Definition fP : nat -> list (list Z) -> result (list (ext Q)) := fun n rows => if n =? 1 then Err PredictError else Ok (map exg rows).
Definition fresh := mkargs fP exX None true None.
Definition left_calc := match m_calc (fst (fitQ (Friedman true) init0 fresh)) with Some c => c | None => calc_init Zcell xQ 0 exX fP 3 end.
Definition second := mkargs fP exX None true (Some left_calc).

(** the exception is the outcome and the second request was the last; the additivity meter and the importance stop in the same way *)
Example C143_fit_example :
  snd (fitQ (Friedman true) init0 fresh) = Err PredictError /\ length (c_log left_calc) = 2
  /\ reports library fP 0 (c_log left_calc) None (snd (fitQ (Friedman true) init0 fresh))
  /\ snd (fitQ Greenwell init0 fresh) = Err PredictError
  /\ snd (pd_importance Zcell xQ rotR isort 0 (a_model fresh) exX None None None 3 None) = Err PredictError.
Proof.
  split; [vm_compute; reflexivity|]. split; [vm_compute; reflexivity|]. split; [|split; vm_compute; reflexivity].
  apply reports_of. right. exists (firstn 1 (c_log left_calc)), (nth 1 (c_log left_calc) []). split; [vm_compute; reflexivity|]. split; [cbn; lia|]. split; [|vm_compute; reflexivity].
  intros n rows _ Hn. assert (n < length (firstn 1 (c_log left_calc))) by (apply nth_error_Some; congruence). assert (length (firstn 1 (c_log left_calc)) = 1) by (vm_compute; reflexivity).
  assert (n = 0) as -> by lia. eexists. reflexivity.
Qed.

(** with the calculator the failed call left behind, the second call gives the tables of a model that never fails, and asks only for what is missing *)
Example C143_again_example :
  let good := mkargs exP exX None true None in
  explains_total Zcell xQ good exg exX /\ explains_from Zcell xQ 2 second exg exX
  /\ snd (fitQ (Friedman true) init0 second) = Ok tt
  /\ m_ovo (fst (fitQ (Friedman true) init0 second)) = m_ovo (fst (fitQ (Friedman true) init0 good))
  /\ m_ova (fst (fitQ (Friedman true) init0 second)) = Some [("a", Fin (1 # 21)); ("b", Fin (1 # 21))].
Proof.
  cbv zeta. assert (Hg : rowwise fP exg) by (intros n rows ys; unfold fP; destruct (n =? 1); [discriminate|congruence]).
  assert (Hw : works_from fP 2) by (intros n rows Hn; unfold fP; destruct (Nat.eqb_spec n 1); [lia|eauto]).
  assert (H1 : explains_total Zcell xQ (mkargs exP exX None true None) exg exX) by (split; [exact exP_rowwise|]; split; [intros n rows; eexists; reflexivity|exact I]).
  assert (H2 : explains_from Zcell xQ 2 second exg exX).
  { split; [exact Hg|]. split; [exact Hw|]. exists left_calc, fP, 3%Z. split; [reflexivity|]. split; [apply Nat.leb_le; vm_compute; reflexivity|]. split; [|auto].
    exists [OpPairs (Some [("a", "b")]) false]. vm_compute. reflexivity. }
  split; [exact H1|]. split; [exact H2|].
  split; [vm_compute; reflexivity|]. split; vm_compute; reflexivity.
Qed.

Definition failing_args : aargs Z (ext Q) := {| aa_model := a_model fresh; aa_X := exX; aa_n := None; aa_predict := None; aa_batch := 3%Z; aa_calc := None |}.
Definition meter0 : astate Z (ext Q) nat := {| ad_rng := 0; ad_calc := None; ad_X := None; ad_preds := None; ad_full := None; ad_index := None |}.
Example C143_additivity_example : snd (add_fit Zcell xQ rotR meter0 failing_args) = Err PredictError.
Proof. vm_compute. reflexivity. Qed.


Definition failing_sargs : sargs Z (ext Q) := {| sa_model := a_model fresh; sa_X := exX; sa_y := {| t_series := false; t_index := []; t_vals := [Fin (1 # 1); Fin (2 # 1); Fin (3 # 1)] |}; sa_n := None; sa_repeat := 2; sa_features := None |}.
Example C143_performance_example : snd (fst (sj_fit xQ rotR isort (MSE xQ) 0 (sj_init 0) failing_sargs)) = Err PredictError /\ length (snd (sj_fit xQ rotR isort (MSE xQ) 0 (sj_init 0) failing_sargs)) = 2
  /\ snd (permutation_importance xQ rotR isort (Some fP) (MSE xQ) exX (sa_y failing_sargs) 2 (Some ["a"]) {| p_log := []; p_rng := 0 |}) = Err PredictError
  /\ ~ permuting_error (MSE xQ) PredictError.
Proof.
  split; [vm_compute; reflexivity|]. split; [vm_compute; reflexivity|]. split; [vm_compute; reflexivity|]. intros [[H|[H|[H|H]]]|[H|(y & yhat & H)]]; try discriminate. cbn in H. unfold mse_calc in H. destruct (_ =? _); [discriminate|]. destruct (vsub_np xQ yhat (t_vals y)) as [ds|e0] eqn:Ev; cbn [bind] in H.
  - destruct (_ && _); discriminate.
  - unfold vsub_np in Ev. destruct (_ =? _); [discriminate|]. destruct yhat as [|z [|]], (t_vals y) as [|v [|]]; congruence.
Qed.

Print Assumptions C143_fit.
Print Assumptions C143_importance.
Print Assumptions C143_additivity.
Print Assumptions C143_permutation.
Print Assumptions C143_performance.
Print Assumptions C143_again.
