(** The partial dependence calculator: the remaining API-level theorems (requests, reuse,
    isolation, failures, retries, orientation). *)
From Verif Require Import Py Num Frame PdCalc EngineFacts PdSpec PdFacts PdProofs PdTheorems PdErrors.

Lemma In_removelast_app {A} (a b : list A) x : length b <= 1 -> In x (removelast (a ++ b)) -> In x a.
Proof.
  destruct b as [|y [|z b]]; cbn; intros Hl H; [|rewrite removelast_last in H; exact H|lia].
  rewrite app_nil_r in H. revert H; induction a as [|u a IH]; [intros []|].
  destruct a as [|w a]; [intros []|]. intros [<-|H]; [left; reflexivity|right; apply IH, H].
Qed.

Lemma removelast_In {A} (a : list A) x : In x (removelast a) -> In x a.
Proof. intros H; apply (In_removelast_app a []); [cbn; lia|rewrite app_nil_r; exact H]. Qed.

Section PdApi.
  Context {C V : Type} (O : cell_ops C) (N : num_ops V).
  Hypothesis HO : cell_ok O.
  Hypothesis Hnan : n_isnan N (n_nan N) = true.
  Notation calc := (calc C V).
  Notation Shaped := (Shaped O N).
  Notation reachable := (reachable O N).

  (** ** Shapes never change, whatever the model does *)
  Lemma step_shaped (c : calc) o c' r : wf_frame (c_X c) -> Shaped c -> step O N c o = (c', r) -> Shaped c'.
  Proof.
    intros HX Hs H. pose proof Hs as (Hs1 & Hs2 & Hs3).
    destruct o as [fs|ps a|fs]; cbn in H; unfold calculate_pd_single, calculate_pd_pairs, calculate_pd_minus_single in H;
      destruct (seq2 _ _) as [s r'] eqn:E; injection H as <- <-.
    - eapply (single_run_err O N HO) in E as (A1 & _); eauto. split; [exact A1|split; assumption].
    - eapply (pairs_run_err O N HO) in E as (A1 & _); eauto. split; [|split]; assumption.
    - eapply (minus_run_err O N) in E as (A1 & _); eauto. split; [|split]; assumption.
  Qed.

  Lemma reachable_shaped m X P b c : wf_frame X -> reachable m X P b c ->
    Shaped c /\ c_X c = X /\ c_predict c = P /\ c_batchsize c = b /\ c_model c = m.
  Proof.
    intros HX [ops ->]. unfold run.
    assert (Hgen : forall ops c0, c_X c0 = X -> c_predict c0 = P -> c_batchsize c0 = b -> c_model c0 = m -> Shaped c0 ->
      let c := fold_left (fun c o => fst (step O N c o)) ops c0 in
      Shaped c /\ c_X c = X /\ c_predict c = P /\ c_batchsize c = b /\ c_model c = m).
    { induction ops0 as [|o t IH]; cbn; intros c0 H1 H2 H3 H4 H5; [auto|].
      destruct (step O N c0 o) as [c1 r] eqn:E. destruct (step_env O N _ _ _ _ E) as (E1 & E2 & E3 & E4).
      apply IH; cbn; try congruence. eapply step_shaped; [|exact H5|exact E]. rewrite H1; exact HX. }
    apply Hgen; auto. apply init_shaped.
  Qed.

  (** ** Failures (C11, C08) *)
  Theorem single_outcome m X P b c fs c' r : wf_frame X -> reachable m X P b c ->
    calculate_pd_single O N c fs = (c', r) ->
    (forall e, r = Err e -> (exists n rows, length (c_log c) <= n /\ P n rows = Err e)
       \/ (e = KeyError /\ exists f, In f (feats X fs) /\ ~ In f (f_cols X))
       \/ (e = IndexError /\ exists f v, In f (feats X fs) /\ In v (grid O X f) /\ c_isnan O v = true))
    /\ (r = Ok tt -> forall f, In f (feats X fs) -> In f (f_cols X)).
  Proof.
    intros HX Hr H. destruct (reachable_shaped _ _ _ _ _ HX Hr) as (Hs & HXc & HPc & _).
    unfold calculate_pd_single in H. destruct (seq2 _ _) as [s r'] eqn:E. injection H as <- <-.
    eapply (single_run_err O N HO) in E as (_ & _ & A & B); [|exact Hs].
    unfold Es, model_failed in A. rewrite HXc, ?HPc in *. unfold feats; auto.
  Qed.

  Theorem minus_outcome m X P b c fs c' r : wf_frame X -> reachable m X P b c ->
    calculate_pd_minus_single N c fs = (c', r) ->
    (forall e, r = Err e -> (exists n rows, length (c_log c) <= n /\ P n rows = Err e)
       \/ (e = KeyError /\ exists f, In f (feats X fs) /\ ~ In f (f_cols X)))
    /\ (r = Ok tt -> forall f, In f (feats X fs) -> In f (f_cols X)).
  Proof.
    intros HX Hr H. destruct (reachable_shaped _ _ _ _ _ HX Hr) as (Hs & HXc & HPc & _).
    unfold calculate_pd_minus_single in H. destruct (seq2 _ _) as [s r'] eqn:E. injection H as <- <-.
    eapply (minus_run_err O N) in E as (_ & _ & A & B); [|exact Hs].
    unfold Em, model_failed in A. rewrite HXc, ?HPc in *. unfold feats; auto.
  Qed.

  Lemma pairs_keys (c : calc) X : psh O (c_pairs c) = pshape O N X -> map fst (c_pairs c) = combinations2 (f_cols X).
  Proof. intros Hs. unfold psh, pshape in Hs. apply dshape_keys in Hs. exact Hs. Qed.

  Definition plist (X : frame C) (ps : option (list (string * string))) : list (string * string) :=
    match ps with None => combinations2 (f_cols X) | Some l => l end.

  Theorem pairs_outcome m X P b c ps a c' r : wf_frame X -> reachable m X P b c ->
    calculate_pd_pairs O N c ps a = (c', r) ->
    (forall e, r = Err e -> (exists n rows, length (c_log c) <= n /\ P n rows = Err e)
       \/ (e = KeyError /\ exists f1 f2, In (f1, f2) (plist X ps) /\ (f1 = f2 \/ ~ In f1 (f_cols X) \/ ~ In f2 (f_cols X)))
       \/ (e = IndexError /\ exists f v pr, In pr (plist X ps) /\ (f = fst pr \/ f = snd pr) /\ In v (grid O X f) /\ c_isnan O v = true))
    /\ (r = Ok tt -> forall f1 f2, In (f1, f2) (plist X ps) -> In f1 (f_cols X) /\ In f2 (f_cols X) /\ (a = true -> f1 <> f2)).
  Proof.
    intros HX Hr H. destruct (reachable_shaped _ _ _ _ _ HX Hr) as (Hs & HXc & HPc & _).
    pose proof Hs as (_ & Hs2 & _). rewrite HXc in Hs2.
    unfold calculate_pd_pairs in H. destruct (seq2 _ _) as [s r'] eqn:E. injection H as <- <-.
    assert (Hpl : match ps with None => map fst (c_pairs c) | Some l => l end = plist X ps).
    { unfold plist; destruct ps; [reflexivity|]. apply pairs_keys, Hs2. }
    rewrite Hpl in E.
    eapply (pairs_run_err O N HO) in E as (_ & _ & A & B); [|exact Hs|rewrite HXc; exact HX].
    unfold Ep, model_failed in A. rewrite HXc, ?HPc in *. split.
    - intros e He. destruct (A e He) as [A1|[(-> & [f1 f2] & Hin & Hn1 & Hn2)|A1]]; [auto| |auto].
      right; left; split; [reflexivity|]. exists f1, f2; split; [exact Hin|].
      destruct (string_dec f1 f2) as [|Hne]; [auto|].
      destruct (in_dec string_dec f1 (f_cols X)) as [H1|]; [|auto]. destruct (in_dec string_dec f2 (f_cols X)) as [H2|]; [|auto].
      destruct (combinations2_complete (f_cols X) f1 f2 H1 H2 Hne) as [?|?]; contradiction.
    - intros Hok f1 f2 Hin. apply (B Hok (f1, f2) Hin).
  Qed.

  (** a success implies that no requested column has a missing value *)
  Theorem single_success_no_nan m X P b c g fs c' : wf_frame X -> rowwise P g -> reachable m X P b c ->
    calculate_pd_single O N c fs = (c', Ok tt) ->
    forall f p v, In f (feats X fs) -> nth_error (f_cols X) p = Some f -> In v (col_at p (f_rows X)) -> c_isnan O v = false.
  Proof.
    intros HX Hg Hr H f p v Hf Hp Hv. destruct (c_isnan O v) eqn:En; [|reflexivity]. exfalso.
    destruct (np_unique_nan O (col_at p (f_rows X))) as (w & Hw & Hwn); [eauto|].
    rewrite <- (grid_of O X HX p f Hp) in Hw.
    eapply (calc_single_done O N HO Hnan) in H; eauto. apply (grid_no_nan_done O HO) in H. congruence.
  Qed.

  Theorem pairs_success_no_nan m X P b c g ps a c' : wf_frame X -> rowwise P g -> reachable m X P b c ->
    calculate_pd_pairs O N c ps a = (c', Ok tt) ->
    forall f1 f2 p q v, requested X ps f1 f2 -> nth_error (f_cols X) p = Some f1 -> nth_error (f_cols X) q = Some f2 -> p <> q ->
      In v (col_at p (f_rows X)) -> c_isnan O v = false.
  Proof.
    intros HX Hg Hr H f1 f2 p q v Hreq Hp Hq Hne Hv. destruct (c_isnan O v) eqn:En; [|reflexivity]. exfalso.
    destruct (combos_pos _ _ _ _ _ HX Hp Hq Hne) as (Hi1 & Hi2 & Hd).
    apply col_at_In in Hv as (row & Hrow & Hvr).
    assert (Hlen : length row = length (f_cols X)) by (apply (row_length X HX), Hrow).
    assert (Hw : exists w, nth_error row q = Some w).
    { apply nth_error_lt_some. rewrite Hlen. apply nth_error_Some; congruence. }
    destruct Hw as (w & Hw).
    assert (Hr' : reachable m X P b c') by (eapply (reachable_step O N m X P b c (OpPairs ps a)); [exact Hr|exact H]).
    destruct (reachable_shaped _ _ _ _ _ HX Hr') as ((_ & Hs & _) & HXc & _). rewrite HXc in Hs.
    pose proof (pd_pairs_exact O N HO Hnan m X P b c g ps a c' p q f1 f2 HX Hg Hr H Hreq Hp Hq Hne [(v, w)]) as He.
    assert (Hpre : forall v0 w0, In (v0, w0) [(v, w)] ->
       if a then In v0 (col_at p (f_rows X)) /\ In w0 (col_at q (f_rows X))
       else exists r, In r (f_rows X) /\ nth_error r p = Some v0 /\ nth_error r q = Some w0).
    { intros v0 w0 [Heq|[]]; injection Heq as <- <-. destruct a; [split; apply col_at_In|]; eauto. }
    specialize (He Hpre).
    destruct (combinations2_complete (f_cols X) f1 f2 Hi1 Hi2 Hd) as [Hi|Hi].
    - apply (pairs_elem O N c' X f1 f2 _ HX Hs Hi) in He. inversion He as [|? ? ? ? Hx _]; subst. apply (pget_nonnan O HO) in Hx; cbn in Hx; destruct Hx; congruence.
    - rewrite (get_pd_pairs_swap O N c' X) in He by assumption.
      apply (pairs_elem O N c' X f2 f1 _ HX Hs Hi) in He. inversion He as [|? ? ? ? Hx _]; subst. apply (pget_nonnan O HO) in Hx; cbn in Hx; destruct Hx; congruence.
  Qed.

  (** ** Requests (C05) *)
  Definition request_ok (X : frame C) (bs : Z) (w : nat) (rows : list (list C)) : Prop :=
    (Z.of_nat (length rows) <= Z.max 0 bs + Z.of_nat (w * length (f_rows X)))%Z
    /\ 0 < length rows /\ exists k, length rows = k * length (f_rows X).
  Definition requests_ok (X : frame C) bs w (reqs : list (list (list C))) : Prop :=
    Forall (request_ok X bs w) reqs /\ forall q, In q (removelast reqs) -> (bs < Z.of_nat (length q))%Z.

  Lemma requests_combine X bs w a b :
    Forall (fun q => req_ok (length (f_rows X)) bs w q /\ req_big bs q) a ->
    Forall (req_ok (length (f_rows X)) bs w) b -> length b <= 1 -> requests_ok X bs w (a ++ b).
  Proof.
    intros Ha Hb Hl. split.
    - apply Forall_app; split; [|exact Hb]. eapply Forall_impl; [|exact Ha]. intros q [Hq _]; exact Hq.
    - intros q Hq. apply In_removelast_app in Hq; [|exact Hl]. rewrite Forall_forall in Ha. apply Ha, Hq.
  Qed.

  Lemma requests_all_big X bs w a :
    Forall (fun q => req_ok (length (f_rows X)) bs w q /\ req_big bs q) a -> requests_ok X bs w a.
  Proof. intros Ha. rewrite <- (app_nil_r a). apply requests_combine; auto. Qed.

  Theorem single_requests m X P b c fs c' r w : wf_frame X -> reachable m X P b c ->
    (forall f, In f (feats X fs) -> length (grid O X f) <= w) ->
    calculate_pd_single O N c fs = (c', r) ->
    exists reqs, c_log c' = c_log c ++ reqs /\ requests_ok X b w reqs.
  Proof.
    intros HX Hr Hw H. destruct (reachable_shaped _ _ _ _ _ HX Hr) as ((Hs & _) & HXc & HPc & Hb & _).
    unfold calculate_pd_single in H. destruct (seq2 _ _) as [s' r'] eqn:E. injection H as <- <-. cbn.
    fold (feats (c_X c) fs) in E. rewrite HXc in E. destruct (loop _ _ _) as [s1 r1] eqn:El.
    eapply (loop_log (length (f_rows X)) b w (fun s => ssh O (e_tab s) = sshape O N X)) in El as [(q1 & L1 & F1 & R1) Hj1];
      [| |rewrite HXc in Hs; exact Hs|apply blen_ok_empty|unfold small; cbn; lia].
    2:{ clear E El s1 r1 s' r'. intros s s' r' f Hf H Hj Hbl Hsm. unfold single_body in H.
      destruct (dict_get String.eqb f (e_tab s)) as [e|x] eqn:Ed; [|injection H as <- <-; split; [apply LogGood_refl; assumption|exact Hj]].
      apply dict_get_assoc in Ed. destruct (sshape_assoc O N X _ f Hj) as [_ H2]. destruct (H2 _ Ed) as (Hcol & Hfv & Hl & _).
      destruct (has_nan N (snd e)) eqn:En; [|injection H as <- <-; split; [apply LogGood_refl; assumption|exact Hj]].
      rewrite HXc, Hb in H. split.
      - eapply (submit_log _ _ _ _ _ _ _ _ _ (single_laws O HO)); [exact H|exact Hbl|exact Hsm| | |].
        + intros k _; apply job_single_length.
        + rewrite map_length, Hfv. apply Hw, Hf.
        + rewrite map_length, Hfv. rewrite Hfv in *.
          assert (Hpos : 0 < length (grid O X f)).
          { rewrite <- Hl. unfold has_nan in En. destruct (snd e); [discriminate|cbn; lia]. }
          destruct (grid O X f) as [|v t] eqn:Eg; [cbn in Hpos; lia|].
          assert (0 < length (f_rows X)) by (apply (grid_nonempty_rows O HO X f v); rewrite Eg; left; reflexivity). cbn [length]. nia.
      - eapply (submit_err _ _ _ _ _ _ _ _ _ (single_laws O HO) (fun _ => True)) in H as (A1 & _); [|auto|auto]. congruence. }
    destruct r1 as [[]|e]; cbn in E.
    - destruct (R1 eq_refl) as [B1 B2].
      eapply (finish_log _ _ _ (job_single X) _ (length (f_rows X)) b _ _ (single_laws O HO) w) in E as (q2 & L2 & Hl2 & F2); [|exact B1|exact B2].
      exists (q1 ++ q2). split; [rewrite L2, L1, app_assoc; reflexivity|]. apply requests_combine; assumption.
    - injection E as <- <-. exists q1; split; [exact L1|apply requests_all_big, F1].
  Qed.

  Theorem minus_requests m X P b c fs c' r : wf_frame X -> reachable m X P b c ->
    calculate_pd_minus_single N c fs = (c', r) ->
    exists reqs, c_log c' = c_log c ++ reqs /\ requests_ok X b (length (f_rows X)) reqs.
  Proof.
    intros HX Hr H. destruct (reachable_shaped _ _ _ _ _ HX Hr) as ((_ & _ & Hs) & HXc & HPc & Hb & _).
    unfold calculate_pd_minus_single in H. destruct (seq2 _ _) as [s' r'] eqn:E. injection H as <- <-. cbn.
    destruct (loop _ _ _) as [s1 r1] eqn:El.
    eapply (loop_log (length (f_rows X)) b (length (f_rows X)) (fun s => msh (e_tab s) = mshape X)) in El as [(q1 & L1 & F1 & R1) Hj1];
      [| |rewrite HXc in Hs; exact Hs|apply blen_ok_empty|unfold small; cbn; lia].
    2:{ clear E El s1 r1 s' r'. intros s s' r' f Hf H Hj Hbl Hsm. unfold minus_body in H.
      destruct (dict_get String.eqb f (e_tab s)) as [e|x] eqn:Ed; [|injection H as <- <-; split; [apply LogGood_refl; assumption|exact Hj]].
      apply dict_get_assoc in Ed. destruct (mshape_assoc X _ f Hj) as [_ H2]. destruct (H2 _ Ed) as (Hcol & Hl).
      destruct (has_nan N e) eqn:En; [|injection H as <- <-; split; [apply LogGood_refl; assumption|exact Hj]].
      rewrite HXc, Hb in H. split.
      - eapply (submit_log _ _ _ _ _ _ _ _ _ minus_laws); [exact H|exact Hbl|exact Hsm| | |].
        + intros k Hk. apply in_map_iff in Hk as (i & <- & Hi). apply in_seq in Hi. apply job_minus_length; cbn; lia.
        + rewrite map_length, seq_length. lia.
        + rewrite map_length, seq_length. rewrite <- Hl. unfold has_nan in En. destruct e; [discriminate|cbn; lia].
      - eapply (submit_err _ _ _ _ _ _ _ _ _ minus_laws (fun _ => True)) in H as (A1 & _); [|auto|auto]. congruence. }
    destruct r1 as [[]|e]; cbn in E.
    - destruct (R1 eq_refl) as [B1 B2].
      eapply (finish_log _ _ _ (job_minus X) _ (length (f_rows X)) b _ _ minus_laws (length (f_rows X))) in E as (q2 & L2 & Hl2 & F2); [|exact B1|exact B2].
      exists (q1 ++ q2). split; [rewrite L2, L1, app_assoc; reflexivity|]. apply requests_combine; assumption.
    - injection E as <- <-. exists q1; split; [exact L1|apply requests_all_big, F1].
  Qed.

  Theorem pairs_requests m X P b c ps a c' r : wf_frame X -> reachable m X P b c ->
    calculate_pd_pairs O N c ps a = (c', r) ->
    exists reqs, c_log c' = c_log c ++ reqs /\ requests_ok X b 1 reqs.
  Proof.
    intros HX Hr H. destruct (reachable_shaped _ _ _ _ _ HX Hr) as ((_ & Hs & _) & HXc & HPc & Hb & _).
    unfold calculate_pd_pairs in H. destruct (seq2 _ _) as [s' r'] eqn:E. injection H as <- <-. cbn.
    destruct (loop _ _ _) as [s1 r1] eqn:El.
    eapply (loop_log (length (f_rows X)) b 1 (fun s => psh O (e_tab s) = pshape O N X)) in El as [(q1 & L1 & F1 & R1) Hj1];
      [| |rewrite HXc in Hs; exact Hs|apply blen_ok_empty|unfold small; cbn; lia].
    2:{ clear E El s1 r1 s' r'. intros s s' r' pr Hf H Hj Hbl Hsm. unfold pairs_body in H.
      match type of H with (match ?r with Ok _ => _ | Err _ => _ end) = _ => destruct r as [vals|e] eqn:Ev end;
        [|injection H as <- <-; split; [apply LogGood_refl; assumption|exact Hj]].
      eapply (loop_log (length (f_rows X)) b 1 (fun s => psh O (e_tab s) = pshape O N X)); [|exact H|exact Hj|exact Hbl|exact Hsm].
      clear H Ev Hj Hbl Hsm s s' r'. intros s s' r' v Hv H Hj Hbl Hsm. unfold pairs_cell_body in H.
      destruct (bind _ _) as [x|e] eqn:Er; [|injection H as <- <-; split; [apply LogGood_refl; assumption|exact Hj]].
      apply (pairs_cell_read O N HO c) in Er as (Hx & Hcomb & Hv1 & Hv2 & Hn1 & Hn2); [|rewrite HXc; exact Hj].
      destruct (n_isnan N x); [|injection H as <- <-; split; [apply LogGood_refl; assumption|exact Hj]].
      rewrite HXc, Hb in *. split.
      - eapply (submit_log _ _ _ _ _ _ _ _ _ (pairs_laws O HO)); [exact H|exact Hbl|exact Hsm| | |].
        + intros k _; apply job_pairs_length.
        + cbn; lia.
        + assert (0 < length (f_rows X)) by (eapply (grid_nonempty_rows O HO); exact Hv1). cbn; lia.
      - eapply (submit_err _ _ _ _ _ _ _ _ _ (pairs_laws O HO) (fun _ => True)) in H as (A1 & _); [|auto|auto]. congruence. }
    destruct r1 as [[]|e]; cbn in E.
    - destruct (R1 eq_refl) as [B1 B2].
      eapply (finish_log _ _ _ (job_pairs X) _ (length (f_rows X)) b _ _ (pairs_laws O HO) 1) in E as (q2 & L2 & Hl2 & F2); [|exact B1|exact B2].
      exists (q1 ++ q2). split; [rewrite L2, L1, app_assoc; reflexivity|]. apply requests_combine; assumption.
    - injection E as <- <-. exists q1; split; [exact L1|apply requests_all_big, F1].
  Qed.

  (** ** Reuse (C06) *)
  Theorem single_reuse (c : calc) fs :
    (forall f, In f (feats (c_X c) fs) -> exists xs, get_pd_single O c f None = Ok xs /\ forall x, In x xs -> n_isnan N x = false) ->
    calculate_pd_single O N c fs = (c, Ok tt).
  Proof.
    intros H. unfold calculate_pd_single. fold (feats (c_X c) fs). rewrite loop_noop; [destruct c; reflexivity|].
    intros f Hf. destruct (H f Hf) as (xs & Hxs & Hn). cbn in Hxs. bsplit Hxs. injection Hxs as <-.
    unfold single_body; cbn [e_tab]. rewrite E. rewrite (proj2 (has_nan_false N _) Hn). reflexivity.
  Qed.

  Theorem minus_reuse (c : calc) fs :
    (forall f, In f (feats (c_X c) fs) -> exists xs, get_pd_minus_single c f = Ok xs /\ forall x, In x xs -> n_isnan N x = false) ->
    calculate_pd_minus_single N c fs = (c, Ok tt).
  Proof.
    intros H. unfold calculate_pd_minus_single. fold (feats (c_X c) fs). rewrite loop_noop; [destruct c; reflexivity|].
    intros f Hf. destruct (H f Hf) as (xs & Hxs & Hn). unfold get_pd_minus_single in Hxs.
    unfold minus_body; cbn [e_tab]. rewrite Hxs. rewrite (proj2 (has_nan_false N _) Hn). reflexivity.
  Qed.

  (** one cell, whichever way round the pair is written *)
  Lemma pair_cell c X f1 f2 v w x : wf_frame X -> psh O (c_pairs c) = pshape O N X ->
    In f1 (f_cols X) -> In f2 (f_cols X) -> f1 <> f2 ->
    get_pd_pairs O c f1 f2 [(v, w)] = Ok [x] <->
    (if pair_eqb (get_pair_key c (f1, f2)) (f1, f2) then pget O (c_pairs c) ((f1, f2), v, w) = Some x
     else pget O (c_pairs c) ((f2, f1), w, v) = Some x).
  Proof.
    intros HX Hs H1 H2 Hne.
    assert (Hone : forall (R : (C * C) -> V -> Prop) a y, Forall2 R [a] [y] <-> R a y).
    { intros R a y; split; [intros H; inversion H; assumption|intros H; repeat constructor; exact H]. }
    pose proof HX as (Hnd & _).
    destruct (combinations2_complete (f_cols X) f1 f2 H1 H2 Hne) as [Hi|Hi].
    - rewrite (pairs_elem O N c X f1 f2 _ HX Hs Hi), Hone; cbn [fst snd].
      destruct (in_combinations_key O N c X f1 f2 HX Hs) as [A _]. rewrite (A Hi), pair_eqb_refl. reflexivity.
    - rewrite (get_pd_pairs_swap O N c X f1 f2) by assumption. cbn [map fst snd].
      rewrite (pairs_elem O N c X f2 f1 _ HX Hs Hi), Hone; cbn [fst snd].
      destruct (in_combinations_key O N c X f1 f2 HX Hs) as [_ A]. rewrite A by (apply combinations2_asym; assumption).
      replace (pair_eqb (f2, f1) (f1, f2)) with false; [reflexivity|].
      symmetry; apply not_true_iff_false; rewrite pair_eqb_eq; congruence.
  Qed.

  Theorem pairs_reuse m X P b c ps (a : bool) : wf_frame X -> reachable m X P b c ->
    (forall f1 f2, In (f1, f2) (plist X ps) -> f1 <> f2 /\ exists p q,
       nth_error (f_cols X) p = Some f1 /\ nth_error (f_cols X) q = Some f2 /\
       forall v w, (if a then In v (col_at p (f_rows X)) /\ In w (col_at q (f_rows X))
                    else exists r, In r (f_rows X) /\ nth_error r p = Some v /\ nth_error r q = Some w) ->
         exists x, get_pd_pairs O c f1 f2 [(v, w)] = Ok [x] /\ n_isnan N x = false) ->
    calculate_pd_pairs O N c ps a = (c, Ok tt).
  Proof.
    intros HX Hr H. destruct (reachable_shaped _ _ _ _ _ HX Hr) as ((_ & Hs & _) & HXc & _). rewrite HXc in Hs.
    unfold calculate_pd_pairs.
    assert (Hpl : match ps with None => map fst (c_pairs c) | Some l => l end = plist X ps).
    { unfold plist; destruct ps; [reflexivity|]. apply pairs_keys, Hs. }
    rewrite Hpl, loop_noop; [destruct c; reflexivity|].
    intros [f1 f2] Hf. destruct (H f1 f2 Hf) as (Hne & p & q & Hp & Hq & Hcell).
    pose proof (nth_error_In _ _ Hp) as Hi1. pose proof (nth_error_In _ _ Hq) as Hi2.
    unfold pairs_body; cbn [e_tab]. set (s0 := {| e_log := c_log c; e_tab := c_pairs c; e_b := b_empty |}).
    destruct (pair_key_swap O N c X f1 f2 HX Hs Hi1 Hi2 Hne) as [_ Hk].
    match goal with |- (match ?r with Ok _ => _ | Err _ => _ end) = _ => destruct r as [vals|e] eqn:Ev end.
    2:{ exfalso. destruct a.
        - destruct (pshape_assoc O N X _ (get_pair_key c (f1, f2)) Hs) as [H1 _]. destruct (H1 Hk) as (mm & Hm).
          unfold dict_get in Ev; rewrite Hm in Ev. discriminate.
        - apply combinations2_In in Hk as [Hc1 Hc2]. rewrite HXc in Ev.
          apply In_nth_error in Hc1 as (i & Hi), Hc2 as (j & Hj).
          unfold column in Ev. rewrite (col_pos_of X HX i _ Hi), (col_pos_of X HX j _ Hj) in Ev. discriminate. }
    pose proof (pairs_body_vals O N c a s0 (f1, f2) vals) as Hvals. cbn [e_tab s0] in Hvals. rewrite HXc in Hvals.
    rewrite HXc in Ev. specialize (Hvals Hs Ev).
    apply loop_noop. intros [v w] Hv. apply Hvals in Hv. cbn [fst snd] in Hv.
    assert (Hget : exists x, pget O (c_pairs c) (get_pair_key c (f1, f2), v, w) = Some x /\ n_isnan N x = false).
    { assert (Hvw : forall fa fb i j, (fa, fb) = get_pair_key c (f1, f2) -> nth_error (f_cols X) i = Some fa -> nth_error (f_cols X) j = Some fb ->
        (if a then In v (col_at i (f_rows X)) /\ In w (col_at j (f_rows X))
                    else exists r, In r (f_rows X) /\ nth_error r i = Some v /\ nth_error r j = Some w)).
      { intros fa fb i j Hk0 Hfa Hfb. unfold pair_vals in Hv. rewrite <- Hk0, HXc in Hv; cbn [fst snd] in Hv. destruct a.
        - rewrite (grid_of O X HX i fa Hfa), (grid_of O X HX j fb Hfb) in Hv. destruct Hv as [Hv1 Hv2].
          split; eapply (np_unique_sub O HO); eassumption.
        - destruct Hv as (ca & cb & Hca & Hcb & Hab). unfold column in Hca, Hcb.
          rewrite (col_pos_of X HX i fa Hfa) in Hca. rewrite (col_pos_of X HX j fb Hfb) in Hcb. injection Hca as <-. injection Hcb as <-.
          apply combine_In_nth in Hab as (n & Hn1 & Hn2). pose proof HX as (_ & Hrows & _).
          rewrite (col_at_nth i (length (f_cols X))) in Hn1; [|exact Hrows|apply nth_error_Some; congruence].
          rewrite (col_at_nth j (length (f_cols X))) in Hn2; [|exact Hrows|apply nth_error_Some; congruence].
          destruct (nth_error (f_rows X) n) as [row|] eqn:Erow; [|discriminate].
          exists row; split; [eapply nth_error_In; exact Erow|auto]. }
      destruct (pair_eqb (get_pair_key c (f1, f2)) (f1, f2)) eqn:Ek.
      - apply pair_eqb_eq in Ek. destruct (Hcell v w) as (x & Hx & Hxn).
        + apply (Hvw f1 f2 p q); auto.
        + apply (pair_cell c X f1 f2 v w x HX Hs Hi1 Hi2 Hne) in Hx. rewrite Ek, pair_eqb_refl in Hx. rewrite Ek. eauto.
      - assert (Hk2 : get_pair_key c (f1, f2) = (f2, f1)).
        { unfold get_pair_key in *. destruct (assoc _ _ _); [|reflexivity]. rewrite pair_eqb_refl in Ek; discriminate. }
        destruct (Hcell w v) as (x & Hx & Hxn).
        + specialize (Hvw f2 f1 q p (eq_sym Hk2) Hq Hp). destruct a; [tauto|]. destruct Hvw as (row & ? & ? & ?); eauto.
        + apply (pair_cell c X f1 f2 w v x HX Hs Hi1 Hi2 Hne) in Hx. rewrite Ek in Hx. rewrite Hk2. eauto. }
    destruct Hget as (x & Hx & Hxn). unfold pairs_cell_body; cbn [e_tab s0 fst snd].
    unfold pget in Hx; cbn [fst snd] in Hx. unfold dict_get.
    destruct (assoc pair_eqb (get_pair_key c (f1, f2)) (c_pairs c)) as [e|]; [|discriminate]. cbn [bind].
    destruct (get_index O (fst (fst e)) v); [|discriminate]. cbn [bind]. destruct (get_index O (snd (fst e)) w); [|discriminate]. cbn [bind].
    unfold mat_get, get_nth. destruct (nth_error (snd e) a0) as [row|]; [|discriminate]. cbn [bind]. rewrite Hx, Hxn. reflexivity.
  Qed.

  (** no pair cell holding a number is ever overwritten, whatever the model does *)
  Theorem pairs_keep m X P b c ps a c' r f1 f2 v w x : wf_frame X -> reachable m X P b c ->
    calculate_pd_pairs O N c ps a = (c', r) -> In f1 (f_cols X) -> In f2 (f_cols X) -> f1 <> f2 ->
    get_pd_pairs O c f1 f2 [(v, w)] = Ok [x] -> n_isnan N x = false ->
    get_pd_pairs O c' f1 f2 [(v, w)] = Ok [x].
  Proof.
    intros HX Hr H Hi1 Hi2 Hne Hx Hn.
    assert (Hr' : reachable m X P b c') by (eapply (reachable_step O N m X P b c (OpPairs ps a)); [exact Hr|exact H]).
    destruct (reachable_shaped _ _ _ _ _ HX Hr) as ((_ & Hs & _) & HXc & _). rewrite HXc in Hs.
    destruct (reachable_shaped _ _ _ _ _ HX Hr') as ((_ & Hs' & _) & HXc' & _). rewrite HXc' in Hs'.
    apply (pair_cell c X f1 f2 v w x HX Hs Hi1 Hi2 Hne) in Hx.
    apply (pair_cell c' X f1 f2 v w x HX Hs' Hi1 Hi2 Hne).
    assert (Hkeep : forall (k : pkey) (y : V), pget O (c_pairs c) k = Some y -> n_isnan N y = false -> pget O (c_pairs c') k = Some y).
    { unfold calculate_pd_pairs in H. destruct (seq2 _ _) as [s r'] eqn:E. injection H as <- <-. cbn.
      set (s0 := {| e_log := c_log c; e_tab := c_pairs c; e_b := b_empty |}) in *.
      destruct (loop _ _ s0) as [s1 r1] eqn:El.
      assert (Hcellk : forall (p : string * string) s2 s3 r3 (v0 : C * C), pairs_cell_body O N c p s2 v0 = (s3, r3) ->
        PendNan (n_isnan N) (pget O) s2 -> PendNan (n_isnan N) (pget O) s3 /\ KeepNum (n_isnan N) (pget O) s2 s3).
      { intros p s2 s3 r3 v0 Hb Hp. unfold pairs_cell_body in Hb.
        destruct (bind _ _) as [y|e] eqn:Er; [|injection Hb as <- <-; split; [exact Hp|intros k z Hz _; exact Hz]].
        destruct (n_isnan N y) eqn:Ey; [|injection Hb as <- <-; split; [exact Hp|intros k z Hz _; exact Hz]].
        eapply (submit_keep _ _ _ _ _ _ _ _ _ _ (pairs_laws O HO)); [exact Hb|exact Hp| |exact Ey].
        bsplit Er. apply dict_get_assoc in E0. bsplit Er. bsplit Er. unfold mat_get in Er. bsplit Er. apply get_nth_inv in Er, E3.
        unfold pget; cbn [fst snd]. rewrite E0, E1, E2, E3. exact Er. }
      assert (Hl : PendNan (n_isnan N) (pget O) s1 /\ KeepNum (n_isnan N) (pget O) s0 s1).
      { eapply loop_keep; [|exact El|intros k []]. intros s2 s3 r3 pr Hb Hp. unfold pairs_body in Hb.
        match type of Hb with (match ?r with Ok _ => _ | Err _ => _ end) = _ => destruct r as [vals|e] eqn:Ev end;
          [|injection Hb as <- <-; split; [exact Hp|intros k z Hz _; exact Hz]].
        eapply loop_keep; [|exact Hb|exact Hp]. intros; eapply Hcellk; eassumption. }
      destruct Hl as [Hp1 Hk1]. intros k y Hy Hny. specialize (Hk1 k y Hy Hny).
      destruct r1 as [[]|e]; cbn in E; [|injection E as <- <-; exact Hk1].
      eapply (finish_keep _ _ _ (job_pairs X) _ 0 _ _ _ (pairs_laws O HO)) in E; [|exact Hp1]. apply E; assumption. }
    assert (Hkk : get_pair_key c' (f1, f2) = get_pair_key c (f1, f2)).
    { destruct (in_combinations_key O N c X f1 f2 HX Hs) as [A1 A2]. destruct (in_combinations_key O N c' X f1 f2 HX Hs') as [B1 B2].
      destruct (in_dec pair_dec (f1, f2) (combinations2 (f_cols X))) as [Hi|Hi]; [rewrite A1, B1|rewrite A2, B2]; auto. }
    rewrite Hkk. destruct (pair_eqb _ _); apply Hkeep; assumption.
  Qed.

  (** ** Isolation (C07) *)
  Lemma single_entry_ext X t t' f : ssh O t = sshape O N X -> ssh O t' = sshape O N X ->
    (forall v, sget O t' (f, v) = sget O t (f, v)) -> assoc String.eqb f t' = assoc String.eqb f t.
  Proof.
    intros Hs Hs' Hv. destruct (sshape_assoc O N X t f Hs) as [A1 A2]. destruct (sshape_assoc O N X t' f Hs') as [B1 B2].
    destruct (assoc String.eqb f t) as [[fv pv]|] eqn:E, (assoc String.eqb f t') as [[fv' pv']|] eqn:E'; [| | |reflexivity].
    - destruct (A2 _ eq_refl) as (_ & F1 & L1 & _). destruct (B2 _ eq_refl) as (_ & F2 & L2 & _). cbn in *. subst fv fv'.
      f_equal; f_equal. apply nth_error_ext_len; [congruence|]. intros i x y Hx Hy.
      destruct (nth_error_lt_some (grid O X f) i) as (v & Hgv).
      { rewrite <- L1. assert (Hlt : i < length pv') by (apply nth_error_Some; congruence). congruence. }
      pose proof (single_raw O N HO X t f _ i v y Hs E Hgv Hy) as R1.
      pose proof (single_raw O N HO X t' f _ i v x Hs' E' Hgv Hx) as R2.
      destruct (c_isnan O v); [congruence|]. rewrite Hv in R2. congruence.
    - exfalso. destruct (B1 (proj1 (A2 _ eq_refl))); congruence.
    - exfalso. destruct (A1 (proj1 (B2 _ eq_refl))); congruence.
  Qed.

  Lemma minus_entry_ext (X : frame C) (t t' : list (string * list V)) f : msh t = mshape X -> msh t' = mshape X ->
    (forall i, mget t' (f, i) = mget t (f, i)) -> assoc String.eqb f t' = assoc String.eqb f t.
  Proof.
    intros Hs Hs' Hv. destruct (mshape_assoc X t f Hs) as [A1 A2]. destruct (mshape_assoc X t' f Hs') as [B1 B2].
    unfold mget in Hv; cbn in Hv.
    destruct (assoc String.eqb f t) as [a|] eqn:E, (assoc String.eqb f t') as [a'|] eqn:E'; [| | |reflexivity].
    - f_equal. apply nth_error_ext, Hv.
    - exfalso. destruct (B1 (proj1 (A2 _ eq_refl))); congruence.
    - exfalso. destruct (A1 (proj1 (B2 _ eq_refl))); congruence.
  Qed.

  Lemma nanvals2_nth fv gv (m : list (list V)) i v r : nth_error fv i = Some v -> nth_error m i = Some r ->
    nth_error (nanvals2 O fv gv m) i = Some (if c_isnan O v then inl r else inr (nanvals O gv r)).
  Proof.
    unfold nanvals2; revert m i; induction fv as [|w fv IH]; intros [|y m] [|i] Hv Hr; cbn in *; try discriminate.
    - injection Hv as ->. injection Hr as ->. destruct (c_isnan O v); reflexivity.
    - apply IH; assumption.
  Qed.

  Lemma pairs_entry_ext X t t' p : psh O t = pshape O N X -> psh O t' = pshape O N X ->
    (forall v w, pget O t' (p, v, w) = pget O t (p, v, w)) -> assoc pair_eqb p t' = assoc pair_eqb p t.
  Proof.
    intros Hs Hs' Hv. destruct (pshape_assoc O N X t p Hs) as [A1 A2]. destruct (pshape_assoc O N X t' p Hs') as [B1 B2].
    destruct (assoc pair_eqb p t) as [[fv m]|] eqn:E, (assoc pair_eqb p t') as [[fv' m']|] eqn:E'; [| | |reflexivity].
    - destruct (A2 _ eq_refl) as (_ & F1 & L1 & V1). destruct (B2 _ eq_refl) as (_ & F2 & L2 & V2). cbn [fst snd] in *. subst fv fv'.
      f_equal; f_equal.
      assert (Hlm : length m = length (grid O X (fst p))) by (rewrite <- (map_length (@length V) m), L1; apply repeat_length).
      assert (Hlm' : length m' = length (grid O X (fst p))) by (rewrite <- (map_length (@length V) m'), L2; apply repeat_length).
      apply nth_error_ext_len; [congruence|]. intros i r' r Hr' Hr.
      destruct (nth_error_lt_some (grid O X (fst p)) i) as (v & Hgv).
      { rewrite <- Hlm. apply nth_error_Some; congruence. }
      pose proof (nanvals2_nth _ (grid O X (snd p)) _ _ _ _ Hgv Hr) as N1.
      pose proof (nanvals2_nth _ (grid O X (snd p)) _ _ _ _ Hgv Hr') as N2. rewrite V2 in N2. rewrite V1, N2 in N1.
      destruct (c_isnan O v) eqn:Evn; [injection N1 as ->; reflexivity|]. injection N1 as N1.
      pose proof (map_length_repeat_nth _ _ _ _ _ L1 Hr) as Lr. pose proof (map_length_repeat_nth _ _ _ _ _ L2 Hr') as Lr'.
      apply nth_error_ext_len; [congruence|]. intros j x y Hx Hy.
      destruct (nth_error_lt_some (grid O X (snd p)) j) as (w & Hgw).
      { rewrite <- Lr. apply nth_error_Some; congruence. }
      destruct (c_isnan O w) eqn:Ewn.
      + pose proof (nanvals_nth O _ _ _ _ _ Hgw Ewn Hx) as M1. pose proof (nanvals_nth O _ _ _ _ _ Hgw Ewn Hy) as M2. congruence.
      + specialize (Hv v w). unfold pget in Hv; cbn [fst snd] in Hv. rewrite E, E' in Hv; cbn [fst snd] in Hv.
        rewrite (get_index_NoDup O HO _ _ _ (grid_NoDup O HO X (fst p)) Hgv Evn), (get_index_NoDup O HO _ _ _ (grid_NoDup O HO X (snd p)) Hgw Ewn), Hr, Hr', Hx, Hy in Hv.
        congruence.
    - exfalso. destruct (B1 (proj1 (A2 _ eq_refl))); congruence.
    - exfalso. destruct (A1 (proj1 (B2 _ eq_refl))); congruence.
  Qed.

  Theorem single_isolation m X P b c fs c' r : wf_frame X -> reachable m X P b c ->
    calculate_pd_single O N c fs = (c', r) ->
    c_pairs c' = c_pairs c /\ c_minus c' = c_minus c /\ c_X c' = c_X c
    /\ map (fun e => (fst e, fst (snd e))) (c_single c') = map (fun e => (fst e, fst (snd e))) (c_single c)
    /\ forall f vs, ~ In f (feats X fs) -> get_pd_single O c' f vs = get_pd_single O c f vs.
  Proof.
    intros HX Hr H.
    assert (Hr' : reachable m X P b c') by (eapply (reachable_step O N m X P b c (OpSingle fs)); [exact Hr|exact H]).
    destruct (reachable_shaped _ _ _ _ _ HX Hr) as (HS & HXc & _). pose proof HS as (Hs & _). rewrite HXc in Hs.
    destruct (reachable_shaped _ _ _ _ _ HX Hr') as ((Hs' & _) & HXc' & _). rewrite HXc' in Hs'.
    pose proof H as H0. unfold calculate_pd_single in H. destruct (seq2 _ _) as [s r'] eqn:E. injection H as <- <-. cbn [c_single c_pairs c_minus c_X] in *.
    split; [reflexivity|]. split; [reflexivity|]. split; [reflexivity|]. split.
    - assert (Hp : forall t : list (string * (list C * list V)), map (fun e => (fst e, fst (snd e))) t = map (fun e => (fst e, fst (fst (snd e)))) (ssh O t)).
      { intros t; unfold ssh, dshape. rewrite map_map. reflexivity. }
      rewrite !Hp, Hs, Hs'. reflexivity.
    - intros f vs Hf. eapply (single_run_err O N HO) in E as (_ & A & _); [|exact HS].
      assert (Ha : assoc String.eqb f (e_tab s) = assoc String.eqb f (c_single c)).
      { eapply single_entry_ext; [exact Hs|exact Hs'|]. intros v. apply A. intros [Hk _]; apply Hf.
        unfold feats; rewrite HXc in Hk; exact Hk. }
      unfold get_pd_single, dict_get. cbn [c_single]. rewrite Ha. reflexivity.
  Qed.

  Theorem minus_isolation m X P b c fs c' r : wf_frame X -> reachable m X P b c ->
    calculate_pd_minus_single N c fs = (c', r) ->
    c_pairs c' = c_pairs c /\ c_single c' = c_single c /\ c_X c' = c_X c
    /\ map (fun e => (fst e, length (snd e))) (c_minus c') = map (fun e => (fst e, length (snd e))) (c_minus c)
    /\ forall f, ~ In f (feats X fs) -> get_pd_minus_single c' f = get_pd_minus_single c f.
  Proof.
    intros HX Hr H.
    assert (Hr' : reachable m X P b c') by (eapply (reachable_step O N m X P b c (OpMinus fs)); [exact Hr|exact H]).
    destruct (reachable_shaped _ _ _ _ _ HX Hr) as (HS & HXc & _). pose proof HS as (_ & _ & Hs). rewrite HXc in Hs.
    destruct (reachable_shaped _ _ _ _ _ HX Hr') as ((_ & _ & Hs') & HXc' & _). rewrite HXc' in Hs'.
    unfold calculate_pd_minus_single in H. destruct (seq2 _ _) as [s r'] eqn:E. injection H as <- <-. cbn [c_single c_pairs c_minus c_X] in *.
    split; [reflexivity|]. split; [reflexivity|]. split; [reflexivity|]. split.
    - change (msh (e_tab s) = msh (c_minus c)). congruence.
    - intros f Hf. eapply (minus_run_err O N) in E as (_ & A & _); [|exact HS].
      unfold get_pd_minus_single, dict_get. cbn [c_minus]. erewrite minus_entry_ext; [reflexivity|exact Hs|exact Hs'|].
      intros i. apply A. intros [[Hk _] _]; apply Hf. unfold feats; rewrite HXc in Hk; exact Hk.
  Qed.

  Theorem pairs_isolation m X P b c ps a c' r : wf_frame X -> reachable m X P b c ->
    calculate_pd_pairs O N c ps a = (c', r) ->
    c_single c' = c_single c /\ c_minus c' = c_minus c /\ c_X c' = c_X c
    /\ map (fun e => (fst e, fst (snd e), map (@length V) (snd (snd e)))) (c_pairs c')
       = map (fun e => (fst e, fst (snd e), map (@length V) (snd (snd e)))) (c_pairs c)
    /\ forall f1 f2, ~ requested X ps f1 f2 ->
         get_pd_pairs_all c' f1 f2 = get_pd_pairs_all c f1 f2
         /\ forall vals, get_pd_pairs O c' f1 f2 vals = get_pd_pairs O c f1 f2 vals.
  Proof.
    intros HX Hr H.
    assert (Hr' : reachable m X P b c') by (eapply (reachable_step O N m X P b c (OpPairs ps a)); [exact Hr|exact H]).
    destruct (reachable_shaped _ _ _ _ _ HX Hr) as (HS & HXc & _). pose proof HS as (_ & Hs & _). rewrite HXc in Hs.
    destruct (reachable_shaped _ _ _ _ _ HX Hr') as ((_ & Hs' & _) & HXc' & _). rewrite HXc' in Hs'.
    unfold calculate_pd_pairs in H. destruct (seq2 _ _) as [s r'] eqn:E. injection H as <- <-. cbn [c_single c_pairs c_minus c_X] in *.
    split; [reflexivity|]. split; [reflexivity|]. split; [reflexivity|]. split.
    - assert (Hp : forall t : list ((string * string) * (list C * list C * list (list V))),
        map (fun e => (fst e, fst (snd e), map (@length V) (snd (snd e)))) t = map (fun e => (fst e, fst (fst (snd e)), snd (fst (snd e)))) (psh O t)).
      { intros t; unfold psh, dshape. rewrite map_map. reflexivity. }
      rewrite !Hp, Hs, Hs'. reflexivity.
    - intros f1 f2 Hf.
      assert (Hpl : match ps with None => map fst (c_pairs c) | Some l => l end = plist X ps).
      { unfold plist; destruct ps; [reflexivity|]. apply pairs_keys, Hs. }
      rewrite Hpl in E.
      eapply (pairs_run_err O N HO) in E as (_ & A & _); [|exact HS|rewrite HXc; exact HX].
      assert (Ha : forall p, p = (f1, f2) \/ p = (f2, f1) -> assoc pair_eqb p (e_tab s) = assoc pair_eqb p (c_pairs c)).
      { intros p Hp. eapply pairs_entry_ext; [exact Hs|exact Hs'|]. intros v w. apply A. intros ((pr & Hpr & Hk) & _). cbn [fst snd] in Hk.
        apply Hf. unfold requested. unfold plist in Hpr.
        assert (Hpr2 : pr = (f1, f2) \/ pr = (f2, f1)).
        { destruct pr as [g1 g2]. unfold get_pair_key in Hk. destruct (assoc _ _ _); cbn [fst snd] in Hk; destruct Hp as [-> | ->]; injection Hk as <- <-; auto. }
        destruct ps as [l|]; destruct Hpr2 as [-> | ->]; auto. }
      assert (Hkk : forall c2, c_pairs c2 = e_tab s -> get_pair_key c2 (f1, f2) = get_pair_key c (f1, f2)).
      { intros c2 Hc2. unfold get_pair_key. rewrite Hc2, Ha by auto. reflexivity. }
      assert (Hd : dict_get pair_eqb (get_pair_key c (f1, f2)) (e_tab s) = dict_get pair_eqb (get_pair_key c (f1, f2)) (c_pairs c)).
      { unfold dict_get. rewrite Ha; [reflexivity|]. unfold get_pair_key; destruct (assoc _ _ _); auto. }
      split; [|intros vals]; unfold get_pd_pairs_all, get_pd_pairs; rewrite Hkk by reflexivity; cbn [c_pairs]; rewrite Hd; reflexivity.
  Qed.

  (** the grids *)
  Theorem grid_values m X P b c p f : wf_frame X -> reachable m X P b c -> nth_error (f_cols X) p = Some f ->
    (forall v, In v (col_at p (f_rows X)) -> c_isnan O v = false) ->
    exists pv, assoc String.eqb f (c_single c) = Some (np_unique O (col_at p (f_rows X)), pv)
    /\ length pv = length (np_unique O (col_at p (f_rows X)))
    /\ StronglySorted (fun a b => c_ltb O a b = true) (np_unique O (col_at p (f_rows X)))
    /\ forall v, In v (np_unique O (col_at p (f_rows X))) <-> In v (col_at p (f_rows X)).
  Proof.
    intros HX Hr Hp Hn. destruct (reachable_shaped _ _ _ _ _ HX Hr) as ((Hs & _) & HXc & _). rewrite HXc in Hs.
    destruct (sshape_assoc O N X _ f Hs) as [H1 H2]. destruct (H1 (nth_error_In _ _ Hp)) as (pv & Ha).
    destruct (H2 _ Ha) as (_ & _ & Hl & _). rewrite (grid_of O X HX p f Hp) in *. exists pv. split; [exact Ha|]. split; [exact Hl|].
    split; [apply (np_unique_sorted O HO), Hn|]. intros v; split; [apply (np_unique_sub O HO)|].
    intros Hv; apply np_unique_In; auto.
  Qed.

  (** ** Batch sizes and histories do not matter (C04) *)
  Theorem single_agree m1 m2 X P1 P2 b1 b2 c1 c2 g fs1 fs2 d1 d2 f : wf_frame X -> rowwise P1 g -> rowwise P2 g ->
    reachable m1 X P1 b1 c1 -> reachable m2 X P2 b2 c2 ->
    calculate_pd_single O N c1 fs1 = (d1, Ok tt) -> calculate_pd_single O N c2 fs2 = (d2, Ok tt) ->
    In f (feats X fs1) -> In f (feats X fs2) ->
    get_pd_single O d1 f None = get_pd_single O d2 f None
    /\ forall vs, get_pd_single O d1 f (Some vs) = get_pd_single O d2 f (Some vs).
  Proof.
    intros HX Hg1 Hg2 R1 R2 H1 H2 Hf1 Hf2.
    destruct (single_outcome _ _ _ _ _ _ _ _ HX R1 H1) as [_ Hk]. specialize (Hk eq_refl f Hf1).
    apply In_nth_error in Hk as (p & Hp).
    destruct (pd_single_exact O N HO Hnan _ _ _ _ _ g _ _ p f HX Hg1 R1 H1 Hf1 Hp) as [_ A].
    destruct (pd_single_exact O N HO Hnan _ _ _ _ _ g _ _ p f HX Hg2 R2 H2 Hf2 Hp) as [_ B].
    split; [congruence|].
    assert (Ra : reachable m1 X P1 b1 d1) by (eapply (reachable_step O N m1 X P1 b1 c1 (OpSingle fs1)); eauto).
    assert (Rb : reachable m2 X P2 b2 d2) by (eapply (reachable_step O N m2 X P2 b2 c2 (OpSingle fs2)); eauto).
    destruct (reachable_shaped _ _ _ _ _ HX Ra) as ((Sa & _) & HXa & _). rewrite HXa in Sa.
    destruct (reachable_shaped _ _ _ _ _ HX Rb) as ((Sb & _) & HXb & _). rewrite HXb in Sb.
    intros vs. unfold get_pd_single, dict_get in *.
    destruct (sshape_assoc O N X _ f Sa) as [Sa1 _]. destruct (Sa1 (nth_error_In _ _ Hp)) as (pva & Ea).
    destruct (sshape_assoc O N X _ f Sb) as [Sb1 _]. destruct (Sb1 (nth_error_In _ _ Hp)) as (pvb & Eb).
    rewrite Ea in *. rewrite Eb in *. cbn [bind snd] in A, B. injection A as ->. injection B as ->. reflexivity.
  Qed.

  Theorem minus_agree m1 m2 X P1 P2 b1 b2 c1 c2 g fs1 fs2 d1 d2 f : wf_frame X -> rowwise P1 g -> rowwise P2 g ->
    reachable m1 X P1 b1 c1 -> reachable m2 X P2 b2 c2 ->
    calculate_pd_minus_single N c1 fs1 = (d1, Ok tt) -> calculate_pd_minus_single N c2 fs2 = (d2, Ok tt) ->
    In f (feats X fs1) -> In f (feats X fs2) ->
    get_pd_minus_single d1 f = get_pd_minus_single d2 f.
  Proof.
    intros HX Hg1 Hg2 R1 R2 H1 H2 Hf1 Hf2.
    destruct (minus_outcome _ _ _ _ _ _ _ _ HX R1 H1) as [_ Hk]. specialize (Hk eq_refl f Hf1).
    apply In_nth_error in Hk as (p & Hp).
    rewrite (pd_minus_exact O N HO Hnan _ _ _ _ _ g _ _ p f HX Hg1 R1 H1 Hf1 Hp).
    rewrite (pd_minus_exact O N HO Hnan _ _ _ _ _ g _ _ p f HX Hg2 R2 H2 Hf2 Hp). reflexivity.
  Qed.

  (** the full matrix of a pair listed in column order *)
  Lemma combinations2_nth {A} (l : list A) p q a b : nth_error l p = Some a -> nth_error l q = Some b -> p < q -> In (a, b) (combinations2 l).
  Proof.
    revert p q; induction l as [|x t IH]; intros [|p] [|q] Hp Hq Hlt; cbn in *; try discriminate; try lia; apply in_or_app.
    - injection Hp as ->. left. apply in_map. eapply nth_error_In; exact Hq.
    - right. eapply IH; [exact Hp|exact Hq|lia].
  Qed.

  Theorem pd_pairs_matrix m X P b c g ps c' p q f1 f2 : wf_frame X -> rowwise P g -> reachable m X P b c ->
    calculate_pd_pairs O N c ps true = (c', Ok tt) -> requested X ps f1 f2 ->
    nth_error (f_cols X) p = Some f1 -> nth_error (f_cols X) q = Some f2 -> p < q ->
    get_pd_pairs_all c' f1 f2 =
      Ok (map (fun v => map (fun w => PD2 (np_mean N) g (f_rows X) p q v w) (np_unique O (col_at q (f_rows X))))
              (np_unique O (col_at p (f_rows X)))).
  Proof.
    intros HX Hg Hr H Hreq Hp Hq Hlt.
    assert (Hne : p <> q) by lia.
    pose proof (combinations2_nth _ _ _ _ _ Hp Hq Hlt) as Hin.
    assert (Hr' : reachable m X P b c') by (eapply (reachable_step O N m X P b c (OpPairs ps true)); [exact Hr|exact H]).
    destruct (reachable_shaped _ _ _ _ _ HX Hr') as ((_ & Hs & _) & HXc & _). rewrite HXc in Hs.
    destruct (in_combinations_key O N c' X f1 f2 HX Hs) as [A _].
    destruct (pshape_assoc O N X _ (f1, f2) Hs) as [H1 H2]. destruct (H1 Hin) as (mm & Ha).
    destruct (H2 _ Ha) as (_ & _ & Hl & _). cbn [fst snd] in *.
    unfold get_pd_pairs_all, dict_get. rewrite (A Hin), Ha. cbn [bind snd]. f_equal.
    rewrite (grid_of O X HX p f1 Hp), (grid_of O X HX q f2 Hq) in *.
    assert (Hreq' : requested X ps f2 f1) by (unfold requested in *; destruct ps; tauto).
    apply Forall2_map_eq, Forall2_nth.
    { rewrite <- (map_length (@length V) mm), Hl, repeat_length; reflexivity. }
    intros i v row Hv Hrow. apply Forall2_map_eq, Forall2_nth.
    { symmetry. eapply map_length_repeat_nth; [exact Hl|exact Hrow]. }
    intros j w x Hw Hx.
    assert (Hvc : In v (col_at p (f_rows X))) by (apply (np_unique_sub O HO); eapply nth_error_In; exact Hv).
    assert (Hwc : In w (col_at q (f_rows X))) by (apply (np_unique_sub O HO); eapply nth_error_In; exact Hw).
    pose proof (pairs_success_no_nan _ _ _ _ _ _ _ _ _ HX Hg Hr H f1 f2 p q v Hreq Hp Hq Hne Hvc) as Hnv.
    pose proof (pairs_success_no_nan _ _ _ _ _ _ _ _ _ HX Hg Hr H f2 f1 q p w Hreq' Hq Hp (not_eq_sym Hne) Hwc) as Hnw.
    pose proof (pd_pairs_exact O N HO Hnan m X P b c g ps true c' p q f1 f2 HX Hg Hr H Hreq Hp Hq Hne [(v, w)]) as He.
    rewrite (pairs_elem O N c' X f1 f2 _ HX Hs Hin) in He.
    assert (Hpre : forall v0 w0, In (v0, w0) [(v, w)] -> In v0 (col_at p (f_rows X)) /\ In w0 (col_at q (f_rows X))).
    { intros v0 w0 [Heq|[]]; injection Heq as <- <-; auto. }
    specialize (He Hpre). inversion He as [|? ? ? ? Hx' _]; subst. cbn [fst snd] in Hx'.
    unfold pget in Hx'; cbn [fst snd] in Hx'. rewrite Ha in Hx'; cbn [fst snd] in Hx'.
    rewrite (get_index_NoDup O HO _ _ _ (np_unique_NoDup O HO _) Hv Hnv), (get_index_NoDup O HO _ _ _ (np_unique_NoDup O HO _) Hw Hnw), Hrow in Hx'.
    congruence.
  Qed.

  (** the same matrix is returned for the reversed pair *)
  Theorem pd_pairs_matrix_reversed m X P b c f1 f2 : wf_frame X -> reachable m X P b c ->
    In f1 (f_cols X) -> In f2 (f_cols X) -> f1 <> f2 ->
    get_pd_pairs_all c f2 f1 = get_pd_pairs_all c f1 f2.
  Proof.
    intros HX Hr H1 H2 Hne. destruct (reachable_shaped _ _ _ _ _ HX Hr) as ((_ & Hs & _) & HXc & _). rewrite HXc in Hs.
    unfold get_pd_pairs_all. destruct (pair_key_swap O N c X f1 f2 HX Hs H1 H2 Hne) as [Hk _]. rewrite Hk. reflexivity.
  Qed.

  Theorem pairs_agree m1 m2 X P1 P2 b1 b2 c1 c2 g ps1 ps2 d1 d2 f1 f2 : wf_frame X -> rowwise P1 g -> rowwise P2 g ->
    reachable m1 X P1 b1 c1 -> reachable m2 X P2 b2 c2 ->
    calculate_pd_pairs O N c1 ps1 true = (d1, Ok tt) -> calculate_pd_pairs O N c2 ps2 true = (d2, Ok tt) ->
    In f1 (f_cols X) -> In f2 (f_cols X) -> f1 <> f2 ->
    requested X ps1 f1 f2 -> requested X ps2 f1 f2 ->
    get_pd_pairs_all d1 f1 f2 = get_pd_pairs_all d2 f1 f2
    /\ forall vals, get_pd_pairs O d1 f1 f2 vals = get_pd_pairs O d2 f1 f2 vals.
  Proof.
    intros HX Hg1 Hg2 R1 R2 H1 H2 Hi1 Hi2 Hne Q1 Q2.
    assert (Ra : reachable m1 X P1 b1 d1) by (eapply (reachable_step O N m1 X P1 b1 c1 (OpPairs ps1 true)); eauto).
    assert (Rb : reachable m2 X P2 b2 d2) by (eapply (reachable_step O N m2 X P2 b2 c2 (OpPairs ps2 true)); eauto).
    apply In_nth_error in Hi1 as Hi1', Hi2 as Hi2'. destruct Hi1' as (p & Hp), Hi2' as (q & Hq).
    assert (Hpq : p <> q) by congruence.
    assert (Hall : get_pd_pairs_all d1 f1 f2 = get_pd_pairs_all d2 f1 f2).
    { destruct (Nat.lt_ge_cases p q) as [Hlt|Hge].
      - rewrite (pd_pairs_matrix _ _ _ _ _ g _ _ p q f1 f2 HX Hg1 R1 H1 Q1 Hp Hq Hlt).
        rewrite (pd_pairs_matrix _ _ _ _ _ g _ _ p q f1 f2 HX Hg2 R2 H2 Q2 Hp Hq Hlt). reflexivity.
      - assert (Hlt : q < p) by lia.
        assert (Q1' : requested X ps1 f2 f1) by (unfold requested in *; destruct ps1; tauto).
        assert (Q2' : requested X ps2 f2 f1) by (unfold requested in *; destruct ps2; tauto).
        rewrite (pd_pairs_matrix_reversed _ _ _ _ d1 f2 f1 HX Ra) by auto.
        rewrite (pd_pairs_matrix_reversed _ _ _ _ d2 f2 f1 HX Rb) by auto.
        rewrite (pd_pairs_matrix _ _ _ _ _ g _ _ q p f2 f1 HX Hg1 R1 H1 Q1' Hq Hp Hlt).
        rewrite (pd_pairs_matrix _ _ _ _ _ g _ _ q p f2 f1 HX Hg2 R2 H2 Q2' Hq Hp Hlt). reflexivity. }
    split; [exact Hall|]. intros vals.
    destruct (reachable_shaped _ _ _ _ _ HX Ra) as ((_ & Sa & _) & HXa & _). rewrite HXa in Sa.
    destruct (reachable_shaped _ _ _ _ _ HX Rb) as ((_ & Sb & _) & HXb & _). rewrite HXb in Sb.
    unfold get_pd_pairs_all in Hall. unfold get_pd_pairs.
    assert (Hkk : get_pair_key d1 (f1, f2) = get_pair_key d2 (f1, f2)).
    { destruct (in_combinations_key O N d1 X f1 f2 HX Sa) as [A1 A2]. destruct (in_combinations_key O N d2 X f1 f2 HX Sb) as [B1 B2].
      destruct (in_dec pair_dec (f1, f2) (combinations2 (f_cols X))) as [Hi|Hi]; [rewrite A1, B1|rewrite A2, B2]; auto. }
    rewrite Hkk in *. destruct (pair_key_swap O N d2 X f1 f2 HX Sb Hi1 Hi2 Hne) as [_ Hin].
    destruct (pshape_assoc O N X _ (get_pair_key d2 (f1, f2)) Sa) as [P1' _]. destruct (P1' Hin) as (ma & Ea).
    destruct (pshape_assoc O N X _ (get_pair_key d2 (f1, f2)) Sb) as [P2' _]. destruct (P2' Hin) as (mb & Eb).
    unfold dict_get in *. rewrite Ea, Eb in *. cbn [bind snd fst] in *. injection Hall as ->. reflexivity.
  Qed.
End PdApi.
