(** The partial dependence calculator: failures, isolation, requests and reuse.  Most of these
    facts hold for every model, row-wise or not. *)
From Verif Require Import Py Num Frame PdCalc EngineFacts PdSpec PdFacts PdProofs PdTheorems.

Section PdErrors.
  Context {C V : Type} (O : cell_ops C) (N : num_ops V).
  Hypothesis HO : cell_ok O.
  Hypothesis Hnan : n_isnan N (n_nan N) = true.
  Notation calc := (calc C V).
  Notation Shaped := (Shaped O N).

  Definition model_failed (c : calc) (e : exn) : Prop :=
    exists n rows, length (c_log c) <= n /\ c_predict c n rows = Err e.

  (** ** calculate_pd_single *)
  Section Single.
    Variable c : calc.
    Let X := c_X c.
    Variable fs : list string.

    Definition Es (e : exn) : Prop :=
      model_failed c e
      \/ (e = KeyError /\ exists f, In f fs /\ ~ In f (f_cols (c_X c)))
      \/ (e = IndexError /\ exists f v, In f fs /\ In v (grid O (c_X c) f) /\ c_isnan O v = true).

    Lemma single_explained s e : ssh O (e_tab s) = sshape O N X -> length (c_log c) <= length (e_log s) ->
      Explained (c_predict c) (set_single O) (ssh O) (Qs O c fs) s e -> Es e.
    Proof.
      intros Hsh Hl [(n & rows & Hn & Hp)|(k & v & t0 & [Hq1 Hq2] & Ht & He)].
      - left; exists n, rows; split; [lia|exact Hp].
      - right. apply set_single_err in He. rewrite Hsh in Ht. pose proof (grid_In_col O _ _ _ Hq2) as Hcol.
        destruct He as [[-> Ha]|[-> Ha]].
        + destruct (sshape_assoc O N X t0 (fst k) Ht) as [H1 _]. destruct (H1 Hcol) as (pv & Hpv). congruence.
        + right; split; [reflexivity|]. exists (fst k), (snd k). split; [exact Hq1|]. split; [exact Hq2|].
          destruct (c_isnan O (snd k)) eqn:En; [reflexivity|].
          destruct (sget_some O N HO X t0 (fst k) (snd k) Ht Hcol Hq2 En) as (x & Hx). destruct k; cbn in *; congruence.
    Qed.

    Lemma single_run_err s' r : Shaped c ->
      seq2 (loop (single_body O N c) fs {| e_log := c_log c; e_tab := c_single c; e_b := b_empty |})
           (finish (c_predict c) (np_mean N) (set_single O)) = (s', r) ->
      ssh O (e_tab s') = sshape O N X
      /\ (forall k, ~ Qs O c fs k -> sget O (e_tab s') k = sget O (c_single c) k)
      /\ (forall e, r = Err e -> Es e)
      /\ (r = Ok tt -> forall f, In f fs -> In f (f_cols X)).
    Proof.
      intros (Hs & _) H.
      set (s0 := {| e_log := c_log c; e_tab := c_single c; e_b := b_empty |}) in H.
      destruct (loop (single_body O N c) fs s0) as [s1 r1] eqn:El.
      assert (Hbody : forall s s' r f, In f fs -> single_body O N c s f = (s', r) -> ssh O (e_tab s) = sshape O N X ->
        length (c_log c) <= length (e_log s) -> (forall k, In k (bkeys (e_b s)) -> Qs O c fs k) ->
        ssh O (e_tab s') = sshape O N X /\ length (c_log c) <= length (e_log s') /\ (forall k, In k (bkeys (e_b s')) -> Qs O c fs k)
        /\ (forall k, ~ Qs O c fs k -> sget O (e_tab s') k = sget O (e_tab s) k) /\ forall e, r = Err e -> Es e).
      { clear H El s0 s' r. intros s s' r f Hf H Hsh Hn Hq. unfold single_body in H.
        destruct (dict_get String.eqb f (e_tab s)) as [e|x] eqn:Ed.
        2:{ injection H as <- <-. split; [exact Hsh|]. split; [exact Hn|]. split; [exact Hq|]. split; [auto|].
            intros e He; injection He as <-. apply dict_get_err in Ed as [-> Ha]. right; left; split; [reflexivity|].
            exists f; split; [exact Hf|]. intros Hc. destruct (sshape_assoc O N X _ f Hsh) as [H1 _].
            destruct (H1 Hc) as (pv & Hpv). congruence. }
        apply dict_get_assoc in Ed. destruct (sshape_assoc O N X _ f Hsh) as [_ H2].
        destruct (H2 _ Ed) as (Hcol & Hfv & _).
        destruct (has_nan N (snd e)).
        - pose proof H as H'.
          apply (submit_err (c_predict c) (np_mean N) (skey_eqb O) (job_single X) (set_single O) _ _ (sget O) (ssh O) (single_laws O HO)
            (Qs O c fs)) in H as (A1 & A2 & A3 & A4 & A5); [|exact Hq|].
          + split; [congruence|]. split; [lia|]. split; [exact A2|]. split; [exact A3|].
            intros e0 He0. eapply single_explained; [exact Hsh|exact Hn|apply A5, He0].
          + intros k Hk. apply in_map_iff in Hk as (v & <- & Hv). rewrite Hfv in Hv. split; [exact Hf|exact Hv].
        - injection H as <- <-. split; [exact Hsh|]. split; [exact Hn|]. split; [exact Hq|]. split; [auto|discriminate]. }
      pose proof El as El'.
      eapply (loop_err (sget O) (ssh O) (Qs O c fs) Es (single_body O N c) (sshape O N X) (length (c_log c))) in El as (A1 & A0 & A2 & A3 & A4);
        [|exact Hbody|exact Hs|apply Nat.le_refl|intros k []].
      assert (Hok : r1 = Ok tt -> forall f, In f fs -> In f (f_cols X)).
      { intros -> f Hf. eapply (loop_reached (fun s => ssh O (e_tab s) = sshape O N X /\ length (c_log c) <= length (e_log s)
          /\ forall k, In k (bkeys (e_b s)) -> Qs O c fs k)) in El' as (sa & sb & (Ha & _) & Hb); [| | |exact Hf].
        - unfold single_body in Hb. destruct (dict_get _ f (e_tab sa)) as [e|] eqn:Ed; [|discriminate].
          apply dict_get_assoc in Ed. eapply (sshape_assoc O N X _ f Ha); exact Ed.
        - intros s s2 x Hx (B1 & B2 & B3) Hb. destruct (Hbody _ _ _ _ Hx Hb B1 B2 B3) as (D1 & D2 & D3 & _). auto.
        - split; [exact Hs|]. split; [apply Nat.le_refl|intros k []]. }
      destruct r1 as [[]|e]; cbn in H.
      - pose proof H as H'. apply (finish_err (c_predict c) (np_mean N) (skey_eqb O) (job_single X) (set_single O) 0 (sget O) (ssh O) (single_laws O HO) (Qs O c fs)) in H
          as (B1 & B2 & B3); [|exact A2].
        split; [congruence|]. split; [intros k Hk; rewrite B2, A3 by exact Hk; reflexivity|]. split; [|auto].
        intros e He. eapply single_explained; [exact A1|exact A0|apply B3, He].
      - injection H as <- <-. split; [exact A1|]. split; [exact A3|]. split; [|discriminate].
        intros e0 He0. apply A4. congruence.
    Qed.
  End Single.

  (** ** calculate_pd_minus_single *)
  Section Minus.
    Variable c : calc.
    Let X := c_X c.
    Variable fs : list string.

    Definition Em (e : exn) : Prop :=
      model_failed c e \/ (e = KeyError /\ exists f, In f fs /\ ~ In f (f_cols (c_X c))).

    Definition Qm' (k : mkey) : Prop := Qm c fs k /\ In (fst k) (f_cols (c_X c)).

    Lemma minus_explained s e : msh (e_tab s) = mshape X -> length (c_log c) <= length (e_log s) ->
      Explained (c_predict c) set_minus msh Qm' s e -> Em e.
    Proof.
      intros Hsh Hl [(n & rows & Hn & Hp)|(k & v & t0 & [[Hq1 Hq2] Hcol] & Ht & He)].
      - left; exists n, rows; split; [lia|exact Hp].
      - exfalso. apply set_minus_err in He. rewrite Hsh in Ht.
        destruct (mget_some X t0 (fst k) (snd k) Ht Hcol Hq2) as (x & Hx).
        destruct He as [[-> Ha]|[-> Ha]].
        + destruct (mshape_assoc X t0 (fst k) Ht) as [H1 _]. destruct (H1 Hcol) as (pv & Hpv). congruence.
        + destruct k; cbn in *; congruence.
    Qed.

    Lemma minus_run_err s' r : Shaped c ->
      seq2 (loop (minus_body N c) fs {| e_log := c_log c; e_tab := c_minus c; e_b := b_empty |})
           (finish (c_predict c) (np_mean N) set_minus) = (s', r) ->
      msh (e_tab s') = mshape X
      /\ (forall k, ~ Qm' k -> mget (e_tab s') k = mget (c_minus c) k)
      /\ (forall e, r = Err e -> Em e)
      /\ (r = Ok tt -> forall f, In f fs -> In f (f_cols X)).
    Proof.
      intros (_ & _ & Hs) H.
      set (s0 := {| e_log := c_log c; e_tab := c_minus c; e_b := b_empty |}) in H.
      destruct (loop (minus_body N c) fs s0) as [s1 r1] eqn:El.
      assert (Hbody : forall s s' r f, In f fs -> minus_body N c s f = (s', r) -> msh (e_tab s) = mshape X ->
        length (c_log c) <= length (e_log s) -> (forall k, In k (bkeys (e_b s)) -> Qm' k) ->
        msh (e_tab s') = mshape X /\ length (c_log c) <= length (e_log s') /\ (forall k, In k (bkeys (e_b s')) -> Qm' k)
        /\ (forall k, ~ Qm' k -> mget (e_tab s') k = mget (e_tab s) k) /\ forall e, r = Err e -> Em e).
      { clear H El s0 s' r. intros s s' r f Hf H Hsh Hn Hq. unfold minus_body in H.
        destruct (dict_get String.eqb f (e_tab s)) as [e|x] eqn:Ed.
        2:{ injection H as <- <-. split; [exact Hsh|]. split; [exact Hn|]. split; [exact Hq|]. split; [auto|].
            intros e He; injection He as <-. apply dict_get_err in Ed as [-> Ha]. right; split; [reflexivity|].
            exists f; split; [exact Hf|]. intros Hc. destruct (mshape_assoc X _ f Hsh) as [H1 _].
            destruct (H1 Hc) as (pv & Hpv). congruence. }
        apply dict_get_assoc in Ed. destruct (mshape_assoc X _ f Hsh) as [_ H2].
        destruct (H2 _ Ed) as (Hcol & Hl).
        destruct (has_nan N e).
        - apply (submit_err (c_predict c) (np_mean N) mkey_eqb (job_minus X) set_minus _ _ mget msh minus_laws Qm') in H as (A1 & A2 & A3 & A4 & A5); [|exact Hq|].
          + split; [congruence|]. split; [lia|]. split; [exact A2|]. split; [exact A3|].
            intros e0 He0. eapply minus_explained; [exact Hsh|exact Hn|apply A5, He0].
          + intros k Hk. apply in_map_iff in Hk as (v & <- & Hv). apply in_seq in Hv. split; [split; cbn; [exact Hf|lia]|exact Hcol].
        - injection H as <- <-. split; [exact Hsh|]. split; [exact Hn|]. split; [exact Hq|]. split; [auto|discriminate]. }
      pose proof El as El'.
      eapply (loop_err mget msh Qm' Em (minus_body N c) (mshape X) (length (c_log c))) in El as (A1 & A0 & A2 & A3 & A4);
        [|exact Hbody|exact Hs|apply Nat.le_refl|intros k []].
      assert (Hok : r1 = Ok tt -> forall f, In f fs -> In f (f_cols X)).
      { intros -> f Hf. eapply (loop_reached (fun s => msh (e_tab s) = mshape X /\ length (c_log c) <= length (e_log s)
          /\ forall k, In k (bkeys (e_b s)) -> Qm' k)) in El' as (sa & sb & (Ha & _) & Hb); [| | |exact Hf].
        - unfold minus_body in Hb. destruct (dict_get _ f (e_tab sa)) as [e|] eqn:Ed; [|discriminate].
          apply dict_get_assoc in Ed. eapply (mshape_assoc X _ f Ha); exact Ed.
        - intros s s2 x Hx (B1 & B2 & B3) Hb. destruct (Hbody _ _ _ _ Hx Hb B1 B2 B3) as (D1 & D2 & D3 & _). auto.
        - split; [exact Hs|]. split; [apply Nat.le_refl|intros k []]. }
      destruct r1 as [[]|e]; cbn in H.
      - apply (finish_err (c_predict c) (np_mean N) mkey_eqb (job_minus X) set_minus 0 mget msh minus_laws Qm') in H
          as (B1 & B2 & B3); [|exact A2].
        split; [congruence|]. split; [intros k Hk; rewrite B2, A3 by exact Hk; reflexivity|]. split; [|auto].
        intros e He. eapply minus_explained; [exact A1|exact A0|apply B3, He].
      - injection H as <- <-. split; [exact A1|]. split; [exact A3|]. split; [|discriminate].
        intros e0 He0. apply A4. congruence.
    Qed.
  End Minus.

  (** ** calculate_pd_pairs *)
  Section Pairs.
    Variable c : calc.
    Let X := c_X c.
    Variable ps : list (string * string).
    Variable allc : bool.
    Notation Q := (Qp O c ps allc).

    Definition Ep (e : exn) : Prop :=
      model_failed c e
      \/ (e = KeyError /\ exists pr, In pr ps /\ ~ In pr (combinations2 (f_cols (c_X c))) /\ ~ In (snd pr, fst pr) (combinations2 (f_cols (c_X c))))
      \/ (e = IndexError /\ exists f v pr, In pr ps /\ (f = fst pr \/ f = snd pr) /\ In v (grid O (c_X c) f) /\ c_isnan O v = true).

    Lemma key_cases pr : psh O (c_pairs c) = pshape O N X ->
      (In (get_pair_key c pr) (combinations2 (f_cols X)) /\ (get_pair_key c pr = pr \/ get_pair_key c pr = (snd pr, fst pr)))
      \/ (~ In pr (combinations2 (f_cols X)) /\ ~ In (snd pr, fst pr) (combinations2 (f_cols X)) /\ get_pair_key c pr = (snd pr, fst pr)).
    Proof.
      intros Hs. unfold get_pair_key. destruct (pshape_assoc O N X _ pr Hs) as [H1 H2].
      destruct (assoc pair_eqb pr (c_pairs c)) as [e|] eqn:E.
      - left. split; [eapply H2; reflexivity|auto].
      - destruct (in_dec pair_dec pr (combinations2 (f_cols X))) as [Hi|Hn].
        { destruct (H1 Hi) as (m & Hm); congruence. }
        destruct (in_dec pair_dec (snd pr, fst pr) (combinations2 (f_cols X))) as [Hi|Hn']; auto.
    Qed.

    Lemma pairs_explained s e : psh O (e_tab s) = pshape O N X -> length (c_log c) <= length (e_log s) ->
      Explained (c_predict c) (set_pairs O) (psh O) Q s e -> Ep e.
    Proof.
      intros Hsh Hl [(n & rows & Hn & Hp)|(k & v & t0 & Hq & Ht & He)].
      - left; exists n, rows; split; [lia|exact Hp].
      - exfalso. apply set_pairs_err in He. rewrite Hsh in Ht. destruct k as [[p a] b]. destruct Hq as (_ & _ & Hc & Ha & Hb & Hna & Hnb). cbn [fst snd] in *.
        destruct (pget_some O N HO X t0 p a b Ht Hc Ha Hna Hb Hnb) as (x & Hx).
        destruct He as [[-> Ha']|[-> Ha']]; [|congruence].
        destruct (pshape_assoc O N X t0 p Ht) as [H1 _]. destruct (H1 Hc) as (pv & Hpv). congruence.
    Qed.

    Notation pst := (est (@pkey C) (list ((string * string) * (list C * list C * list (list V)))) C).
    Definition pstate (s : pst) := psh O (e_tab s) = pshape O N X /\ length (c_log c) <= length (e_log s)
       /\ forall k, In k (bkeys (e_b s)) -> Q k.
    Definition pstep (s s' : pst) (r : result unit) := psh O (e_tab s') = pshape O N X /\ length (c_log c) <= length (e_log s')
       /\ (forall k, In k (bkeys (e_b s')) -> Q k)
       /\ (forall k, ~ Q k -> pget O (e_tab s') k = pget O (e_tab s) k) /\ forall e, r = Err e -> Ep e.

    Lemma pair_vals_nan pr v : psh O (c_pairs c) = pshape O N X -> wf_frame X ->
      pair_vals O c allc (get_pair_key c pr) (fst v) (snd v) -> In pr ps ->
      (exists z, In z [fst v; snd v] /\ c_isnan O z = true) ->
      exists f w pr, In pr ps /\ (f = fst pr \/ f = snd pr) /\ In w (grid O X f) /\ c_isnan O w = true.
    Proof.
      intros Hs HX Hv Hpr (z & Hz & Hn).
      assert (Hk : (fst (get_pair_key c pr) = fst pr /\ snd (get_pair_key c pr) = snd pr) \/ (fst (get_pair_key c pr) = snd pr /\ snd (get_pair_key c pr) = fst pr)).
      { unfold get_pair_key. destruct (assoc _ _ _); cbn; auto. }
      unfold pair_vals in Hv. destruct allc.
      - destruct Hv as [H1 H2]. destruct Hz as [<-|[<-|[]]].
        + exists (fst (get_pair_key c pr)), (fst v), pr. intuition.
        + exists (snd (get_pair_key c pr)), (snd v), pr. intuition.
      - destruct Hv as (a & b & Ha & Hb & Hab).
        assert (Hg : forall f col, column (c_X c) f = Ok col -> In z col -> exists w, In w (grid O X f) /\ c_isnan O w = true).
        { intros f col Hc Hin. unfold grid, X. rewrite Hc. apply np_unique_nan. eauto. }
        destruct Hz as [<-|[<-|[]]].
        + apply in_combine_l in Hab. destruct (Hg _ _ Ha Hab) as (w & Hw & Hwn).
          exists (fst (get_pair_key c pr)), w, pr. intuition.
        + apply in_combine_r in Hab. destruct (Hg _ _ Hb Hab) as (w & Hw & Hwn).
          exists (snd (get_pair_key c pr)), w, pr. intuition.
    Qed.

    Lemma pairs_cell_err pr s s' r v : psh O (c_pairs c) = pshape O N X -> wf_frame X -> In pr ps ->
      pair_vals O c allc (get_pair_key c pr) (fst v) (snd v) ->
      pairs_cell_body O N c (get_pair_key c pr) s v = (s', r) -> pstate s -> pstep s s' r.
    Proof.
      intros Hs0 HX Hp Hv H (Hsh & Hn & Hq). unfold pairs_cell_body in H. set (p := get_pair_key c pr) in *.
      destruct (bind _ _) as [x|e] eqn:Er.
      2:{ injection H as <- <-. split; [exact Hsh|]. split; [exact Hn|]. split; [exact Hq|]. split; [auto|].
          intros e0 He0; injection He0 as <-.
          destruct (dict_get pair_eqb p (e_tab s)) as [a|] eqn:Ed; cbn [bind] in Er.
          - apply dict_get_assoc in Ed. destruct (pshape_assoc O N X _ p Hsh) as [_ H2].
            destruct (H2 _ Ed) as (Hc & Hf & Hl & _).
            right; right.
            assert (Hg : forall g0 z, get_index O g0 z = Err e -> In z g0 -> e = IndexError /\ c_isnan O z = true).
            { intros g0 z Hg0 Hz. split; [eapply get_index_err; exact Hg0|]. destruct (c_isnan O z) eqn:Ez; [reflexivity|].
              destruct (get_index_In O g0 z Hz Ez) as (i & Hi). congruence. }
            (* the values come from the columns: the grid contains them unless they are NaN *)
            assert (Hin : (c_isnan O (fst v) = false -> In (fst v) (grid O X (fst p))) /\ (c_isnan O (snd v) = false -> In (snd v) (grid O X (snd p)))).
            { unfold pair_vals in Hv. destruct allc; [tauto|]. destruct Hv as (ca & cb & Hca & Hcb & Hab). unfold grid, X. rewrite Hca, Hcb.
              split; intros Hz; apply np_unique_In; auto; [apply in_combine_l in Hab|apply in_combine_r in Hab]; exact Hab. }
            destruct Hin as [Hin1 Hin2].
            assert (Hnn : e = IndexError /\ exists z, In z [fst v; snd v] /\ c_isnan O z = true).
            { rewrite Hf in Er; cbn [fst snd] in Er.
              destruct (c_isnan O (fst v)) eqn:E1.
              { rewrite (get_index_nan O HO _ _ E1) in Er; cbn in Er. split; [congruence|]. exists (fst v); cbn; auto. }
              destruct (get_index_In O _ _ (Hin1 eq_refl) E1) as (i & Hi). rewrite Hi in Er; cbn [bind] in Er.
              destruct (c_isnan O (snd v)) eqn:E2.
              { rewrite (get_index_nan O HO _ _ E2) in Er; cbn in Er. split; [congruence|]. exists (snd v); cbn; auto. }
              destruct (get_index_In O _ _ (Hin2 eq_refl) E2) as (j & Hj). rewrite Hj in Er; cbn [bind] in Er.
              exfalso. apply (get_index_spec O HO) in Hi as [Hi _], Hj as [Hj _].
              unfold mat_get, get_nth in Er.
              destruct (nth_error_lt_some (snd a) i) as (row & Hrow).
              { rewrite <- (map_length (@length V) (snd a)), Hl, repeat_length. apply nth_error_Some; congruence. }
              rewrite Hrow in Er; cbn [bind] in Er.
              destruct (nth_error_lt_some row j) as (y & Hy).
              { rewrite (map_length_repeat_nth _ _ _ _ _ Hl Hrow). apply nth_error_Some; congruence. }
              rewrite Hy in Er; discriminate. }
            destruct Hnn as [-> Hz]. split; [reflexivity|]. eapply pair_vals_nan; eauto.
          - injection Er as <-. apply dict_get_err in Ed as [-> Ha]. right; left; split; [reflexivity|].
            exists pr; split; [exact Hp|]. destruct (key_cases pr Hs0) as [[Hc _]|(H1 & H2 & _)]; [|auto].
            destruct (pshape_assoc O N X _ p Hsh) as [H1 _]. destruct (H1 Hc) as (m & Hm). congruence. }
      apply (pairs_cell_read O N HO c) in Er as (Hx & Hcomb & Hv1 & Hv2 & Hn1 & Hn2); [|exact Hsh].
      destruct (n_isnan N x).
      - apply (submit_err (c_predict c) (np_mean N) (pkey_eqb O) (job_pairs X) (set_pairs O) _ _ (pget O) (psh O) (pairs_laws O HO) Q) in H as (A1 & A2 & A3 & A4 & A5); [|exact Hq|].
        + split; [congruence|]. split; [lia|]. split; [exact A2|]. split; [exact A3|].
          intros e0 He0. eapply pairs_explained; [exact Hsh|exact Hn|apply A5, He0].
        + intros k [<-|[]]. unfold Qp; cbn [fst snd]. split; [eauto|]. auto 10.
      - injection H as <- <-. split; [exact Hsh|]. split; [exact Hn|]. split; [exact Hq|]. split; [auto|discriminate].
    Qed.

    (** the list of value pairs of a pair of features *)
    Lemma pairs_body_vals (s : pst) pr vals : psh O (e_tab s) = pshape O N X ->
      (if allc
       then do e <- dict_get pair_eqb (get_pair_key c pr) (e_tab s);
            Ok (flat_map (fun v1 => map (fun v2 => (v1, v2)) (snd (fst e))) (fst (fst e)))
       else do a <- column (c_X c) (fst (get_pair_key c pr)); do b <- column (c_X c) (snd (get_pair_key c pr)); Ok (combine a b)) = Ok vals ->
      forall v, In v vals <-> pair_vals O c allc (get_pair_key c pr) (fst v) (snd v).
    Proof.
      intros Hsh Ev [v w]; cbn. unfold pair_vals. destruct allc.
      - bsplit Ev. apply dict_get_assoc in E. injection Ev as <-.
        destruct (pshape_assoc O N X _ (get_pair_key c pr) Hsh) as [_ H2]. destruct (H2 _ E) as (_ & Hf & _). rewrite Hf; cbn.
        rewrite in_flat_map. split.
        + intros (a & Ha & Hb). apply in_map_iff in Hb as (b & Hab & Hb). injection Hab as -> ->. auto.
        + intros [Ha Hb]. exists v; split; [exact Ha|]. apply in_map_iff; eauto.
      - bsplit Ev. bsplit Ev. injection Ev as <-. split.
        + intros Hin; eauto 10.
        + intros (a & b & Ha & Hb & Hin). congruence.
    Qed.

    Lemma column_In f v : column X f = v -> match v with Ok _ => In f (f_cols X) | Err e => e = KeyError /\ ~ In f (f_cols X) end.
    Proof.
      unfold column. destruct (col_pos (f_cols X) f) as [p|] eqn:E; intros <-.
      - apply col_pos_nth in E. eapply nth_error_In; exact E.
      - split; [reflexivity|]. apply col_pos_None; exact E.
    Qed.

    Lemma pairs_body_err s s' r pr : psh O (c_pairs c) = pshape O N X -> wf_frame X -> In pr ps ->
      pairs_body O N c allc s pr = (s', r) -> pstate s ->
      pstep s s' r /\ (r = Ok tt -> In (fst pr) (f_cols X) /\ In (snd pr) (f_cols X) /\ (allc = true -> fst pr <> snd pr)).
    Proof.
      intros Hs0 HX Hp H Hst. pose proof Hst as (Hsh & Hn & Hq). unfold pairs_body in H.
      match type of H with (match ?r with Ok _ => _ | Err _ => _ end) = _ => destruct r as [vals|e] eqn:Ev end.
      2:{ injection H as <- <-. split; [|discriminate]. split; [exact Hsh|]. split; [exact Hn|]. split; [exact Hq|]. split; [auto|].
          intros e0 He0; injection He0 as <-. right; left.
          destruct (key_cases pr Hs0) as [[Hc _]|(H1 & H2 & Hk)].
          - exfalso. destruct allc.
            + destruct (pshape_assoc O N X _ (get_pair_key c pr) Hsh) as [H1 _]. destruct (H1 Hc) as (m & Hm).
              unfold dict_get in Ev; rewrite Hm in Ev. discriminate.
            + apply combinations2_In in Hc as [Hc1 Hc2].
              destruct (column (c_X c) (fst (get_pair_key c pr))) eqn:E1; [|apply column_In in E1; tauto].
              cbn [bind] in Ev. destruct (column (c_X c) (snd (get_pair_key c pr))) eqn:E2; [discriminate|apply column_In in E2; tauto].
          - split; [|eauto]. destruct allc.
            + destruct (dict_get _ _ _) eqn:Ed; [discriminate|]. apply dict_get_err in Ed as [-> _]. cbn in Ev; congruence.
            + destruct (column (c_X c) (fst (get_pair_key c pr))) eqn:E1; [|apply column_In in E1 as [-> _]; cbn in Ev; congruence].
              cbn [bind] in Ev. destruct (column (c_X c) (snd (get_pair_key c pr))) eqn:E2; [discriminate|apply column_In in E2 as [-> _]; cbn in Ev; congruence]. }
      pose proof (pairs_body_vals s pr vals Hsh Ev) as Hvals.
      split.
      - eapply (loop_err (pget O) (psh O) Q Ep _ (pshape O N X) (length (c_log c))); [|exact H|exact Hsh|exact Hn|exact Hq].
        intros s1 s2 r2 v Hv Hb B1 B2 B3. eapply pairs_cell_err; eauto; [apply Hvals, Hv|split; auto].
      - intros _.
        assert (Hkey : In (fst (get_pair_key c pr)) (f_cols X) /\ In (snd (get_pair_key c pr)) (f_cols X)
                       /\ (allc = true -> fst (get_pair_key c pr) <> snd (get_pair_key c pr))).
        { destruct allc.
          - bsplit Ev. apply dict_get_assoc in E. eapply pshape_assoc in E as [E _]; [|exact Hsh].
            pose proof HX as (Hnd & _). pose proof E as E'. apply combinations2_In in E as [].
            split; [assumption|]. split; [assumption|]. intros _. destruct (get_pair_key c pr).
            eapply combinations2_irrefl; eassumption.
          - bsplit Ev. bsplit Ev. apply column_In in E. apply column_In in E0. split; [assumption|]. split; [assumption|discriminate]. }
        unfold get_pair_key in Hkey. destruct (assoc _ _ _); cbn in Hkey; intuition congruence.
    Qed.

    Lemma pairs_run_err s' r : Shaped c -> wf_frame X ->
      seq2 (loop (pairs_body O N c allc) ps {| e_log := c_log c; e_tab := c_pairs c; e_b := b_empty |})
           (finish (c_predict c) (np_mean N) (set_pairs O)) = (s', r) ->
      psh O (e_tab s') = pshape O N X
      /\ (forall k, ~ Q k -> pget O (e_tab s') k = pget O (c_pairs c) k)
      /\ (forall e, r = Err e -> Ep e)
      /\ (r = Ok tt -> forall pr, In pr ps -> In (fst pr) (f_cols X) /\ In (snd pr) (f_cols X) /\ (allc = true -> fst pr <> snd pr)).
    Proof.
      intros (_ & Hs & _) HX H.
      set (s0 := {| e_log := c_log c; e_tab := c_pairs c; e_b := b_empty |}) in H.
      destruct (loop (pairs_body O N c allc) ps s0) as [s1 r1] eqn:El.
      pose proof El as El'.
      eapply (loop_err (pget O) (psh O) Q Ep _ (pshape O N X) (length (c_log c))) in El as (A1 & A0 & A2 & A3 & A4);
        [|intros s2 s3 r3 pr Hpr Hb B1 B2 B3; eapply pairs_body_err; eauto; split; auto|exact Hs|apply Nat.le_refl|intros k []].
      assert (Hok : r1 = Ok tt -> forall pr, In pr ps -> In (fst pr) (f_cols X) /\ In (snd pr) (f_cols X) /\ (allc = true -> fst pr <> snd pr)).
      { intros -> pr Hpr. eapply (loop_reached pstate) in El' as (sa & sb & Ha & Hb); [| | |exact Hpr].
        - eapply pairs_body_err in Hb as [_ Hb]; eauto.
        - intros s2 s3 x Hx Hst Hb. eapply pairs_body_err in Hb as [(D1 & D2 & D3 & _) _]; eauto. split; auto.
        - split; [exact Hs|]. split; [apply Nat.le_refl|intros k []]. }
      destruct r1 as [[]|e]; cbn in H.
      - apply (finish_err (c_predict c) (np_mean N) (pkey_eqb O) (job_pairs X) (set_pairs O) 0 (pget O) (psh O) (pairs_laws O HO) Q) in H
          as (B1 & B2 & B3); [|exact A2].
        split; [congruence|]. split; [intros k Hk; rewrite B2, A3 by exact Hk; reflexivity|]. split; [|auto].
        intros e He. eapply pairs_explained; [exact A1|exact A0|apply B3, He].
      - injection H as <- <-. split; [exact A1|]. split; [exact A3|]. split; [|discriminate].
        intros e0 He0. apply A4. congruence.
    Qed.
  End Pairs.
End PdErrors.
