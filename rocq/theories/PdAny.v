(** The partial dependence calculator with any prediction function whatsoever: where the values in
    its tables come from.  Unlike in PdProofs.v nothing is assumed about the predictions; they may
    differ from request to request. *)
From Verif Require Import Py Num Frame PdCalc EngineFacts PdSpec PdFacts PdProofs PdTheorems.

Section Engine.
  Context {K T C V Sh : Type}.
  Variable predict : nat -> list (list C) -> result (list V).
  Variable mean : list V -> V.
  Variable keqb : K -> K -> bool.
  Variable job : K -> list (list C).
  Variable tset : K -> V -> T -> result T.
  Variable xlen : nat.
  Variable batchsize : Z.
  Variable isnan : V -> bool.
  Variable tget : T -> K -> option V.
  Variable sh : T -> Sh.
  Hypothesis L : tlaws keqb tset tget sh.

  Notation est := (est K T C).
  Notation fill := (fill predict mean tset).
  Notation submit := (submit predict mean keqb job tset xlen batchsize).
  Notation finish := (finish predict mean tset).
  Notation push := (push keqb job xlen).
  Notation batch_ok := (batch_ok job xlen).

  (** [x] is the mean of the answers that some request in the log got for exactly the rows of [k] *)
  Definition Sourced (log : list (list (list C))) (k : K) (x : V) : Prop :=
    exists n rows ys s, nth_error log n = Some rows /\ predict n rows = Ok ys
      /\ s + xlen <= length rows /\ slice s (s + xlen) rows = job k /\ x = mean (slice s (s + xlen) ys).

  Lemma sourced_mono l l' k x : Sourced l k x -> Sourced (l ++ l') k x.
  Proof.
    intros (n & rows & ys & s & Hn & H). exists n, rows, ys, s. split; [|exact H].
    rewrite nth_error_app1; [exact Hn|]. apply nth_error_Some. congruence.
  Qed.
  Lemma sourced_fill log rows ys k s e : predict (length log) rows = Ok ys -> e = s + xlen -> e <= length rows ->
    slice s e rows = job k -> Sourced (log ++ [rows]) k (mean (slice s e ys)).
  Proof.
    intros Hp -> He Hs. exists (length log), rows, ys, s. split; [|auto]. rewrite nth_error_app2 by lia. rewrite Nat.sub_diag. reflexivity.
  Qed.

  Definition CohA (log : list (list (list C))) (t : T) : Prop := forall k x, tget t k = Some x -> isnan x = true \/ Sourced log k x.
  Definition InvA (s : est) : Prop := batch_ok (e_b s) /\ CohA (e_log s) (e_tab s).
  Definition PodA (s : est) (k : K) : Prop := In k (bkeys (e_b s)) \/ exists x, tget (e_tab s) k = Some x /\ Sourced (e_log s) k x.

  Lemma coh_mono l l' t : CohA l t -> CohA (l ++ l') t.
  Proof. intros H k x Hx. destruct (H k x Hx) as [Hn|Hs]; [left; exact Hn|right; apply sourced_mono, Hs]. Qed.

  Lemma fill_any s s' r : fill s = (s', r) -> InvA s ->
    sh (e_tab s') = sh (e_tab s) /\ InvA s' /\ (e_b s' = b_empty \/ e_b s' = e_b s)
    /\ (forall k, ~ In k (bkeys (e_b s)) -> tget (e_tab s') k = tget (e_tab s) k)
    /\ (exists q, e_log s' = e_log s ++ q)
    /\ (r = Ok tt -> e_b s' = b_empty /\ forall k, PodA s k -> exists x, tget (e_tab s') k = Some x /\ Sourced (e_log s') k x).
  Proof.
    unfold PdCalc.fill; intros H [Hb Hc].
    destruct (predict _ _) as [y|x] eqn:Ep.
    - destruct (PdCalc.fill_ranges mean tset y (b_ranges (e_b s)) (e_tab s)) as [t r'] eqn:Ef.
      injection H as <- <-. pose proof (fun q => fill_ranges_none mean keqb tset tget sh L _ _ _ _ _ q Ef) as Hnone.
      apply (fill_ranges_facts predict mean keqb job tset xlen tget sh L) in Ef as (Hsh & Hfr & Hval & Hok & _). cbn.
      assert (Hsrc : forall k a e, In (k, (a, e)) (b_ranges (e_b s)) -> Sourced (e_log s ++ [b_rows (e_b s)]) k (mean (slice a e y))).
      { intros k a e Hin. destruct Hb as [_ Hb]. destruct (Hb _ _ _ Hin) as (He & Hle & Hs). apply sourced_fill; assumption. }
      assert (Hcoh : CohA (e_log s ++ [b_rows (e_b s)]) t).
      { intros k x Hx. destruct (Hval _ _ Hx) as [Hx'|(a & e & Hin & ->)]; [apply (coh_mono _ _ _ Hc); exact Hx'|right; apply Hsrc, Hin]. }
      split; [exact Hsh|]. split; [split; [apply batch_ok_empty|exact Hcoh]|].
      split; [auto|]. split; [exact Hfr|]. split; [eauto|]. intros ->. split; [reflexivity|]. intros k Hk.
      destruct Hk as [Hk|(x & Hx & Hs)].
      + destruct (Hok eq_refl k Hk) as (a & e & Hin' & ->). eauto.
      + destruct (tget t k) as [x'|] eqn:Et; [|rewrite (Hnone _ Et) in Hx; discriminate]. exists x'. split; [reflexivity|].
        destruct (Hval _ _ Et) as [Hx'|(a & e & Hin' & ->)]; [|apply Hsrc, Hin']. assert (x' = x) as -> by congruence. apply sourced_mono, Hs.
    - injection H as <- <-. cbn. split; [reflexivity|]. split; [split; [assumption|apply coh_mono; assumption]|]. split; [auto|]. split; [auto|]. split; [eauto|discriminate].
  Qed.

  Definition GoodA (Q : K -> Prop) (s s' : est) (r : result unit) : Prop :=
    sh (e_tab s') = sh (e_tab s) /\ InvA s' /\ keysQ Q s'
    /\ (forall k, ~ Q k -> tget (e_tab s') k = tget (e_tab s) k)
    /\ (exists q, e_log s' = e_log s ++ q)
    /\ (r = Ok tt -> forall k, PodA s k -> PodA s' k).

  Lemma GoodA_refl Q s r : InvA s -> keysQ Q s -> GoodA Q s s r.
  Proof. intros Hi Hk; unfold GoodA. split; [reflexivity|]. split; [exact Hi|]. split; [exact Hk|]. split; [auto|]. split; [exists []; rewrite app_nil_r; reflexivity|auto]. Qed.

  Lemma GoodA_trans Q s1 s2 s3 r : GoodA Q s1 s2 (Ok tt) -> (InvA s2 -> keysQ Q s2 -> GoodA Q s2 s3 r) -> GoodA Q s1 s3 r.
  Proof.
    intros (A1 & A2 & A3 & A4 & (qa & A6) & A5) H. destruct (H A2 A3) as (B1 & B2 & B3 & B4 & (qb & B6) & B5).
    split; [congruence|]. split; [exact B2|]. split; [exact B3|]. split; [|split].
    - intros k Hk. rewrite B4, A4 by assumption; reflexivity.
    - exists (qa ++ qb). rewrite B6, A6, app_assoc. reflexivity.
    - intros Hr k Hk; auto.
  Qed.

  Lemma submit_any Q s ks s' r : submit s ks = (s', r) -> InvA s -> keysQ Q s ->
    (forall k, In k ks -> Q k /\ length (job k) = xlen) ->
    GoodA Q s s' r /\ (r = Ok tt -> forall k, In k ks -> PodA s' k).
  Proof.
    unfold PdCalc.submit; intros H [Hb Hc] Hq Hks.
    set (s1 := {| e_log := e_log s; e_tab := e_tab s; e_b := fold_left push ks (e_b s) |}) in *.
    assert (Hi1 : InvA s1) by (split; [apply (pushes_ok predict keqb job tset xlen tget sh L); [exact Hb|intros k Hk; apply Hks, Hk]|exact Hc]).
    assert (Hq1 : keysQ Q s1).
    { intros k Hk. apply (pushes_keys_inv predict keqb job tset xlen tget sh L) in Hk as [Hk|Hk]; [apply Hks, Hk|apply Hq, Hk]. }
    assert (Hp1 : forall k, PodA s k -> PodA s1 k).
    { intros k [Hk|Hk]; [left; apply (pushes_keys_mono predict), Hk|right; exact Hk]. }
    assert (Hn1 : forall k, In k ks -> PodA s1 k) by (intros k Hk; left; apply (pushes_keys_in predict keqb job tset xlen tget sh L), Hk).
    destruct (_ <? _)%Z.
    - apply fill_any in H as (Hsh & Hi & Hb' & Hfr & Hlog & Hok); [|exact Hi1].
      split; [|intros Hr k Hk; right; apply (Hok Hr), Hn1, Hk].
      split; [exact Hsh|]. split; [exact Hi|]. split; [|split; [|split]].
      + destruct Hb' as [Hb'|Hb']; [apply keysQ_empty, Hb'|intros k Hk; rewrite Hb' in Hk; apply Hq1, Hk].
      + intros k Hk. rewrite Hfr; [reflexivity|]. intros Hin; apply Hk, Hq1, Hin.
      + exact Hlog.
      + intros Hr k Hk; right. apply (Hok Hr), Hp1, Hk.
    - injection H as <- <-. split; [|intros _; exact Hn1].
      split; [reflexivity|]. split; [exact Hi1|]. split; [exact Hq1|]. split; [auto|]. split; [exists []; rewrite app_nil_r; reflexivity|auto].
  Qed.

  Lemma finish_any Q s s' r : finish s = (s', r) -> InvA s -> keysQ Q s ->
    (forall k, Q k -> 0 < xlen) ->
    GoodA Q s s' r /\ (r = Ok tt -> forall k, PodA s k -> exists x, tget (e_tab s') k = Some x /\ Sourced (e_log s') k x).
  Proof.
    unfold PdCalc.finish; intros H Hi Hq Hx.
    destruct (Nat.ltb_spec 0 (b_len (e_b s))) as [Hlt|Hge].
    - apply fill_any in H as (Hsh & Hi' & Hb' & Hfr & Hlog & Hok); [|exact Hi].
      split; [|intros Hr; apply (Hok Hr)].
      split; [exact Hsh|]. split; [exact Hi'|]. split; [|split; [|split]].
      + destruct Hb' as [Hb'|Hb']; [apply keysQ_empty, Hb'|intros k Hk; rewrite Hb' in Hk; apply Hq, Hk].
      + intros k Hk. rewrite Hfr; [reflexivity|]. intros Hin; apply Hk, Hq, Hin.
      + exact Hlog.
      + intros Hr k Hk; right. apply (Hok Hr), Hk.
    - injection H as <- <-. split; [apply GoodA_refl; assumption|].
      intros _ k [Hk|Hk]; [|exact Hk]. specialize (Hx k (Hq k Hk)).
      destruct Hi as [[Hl Hr] _]. apply in_map_iff in Hk as ([q [a e]] & Hqk & Hin). cbn in Hqk; subst q.
      destruct (Hr _ _ _ Hin) as (He & Hle & _). lia.
  Qed.

  Lemma loop_any {A} Q (body : est -> A -> est * result unit) (Post : A -> K -> Prop) (pre : Sh) l s s' r :
    (forall s s' r x, In x l -> body s x = (s', r) -> sh (e_tab s) = pre -> InvA s -> keysQ Q s ->
       GoodA Q s s' r /\ (r = Ok tt -> forall k, Post x k -> PodA s' k)) ->
    loop body l s = (s', r) -> sh (e_tab s) = pre -> InvA s -> keysQ Q s ->
    GoodA Q s s' r /\ (r = Ok tt -> forall x k, In x l -> Post x k -> PodA s' k).
  Proof.
    revert s; induction l as [|x t IH]; cbn; intros s Hbody H Hpre Hi Hq.
    - injection H as <- <-. split; [apply GoodA_refl; assumption|]. intros _ y k [].
    - destruct (body s x) as [s1 r1] eqn:Eb.
      destruct (Hbody _ _ _ x (or_introl eq_refl) Eb Hpre Hi Hq) as [Hg Hpost].
      destruct r1 as [[]|e]; [|injection H as <- <-; split; [|discriminate]; destruct Hg as (G1 & G2 & G3 & G4 & G5 & _); split; [exact G1|]; split; [exact G2|]; split; [exact G3|]; split; [exact G4|]; split; [exact G5|discriminate]].
      pose proof Hg as (Hsh1 & Hi1 & Hq1 & _ & _ & _).
      destruct (IH s1 (fun s s' r y Hy => Hbody s s' r y (or_intror Hy)) H (eq_trans Hsh1 Hpre) Hi1 Hq1) as [Hg2 Hpost2].
      split; [eapply GoodA_trans; [exact Hg|auto]|].
      intros Hr y k [<-|Hy] Hk; [|eauto].
      destruct Hg2 as (_ & _ & _ & _ & _ & Hp2). apply Hp2; auto.
  Qed.
End Engine.

Section Calculator.
  Context {C V : Type} (O : cell_ops C) (N : num_ops V).
  Hypothesis HO : cell_ok O.
  Hypothesis Hnan : n_isnan N (n_nan N) = true.
  Notation calc := (calc C V).
  Notation Shaped := (Shaped O N).

  Notation src P job X := (Sourced P (np_mean N) (job X) (length (f_rows X))).
  (** every cell is NaN or comes from the predictions for its own rows *)
  Definition CoherentA (c : calc) : Prop :=
    CohA (c_predict c) (np_mean N) (job_single (c_X c)) (length (f_rows (c_X c))) (n_isnan N) (sget O) (c_log c) (c_single c)
    /\ CohA (c_predict c) (np_mean N) (job_pairs (c_X c)) (length (f_rows (c_X c))) (n_isnan N) (pget O) (c_log c) (c_pairs c)
    /\ CohA (c_predict c) (np_mean N) (job_minus (c_X c)) (length (f_rows (c_X c))) (n_isnan N) mget (c_log c) (c_minus c).

  Lemma init_any m X P b : CoherentA (calc_init O N m X P b).
  Proof.
    unfold CoherentA, CohA, calc_init; cbn. split; [|split].
    - intros k x H. left. unfold sget in H. destruct (assoc _ _ _) as [e|] eqn:E; [|discriminate].
      apply assoc_map_keys in E as (q & _ & ->). destruct (get_index _ _ _); [|discriminate]. cbn in H.
      apply nth_error_repeat_inv in H as ->; exact Hnan.
    - intros k x H. left. unfold pget in H. destruct (assoc _ _ _) as [e|] eqn:E; [|discriminate].
      apply assoc_map_keys in E as (q & _ & ->). cbn in H. destruct (get_index _ _ _); [|discriminate].
      destruct (get_index _ _ _); [|discriminate]. destruct (nth_error _ _) as [r|] eqn:Er; [|discriminate].
      apply nth_error_repeat_inv in Er as ->. apply nth_error_repeat_inv in H as ->; exact Hnan.
    - intros k x H. left. unfold mget in H. destruct (assoc _ _ _) as [e|] eqn:E; [|discriminate].
      apply assoc_map_keys in E as (q & _ & ->). apply nth_error_repeat_inv in H as ->; exact Hnan.
  Qed.

  (** ** calculate_pd_single *)
  Section Single.
    Variable c : calc.
    Let X := c_X c.
    Let xl := length (f_rows X).
    Variable fs : list string.
    Notation Qs := (Qs O c fs).
    Notation InvS := (InvA (c_predict c) (np_mean N) (job_single X) xl (n_isnan N) (sget O)).
    Notation GoodS := (GoodA (c_predict c) (np_mean N) (job_single X) xl (n_isnan N) (sget O) (ssh O) Qs).
    Notation PodS := (PodA (c_predict c) (np_mean N) (job_single X) xl (sget O)).

    Lemma single_body_any s s' r f : In f fs -> single_body O N c s f = (s', r) -> ssh O (e_tab s) = sshape O N X -> InvS s -> keysQ Qs s ->
      GoodS s s' r /\ (r = Ok tt -> forall k, fst k = f /\ In (snd k) (grid O X f) -> PodS s' k).
    Proof.
      intros Hf H Hsh Hi Hq. unfold single_body in H.
      destruct (dict_get String.eqb f (e_tab s)) as [e|x] eqn:Ed.
      2:{ injection H as <- <-. split; [apply GoodA_refl; assumption|discriminate]. }
      apply dict_get_assoc in Ed. destruct (sshape_assoc O N X _ f Hsh) as [_ H2].
      destruct (H2 _ Ed) as (Hcol & Hfv & Hl & Hnv).
      destruct (has_nan N (snd e)) eqn:En.
      - eapply (submit_any (c_predict c) (np_mean N) (skey_eqb O) (job_single X) (set_single O) xl (c_batchsize c)
           (n_isnan N) (sget O) (ssh O) (single_laws O HO) Qs) in H as [Hgood Hpost]; [|exact Hi|exact Hq|].
        + split; [exact Hgood|]. intros Hr k [Hk1 Hk2]. apply (Hpost Hr). rewrite Hfv.
          destruct k as [f' v]; cbn in *; subst f'. apply in_map; exact Hk2.
        + intros k Hk. apply in_map_iff in Hk as (v & <- & Hv). rewrite Hfv in Hv.
          split; [split; [exact Hf|exact Hv]|apply job_single_length].
      - injection H as <- <-. split; [apply GoodA_refl; assumption|]. intros _ [f' v] [Hk1 Hk2]; cbn in *; subst f'.
        right. destruct Hi as [_ Hc]. destruct (c_isnan O v) eqn:Ev.
        { rewrite (nanvals_has_nan O N Hnan (grid O X f) (snd e)) in En; [discriminate|exact Hl|exact Hnv|eauto]. }
        destruct (sget_some O N HO X _ f v Hsh Hcol Hk2 Ev) as (x & Hx). exists x. split; [exact Hx|].
        destruct (Hc _ _ Hx) as [Hn|Hsp]; [|exact Hsp].
        rewrite (proj1 (has_nan_false N _) En) in Hn; [discriminate|].
        unfold sget in Hx; cbn in Hx. rewrite Ed in Hx. destruct (get_index O (fst e) v) as [i|]; [|discriminate].
        eapply nth_error_In; exact Hx.
    Qed.

    Lemma single_run_any s' r : Shaped c -> CoherentA c ->
      seq2 (loop (single_body O N c) fs {| e_log := c_log c; e_tab := c_single c; e_b := b_empty |})
           (finish (c_predict c) (np_mean N) (set_single O)) = (s', r) ->
      ssh O (e_tab s') = sshape O N X /\ (exists q, e_log s' = c_log c ++ q)
      /\ CohA (c_predict c) (np_mean N) (job_single X) xl (n_isnan N) (sget O) (e_log s') (e_tab s')
      /\ (r = Ok tt -> forall k, Qs k -> exists x, sget O (e_tab s') k = Some x /\ src (c_predict c) job_single X (e_log s') k x).
    Proof.
      intros (Hs & _) (Hc & _) H.
      set (s0 := {| e_log := c_log c; e_tab := c_single c; e_b := b_empty |}) in H.
      destruct (loop (single_body O N c) fs s0) as [s1 r1] eqn:El.
      assert (Hi0 : InvS s0) by (split; [apply batch_ok_empty|exact Hc]).
      assert (Hq0 : keysQ Qs s0) by (apply keysQ_empty; reflexivity).
      eapply (loop_any (c_predict c) (np_mean N) (job_single X) xl (n_isnan N) (sget O) (ssh O) Qs (single_body O N c)
        (fun f k => fst k = f /\ In (snd k) (grid O X f)) (sshape O N X)) in El as [Hgood Hpost];
        [|intros a a' ra f Hf Hb Hsh Hi Hq; eapply single_body_any; eassumption|exact Hs|exact Hi0|exact Hq0].
      destruct Hgood as (Gsh & Gi & Gq & Gfr & (q1 & Gl) & _).
      destruct r1 as [[]|e]; cbn in H.
      - eapply (finish_any (c_predict c) (np_mean N) (skey_eqb O) (job_single X) (set_single O) xl
           (n_isnan N) (sget O) (ssh O) (single_laws O HO) Qs) in H as [(Fsh & Fi & _ & Ffr & (q2 & Fl) & _) Fpost];
          [|exact Gi|exact Gq|intros k [_ Hk]; eapply (grid_nonempty_rows O HO); exact Hk].
        split; [rewrite Fsh, Gsh; exact Hs|]. split; [exists (q1 ++ q2); rewrite Fl, Gl; cbn; rewrite app_assoc; reflexivity|]. split; [apply Fi|].
        intros Hr k [Hk1 Hk2]. apply (Fpost Hr). eapply (Hpost eq_refl); [exact Hk1|auto].
      - injection H as <- <-. split; [rewrite Gsh; exact Hs|]. split; [exists q1; exact Gl|]. split; [apply Gi|discriminate].
    Qed.
  End Single.

  (** ** calculate_pd_minus_single *)
  Section Minus.
    Variable c : calc.
    Let X := c_X c.
    Let xl := length (f_rows X).
    Variable fs : list string.
    Notation Qm := (Qm c fs).
    Notation InvM := (InvA (c_predict c) (np_mean N) (job_minus X) xl (n_isnan N) mget).
    Notation GoodM := (GoodA (c_predict c) (np_mean N) (job_minus X) xl (n_isnan N) mget msh Qm).
    Notation PodM := (PodA (c_predict c) (np_mean N) (job_minus X) xl mget).

    Lemma minus_body_any s s' r f : In f fs -> minus_body N c s f = (s', r) -> msh (e_tab s) = mshape X -> InvM s -> keysQ Qm s ->
      GoodM s s' r /\ (r = Ok tt -> forall k, fst k = f /\ snd k < length (f_rows X) -> PodM s' k).
    Proof.
      intros Hf H Hsh Hi Hq. unfold minus_body in H.
      destruct (dict_get String.eqb f (e_tab s)) as [a|x] eqn:Ed.
      2:{ injection H as <- <-. split; [apply GoodA_refl; assumption|discriminate]. }
      apply dict_get_assoc in Ed. destruct (mshape_assoc X _ f Hsh) as [_ H2].
      destruct (H2 _ Ed) as (Hcol & Hl).
      destruct (has_nan N a) eqn:En.
      - eapply (submit_any (c_predict c) (np_mean N) mkey_eqb (job_minus X) set_minus xl (c_batchsize c)
           (n_isnan N) mget msh minus_laws Qm) in H as [Hgood Hpost]; [|exact Hi|exact Hq|].
        + split; [exact Hgood|]. intros Hr k [Hk1 Hk2]. apply (Hpost Hr).
          destruct k as [f' i]; cbn in *; subst f'. apply in_map_iff. exists i; split; [reflexivity|]. apply in_seq; cbn. unfold X in *; lia.
        + intros k Hk. apply in_map_iff in Hk as (i & <- & Hin). apply in_seq in Hin.
          split; [split; cbn; [exact Hf|lia]|apply job_minus_length; unfold X; cbn; lia].
      - injection H as <- <-. split; [apply GoodA_refl; assumption|]. intros _ [f' i] [Hk1 Hk2]; cbn in *; subst f'.
        right. destruct Hi as [_ Hc].
        destruct (mget_some X _ f i Hsh Hcol Hk2) as (x & Hx). exists x. split; [exact Hx|].
        destruct (Hc _ _ Hx) as [Hn|Hsp]; [|exact Hsp].
        rewrite (proj1 (has_nan_false N _) En) in Hn; [discriminate|].
        unfold mget in Hx; cbn in Hx. rewrite Ed in Hx. eapply nth_error_In; exact Hx.
    Qed.

    Lemma minus_run_any s' r : Shaped c -> CoherentA c ->
      seq2 (loop (minus_body N c) fs {| e_log := c_log c; e_tab := c_minus c; e_b := b_empty |})
           (finish (c_predict c) (np_mean N) set_minus) = (s', r) ->
      msh (e_tab s') = mshape X /\ (exists q, e_log s' = c_log c ++ q)
      /\ CohA (c_predict c) (np_mean N) (job_minus X) xl (n_isnan N) mget (e_log s') (e_tab s')
      /\ (r = Ok tt -> forall k, Qm k -> exists x, mget (e_tab s') k = Some x /\ src (c_predict c) job_minus X (e_log s') k x).
    Proof.
      intros (_ & _ & Hs) (_ & _ & Hc) H.
      set (s0 := {| e_log := c_log c; e_tab := c_minus c; e_b := b_empty |}) in H.
      destruct (loop (minus_body N c) fs s0) as [s1 r1] eqn:El.
      assert (Hi0 : InvM s0) by (split; [apply batch_ok_empty|exact Hc]).
      assert (Hq0 : keysQ Qm s0) by (apply keysQ_empty; reflexivity).
      eapply (loop_any (c_predict c) (np_mean N) (job_minus X) xl (n_isnan N) mget msh Qm (minus_body N c)
        (fun f k => fst k = f /\ snd k < length (f_rows X)) (mshape X)) in El as [Hgood Hpost];
        [|intros a a' ra f Hf Hb Hsh Hi Hq; eapply minus_body_any; eassumption|exact Hs|exact Hi0|exact Hq0].
      destruct Hgood as (Gsh & Gi & Gq & Gfr & (q1 & Gl) & _).
      destruct r1 as [[]|e]; cbn in H.
      - eapply (finish_any (c_predict c) (np_mean N) mkey_eqb (job_minus X) set_minus xl
           (n_isnan N) mget msh minus_laws Qm) in H as [(Fsh & Fi & _ & Ffr & (q2 & Fl) & _) Fpost];
          [|exact Gi|exact Gq|intros k [_ Hk]; unfold xl, X; lia].
        split; [rewrite Fsh, Gsh; exact Hs|]. split; [exists (q1 ++ q2); rewrite Fl, Gl; cbn; rewrite app_assoc; reflexivity|]. split; [apply Fi|].
        intros Hr k [Hk1 Hk2]. apply (Fpost Hr). eapply (Hpost eq_refl); [exact Hk1|auto].
      - injection H as <- <-. split; [rewrite Gsh; exact Hs|]. split; [exists q1; exact Gl|]. split; [apply Gi|discriminate].
    Qed.
  End Minus.

  (** ** calculate_pd_pairs *)
  Section Pairs.
    Variable c : calc.
    Let X := c_X c.
    Let xl := length (f_rows X).
    Variable ps : list (string * string).
    Variable allc : bool.
    Notation Qp := (Qp O c ps allc).
    Notation pair_vals := (pair_vals O c allc).
    Notation InvP := (InvA (c_predict c) (np_mean N) (job_pairs X) xl (n_isnan N) (pget O)).
    Notation GoodP := (GoodA (c_predict c) (np_mean N) (job_pairs X) xl (n_isnan N) (pget O) (psh O) Qp).
    Notation PodP := (PodA (c_predict c) (np_mean N) (job_pairs X) xl (pget O)).

    Lemma pairs_cell_any p s s' r v :
      (exists pr, In pr ps /\ p = get_pair_key c pr) -> pair_vals p (fst v) (snd v) ->
      pairs_cell_body O N c p s v = (s', r) -> psh O (e_tab s) = pshape O N X -> InvP s -> keysQ Qp s ->
      GoodP s s' r /\ (r = Ok tt -> forall k, k = (p, fst v, snd v) -> PodP s' k).
    Proof.
      intros Hp Hv H Hsh Hi Hq. unfold pairs_cell_body in H.
      destruct (bind _ _) as [x|e] eqn:Er.
      2:{ injection H as <- <-. split; [apply GoodA_refl; assumption|discriminate]. }
      apply (pairs_cell_read O N HO c _ _ _ _ Hsh) in Er as (Hx & Hcomb & Hv1 & Hv2 & Hn1 & Hn2).
      destruct (n_isnan N x) eqn:En.
      - eapply (submit_any (c_predict c) (np_mean N) (pkey_eqb O) (job_pairs X) (set_pairs O) xl (c_batchsize c)
           (n_isnan N) (pget O) (psh O) (pairs_laws O HO) Qp) in H as [Hgood Hpost]; [|exact Hi|exact Hq|].
        + split; [exact Hgood|]. intros Hr k ->. apply (Hpost Hr). left; reflexivity.
        + intros k [<-|[]]. split; [|apply job_pairs_length]. unfold PdProofs.Qp; cbn [fst snd]. auto 10.
      - injection H as <- <-. split; [apply GoodA_refl; assumption|]. intros _ k ->. right.
        exists x. split; [exact Hx|]. destruct Hi as [_ Hc]. destruct (Hc _ _ Hx) as [Hn|Hsp]; [congruence|exact Hsp].
    Qed.

    Lemma pairs_body_any s s' r pr : In pr ps ->
      pairs_body O N c allc s pr = (s', r) -> psh O (e_tab s) = pshape O N X -> InvP s -> keysQ Qp s ->
      GoodP s s' r
      /\ (r = Ok tt -> forall k, fst (fst k) = get_pair_key c pr /\ pair_vals (get_pair_key c pr) (snd (fst k)) (snd k) -> PodP s' k).
    Proof.
      intros Hp H Hsh Hi Hq. unfold pairs_body in H.
      set (p := get_pair_key c pr) in *.
      match type of H with (match ?r with Ok _ => _ | Err _ => _ end) = _ => destruct r as [vals|e] eqn:Ev end.
      2:{ injection H as <- <-. split; [apply GoodA_refl; assumption|discriminate]. }
      assert (Hvals : forall v, In v vals <-> pair_vals p (fst v) (snd v)).
      { intros [v w]; cbn. unfold PdProofs.pair_vals. destruct allc.
        - bsplit Ev. apply dict_get_assoc in E. injection Ev as <-.
          destruct (pshape_assoc O N X _ p Hsh) as [_ H2]. destruct (H2 _ E) as (_ & Hf & _). rewrite Hf; cbn.
          rewrite in_flat_map. split.
          + intros (a & Ha & Hb). apply in_map_iff in Hb as (b & Hab & Hb). injection Hab as -> ->. auto.
          + intros [Ha Hb]. exists v; split; [exact Ha|]. apply in_map_iff; eauto.
        - bsplit Ev. bsplit Ev. injection Ev as <-. split.
          + intros Hin; eauto 10.
          + intros (a & b & Ha & Hb & Hin). congruence. }
      eapply (loop_any (c_predict c) (np_mean N) (job_pairs X) xl (n_isnan N) (pget O) (psh O) Qp (pairs_cell_body O N c p)
        (fun v k => k = (p, fst v, snd v)) (pshape O N X)) in H as [Hgood Hpost];
        [|intros a a' ra v Hv Hb Hsh' Hi' Hq'; eapply pairs_cell_any; try eassumption;
          [eauto|apply Hvals, Hv]|exact Hsh|exact Hi|exact Hq].
      split; [exact Hgood|]. intros Hr [[p' v] w] [Hk1 Hk2]; cbn in *; subst p'.
      apply (Hpost Hr (v, w)); [|reflexivity]. apply Hvals; exact Hk2.
    Qed.

    Lemma pairs_run_any s' r : Shaped c -> CoherentA c ->
      seq2 (loop (pairs_body O N c allc) ps {| e_log := c_log c; e_tab := c_pairs c; e_b := b_empty |})
           (finish (c_predict c) (np_mean N) (set_pairs O)) = (s', r) ->
      psh O (e_tab s') = pshape O N X /\ (exists q, e_log s' = c_log c ++ q)
      /\ CohA (c_predict c) (np_mean N) (job_pairs X) xl (n_isnan N) (pget O) (e_log s') (e_tab s')
      /\ (r = Ok tt -> forall k, (exists pr, In pr ps /\ fst (fst k) = get_pair_key c pr) ->
            pair_vals (fst (fst k)) (snd (fst k)) (snd k) -> exists x, pget O (e_tab s') k = Some x /\ src (c_predict c) job_pairs X (e_log s') k x).
    Proof.
      intros (_ & Hs & _) (_ & Hc & _) H.
      set (s0 := {| e_log := c_log c; e_tab := c_pairs c; e_b := b_empty |}) in H.
      destruct (loop (pairs_body O N c allc) ps s0) as [s1 r1] eqn:El.
      assert (Hi0 : InvP s0) by (split; [apply batch_ok_empty|exact Hc]).
      assert (Hq0 : keysQ Qp s0) by (apply keysQ_empty; reflexivity).
      eapply (loop_any (c_predict c) (np_mean N) (job_pairs X) xl (n_isnan N) (pget O) (psh O) Qp (pairs_body O N c allc)
        (fun pr k => fst (fst k) = get_pair_key c pr /\ pair_vals (get_pair_key c pr) (snd (fst k)) (snd k)) (pshape O N X)) in El as [Hgood Hpost];
        [|intros a a' ra f Hf Hb Hsh Hi Hq; eapply pairs_body_any; eassumption|exact Hs|exact Hi0|exact Hq0].
      destruct Hgood as (Gsh & Gi & Gq & Gfr & (q1 & Gl) & _).
      destruct r1 as [[]|e]; cbn in H.
      - eapply (finish_any (c_predict c) (np_mean N) (pkey_eqb O) (job_pairs X) (set_pairs O) xl
           (n_isnan N) (pget O) (psh O) (pairs_laws O HO) Qp) in H as [(Fsh & Fi & _ & Ffr & (q2 & Fl) & _) Fpost];
          [|exact Gi|exact Gq|intros k (_ & _ & _ & Hk & _); eapply (grid_nonempty_rows O HO); exact Hk].
        split; [rewrite Fsh, Gsh; exact Hs|]. split; [exists (q1 ++ q2); rewrite Fl, Gl; cbn; rewrite app_assoc; reflexivity|]. split; [apply Fi|].
        intros Hr k (pr & Hpr & Hk) Hv. apply (Fpost Hr). rewrite Hk in Hv. eapply (Hpost eq_refl); [exact Hpr|auto].
      - injection H as <- <-. split; [rewrite Gsh; exact Hs|]. split; [exists q1; exact Gl|]. split; [apply Gi|discriminate].
    Qed.
  End Pairs.

  (** ** Every sequence of calls *)
  Lemma step_any (c : calc) o c' r : Shaped c -> CoherentA c -> step O N c o = (c', r) -> Shaped c' /\ CoherentA c'.
  Proof.
    intros Hs Hc H. pose proof Hs as (Hs1 & Hs2 & Hs3). pose proof Hc as (Hc1 & Hc2 & Hc3).
    destruct o as [fs|ps a|fs]; cbn in H; unfold calculate_pd_single, calculate_pd_pairs, calculate_pd_minus_single in H;
      destruct (seq2 _ _) as [s r'] eqn:E; injection H as <- <-.
    - eapply single_run_any in E as (A1 & (q & A2) & A3 & _); eauto.
      split; [split; [exact A1|split; assumption]|]. split; [exact A3|]. unfold CohA in *; cbn in *. rewrite A2. split; apply coh_mono; assumption.
    - eapply pairs_run_any in E as (A1 & (q & A2) & A3 & _); eauto.
      split; [split; [|split]; assumption|]. split; [|split; [exact A3|]]; cbn; rewrite A2; apply coh_mono; assumption.
    - eapply minus_run_any in E as (A1 & (q & A2) & A3 & _); eauto.
      split; [split; [|split]; assumption|]. split; [|split; [|exact A3]]; cbn; rewrite A2; apply coh_mono; assumption.
  Qed.
  Lemma reachable_any m X P b c : reachable O N m X P b c -> Shaped c /\ CoherentA c /\ c_X c = X /\ c_predict c = P.
  Proof.
    intros [ops ->]. destruct (run_env O N (calc_init O N m X P b) ops) as [HX HP]. cbn in HX, HP.
    assert (G : forall c, Shaped c -> CoherentA c -> Shaped (run O N c ops) /\ CoherentA (run O N c ops)).
    { unfold run. induction ops as [|o t IH]; cbn; intros c Hs Hc; [auto|]. destruct (step O N c o) as [c1 r] eqn:E. destruct (step_any _ _ _ _ Hs Hc E).
      apply IH; [| |assumption|assumption]; destruct (run_env O N (calc_init O N m X P b) t); assumption. }
    destruct (G (calc_init O N m X P b)); [apply init_shaped|apply init_any|auto].
  Qed.
End Calculator.
