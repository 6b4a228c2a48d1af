(** Theorems about the calculator as a whole. *)
From Verif Require Import Py Num Frame PdCalc EngineFacts PdSpec PdFacts.

Section PdProofs.
  Context {C V : Type} (O : cell_ops C) (N : num_ops V).
  Hypothesis HO : cell_ok O.
  Hypothesis Hnan : n_isnan N (n_nan N) = true.
  Notation calc := (calc C V).

  (** ** Shape of the tables: fixed by the data frame *)
  Definition sshape (X : frame C) :=
    map (fun f => (f, (grid O X f, length (grid O X f),
                       nanvals O (grid O X f) (repeat (n_nan N) (length (grid O X f)))))) (f_cols X).
  Definition pinit (X : frame C) (p : string * string) : list (list V) :=
    repeat (repeat (n_nan N) (length (grid O X (snd p)))) (length (grid O X (fst p))).
  Definition pshape (X : frame C) :=
    map (fun p : string * string => (p, ((grid O X (fst p), grid O X (snd p)),
                repeat (length (grid O X (snd p))) (length (grid O X (fst p))),
                nanvals2 O (grid O X (fst p)) (grid O X (snd p)) (pinit X p)))) (combinations2 (f_cols X)).
  Definition mshape (X : frame C) := map (fun f => (f, length (f_rows X))) (f_cols X).
  Definition Shaped (c : calc) : Prop :=
    ssh O (c_single c) = sshape (c_X c) /\ psh O (c_pairs c) = pshape (c_X c) /\ msh (c_minus c) = mshape (c_X c).

  Definition rowwise (P : nat -> list (list C) -> result (list V)) (g : list C -> V) : Prop :=
    forall n rows ys, P n rows = Ok ys -> ys = map g rows.

  Definition sspec (X : frame C) g (k : skey) : V := np_mean N (map g (job_single X k)).
  Definition pspec (X : frame C) g (k : pkey) : V := np_mean N (map g (job_pairs X k)).
  Definition mspec (X : frame C) g (k : mkey) : V := np_mean N (map g (job_minus X k)).

  (** every cell is NaN or the specified mean prediction *)
  Definition Coherent (g : list C -> V) (c : calc) : Prop :=
    Coh (n_isnan N) (sget O) (sspec (c_X c) g) (c_single c)
    /\ Coh (n_isnan N) (pget O) (pspec (c_X c) g) (c_pairs c)
    /\ Coh (n_isnan N) mget (mspec (c_X c) g) (c_minus c).

  (** *** The initial calculator *)
  Lemma map_repeat {A B} (f : A -> B) x n : map f (repeat x n) = repeat (f x) n.
  Proof. induction n; cbn; congruence. Qed.

  Lemma init_shaped m X P b : Shaped (calc_init O N m X P b).
  Proof.
    unfold Shaped, ssh, psh, msh, sshape, pshape, mshape, dshape, calc_init; cbn. rewrite !map_map. repeat split.
    - apply map_ext; intros f; cbn. rewrite repeat_length. reflexivity.
    - apply map_ext; intros p; cbn. rewrite map_repeat, repeat_length. reflexivity.
    - apply map_ext; intros f; cbn. rewrite repeat_length. reflexivity.
  Qed.

  Lemma nth_error_repeat_inv {A} (a : A) n i x : nth_error (repeat a n) i = Some x -> x = a.
  Proof. intros H; apply nth_error_In, repeat_spec in H; exact H. Qed.

  Lemma assoc_map_keys {K A} (eqb : K -> K -> bool) (h : K -> A) k keys a :
    assoc eqb k (map (fun q => (q, h q)) keys) = Some a -> exists q, In q keys /\ a = h q.
  Proof.
    induction keys as [|q t IH]; cbn; [discriminate|].
    destruct (eqb k q); [intros H; injection H as <-; eauto|]. intros H; apply IH in H as (q' & ? & ?); eauto.
  Qed.

  Lemma init_coherent m X P b g : Coherent g (calc_init O N m X P b).
  Proof.
    unfold Coherent, Coh, calc_init; cbn. split; [|split].
    - intros k x H. left. unfold sget in H. destruct (assoc _ _ _) as [e|] eqn:E; [|discriminate].
      apply assoc_map_keys in E as (q & _ & ->). destruct (get_index _ _ _); [|discriminate]. cbn in H.
      apply nth_error_repeat_inv in H as ->; exact Hnan.
    - intros k x H. left. unfold pget in H. destruct (assoc _ _ _) as [e|] eqn:E; [|discriminate].
      apply assoc_map_keys in E as (q & _ & ->). cbn in H. destruct (get_index _ _ _); [|discriminate].
      destruct (get_index _ _ _); [|discriminate]. destruct (nth_error _ _) as [r|] eqn:Er; [|discriminate].
      apply nth_error_repeat_inv in Er as ->. apply nth_error_repeat_inv in H as ->; exact Hnan.
    - intros k x H. left. unfold mget in H. destruct (assoc _ _ _) as [e|] eqn:E; [|discriminate].
      apply assoc_map_keys in E as (q & _ & ->). apply nth_error_repeat_inv in H as ->; exact Hnan.
  Qed.

  (** *** Reading a shaped table *)
  Lemma sshape_assoc X t f : ssh O t = sshape X ->
    (In f (f_cols X) -> exists pv, assoc String.eqb f t = Some (grid O X f, pv))
    /\ (forall e, assoc String.eqb f t = Some e -> In f (f_cols X) /\ fst e = grid O X f /\ length (snd e) = length (grid O X f)
        /\ nanvals O (grid O X f) (snd e) = nanvals O (grid O X f) (repeat (n_nan N) (length (grid O X f)))).
  Proof.
    intros H. unfold ssh, sshape in H.
    destruct (dshape_assoc String.eqb (fun e => (fst e, length (snd e), nanvals O (fst e) (snd e)))
      String_eqb_eq' f t (f_cols X) (fun f => (grid O X f, length (grid O X f), nanvals O (grid O X f) (repeat (n_nan N) (length (grid O X f))))) H) as [H1 H2].
    split.
    - intros Hf. destruct (H1 Hf) as ([fv pv] & Ha & Hh). cbn in Hh. injection Hh as -> Hl _. eauto.
    - intros [fv pv] He. destruct (H2 _ He) as [Hf Hh]. cbn in Hh. injection Hh as -> Hl Hn. cbn; auto.
  Qed.

  Lemma pshape_assoc X t p : psh O t = pshape X ->
    (In p (combinations2 (f_cols X)) -> exists m, assoc pair_eqb p t = Some (grid O X (fst p), grid O X (snd p), m))
    /\ (forall e, assoc pair_eqb p t = Some e -> In p (combinations2 (f_cols X)) /\ fst e = (grid O X (fst p), grid O X (snd p))
         /\ map (@length V) (snd e) = repeat (length (grid O X (snd p))) (length (grid O X (fst p)))
         /\ nanvals2 O (grid O X (fst p)) (grid O X (snd p)) (snd e) = nanvals2 O (grid O X (fst p)) (grid O X (snd p)) (pinit X p)).
  Proof.
    intros H. unfold psh, pshape in H.
    destruct (dshape_assoc pair_eqb (fun e => (fst e, map (@length V) (snd e), nanvals2 O (fst (fst e)) (snd (fst e)) (snd e))) pair_eqb_eq p t (combinations2 (f_cols X))
      (fun p => ((grid O X (fst p), grid O X (snd p)), repeat (length (grid O X (snd p))) (length (grid O X (fst p))),
        nanvals2 O (grid O X (fst p)) (grid O X (snd p)) (pinit X p))) H) as [H1 H2].
    split.
    - intros Hf. destruct (H1 Hf) as ([fv m] & Ha & Hh). cbn in Hh. injection Hh as -> _ _. eauto.
    - intros [fv m] He. destruct (H2 _ He) as [Hf Hh]. cbn in Hh. injection Hh as -> Hl Hv. cbn; auto.
  Qed.

  Lemma mshape_assoc X (t : list (string * list V)) f : msh t = mshape X ->
    (In f (f_cols X) -> exists a, assoc String.eqb f t = Some a)
    /\ (forall a, assoc String.eqb f t = Some a -> In f (f_cols X) /\ length a = length (f_rows X)).
  Proof.
    intros H. unfold msh, mshape in H.
    destruct (dshape_assoc String.eqb (@length V) String_eqb_eq' f t (f_cols X) (fun _ => length (f_rows X)) H) as [H1 H2].
    split; [|exact H2]. intros Hf; destruct (H1 Hf) as (a & ? & ?); eauto.
  Qed.

  Lemma nth_error_lt_some {A} (l : list A) i : i < length l -> exists x, nth_error l i = Some x.
  Proof. intros H; apply nth_error_Some in H. destruct (nth_error l i); [eauto|congruence]. Qed.

  (** cells exist exactly for grid values *)
  Lemma sget_some X t f v : ssh O t = sshape X -> In f (f_cols X) -> In v (grid O X f) -> c_isnan O v = false ->
    exists x, sget O t (f, v) = Some x.
  Proof.
    intros Hs Hf Hv Hn. destruct (sshape_assoc X t f Hs) as [H1 H2]. destruct (H1 Hf) as (pv & Ha).
    destruct (H2 _ Ha) as (_ & _ & Hl & _). cbn in Hl. unfold sget; cbn. rewrite Ha; cbn.
    destruct (get_index_In O _ _ Hv Hn) as (i & Hi). rewrite Hi. apply nth_error_lt_some. rewrite Hl.
    apply (get_index_spec O HO) in Hi as [Hi _]. apply nth_error_Some; congruence.
  Qed.

  Lemma map_length_repeat_nth (m : list (list V)) n k i r : map (@length V) m = repeat n k -> nth_error m i = Some r -> length r = n.
  Proof.
    intros H Hr. apply (map_nth_error (@length V)) in Hr. rewrite H in Hr. apply nth_error_repeat_inv in Hr; exact Hr.
  Qed.

  Lemma pget_some X t p v w : psh O t = pshape X -> In p (combinations2 (f_cols X)) ->
    In v (grid O X (fst p)) -> c_isnan O v = false -> In w (grid O X (snd p)) -> c_isnan O w = false ->
    exists x : V, pget O t (p, v, w) = Some x.
  Proof.
    intros Hs Hf Hv Hn Hw Hn'. destruct (pshape_assoc X t p Hs) as [H1 H2]. destruct (H1 Hf) as (m & Ha).
    destruct (H2 _ Ha) as (_ & _ & Hl & _). cbn in Hl. unfold pget; cbn. rewrite Ha; cbn.
    destruct (get_index_In O _ _ Hv Hn) as (i & Hi). destruct (get_index_In O _ _ Hw Hn') as (j & Hj). rewrite Hi, Hj.
    apply (get_index_spec O HO) in Hi as [Hi _], Hj as [Hj _].
    destruct (nth_error_lt_some m i) as (r & Hr).
    { rewrite <- (map_length (@length V) m), Hl, repeat_length. apply nth_error_Some; congruence. }
    rewrite Hr. apply nth_error_lt_some. rewrite (map_length_repeat_nth _ _ _ _ _ Hl Hr). apply nth_error_Some; congruence.
  Qed.

  Lemma mget_some X t f i : msh t = mshape X -> In f (f_cols X) -> i < length (f_rows X) -> exists x : V, mget t (f, i) = Some x.
  Proof.
    intros Hs Hf Hi. destruct (mshape_assoc X t f Hs) as [H1 H2]. destruct (H1 Hf) as (a & Ha).
    destruct (H2 _ Ha) as (_ & Hl). unfold mget; cbn. rewrite Ha. apply nth_error_lt_some; lia.
  Qed.

  Lemma nanvals_has_nan fv pv : length pv = length fv ->
    nanvals O fv pv = nanvals O fv (repeat (n_nan N) (length fv)) ->
    (exists v, In v fv /\ c_isnan O v = true) -> has_nan N pv = true.
  Proof.
    unfold nanvals, has_nan. revert pv; induction fv as [|w fv IH]; intros [|y pv] Hl H (v & Hv & Hn); cbn in *;
      try discriminate; [destruct Hv|].
    destruct (c_isnan O w) eqn:Ew.
    - injection H as -> _. rewrite Hnan; reflexivity.
    - injection H as H. apply orb_true_iff; right. apply IH; [lia|exact H|].
      destruct Hv as [->|Hv]; [congruence|eauto].
  Qed.

  Lemma has_nan_false l : has_nan N l = false <-> forall x, In x l -> n_isnan N x = false.
  Proof.
    unfold has_nan. split.
    - intros H x Hx. destruct (n_isnan N x) eqn:E; [|reflexivity].
      assert (existsb (n_isnan N) l = true) by (apply existsb_exists; eauto). congruence.
    - intros H. destruct (existsb _ l) eqn:E; [|reflexivity]. apply existsb_exists in E as (x & Hx & E).
      rewrite H in E by exact Hx; discriminate.
  Qed.

  Lemma grid_In_col X f v : In v (grid O X f) -> In f (f_cols X).
  Proof.
    unfold grid, column. destruct (col_pos (f_cols X) f) as [p|] eqn:E; [|intros []].
    intros _. apply col_pos_nth in E. eapply nth_error_In; exact E.
  Qed.

  (** ** calculate_pd_single *)
  Section Single.
    Variable c : calc.
    Hypothesis HX : wf_frame (c_X c).
    Let X := c_X c.
    Let xl := length (f_rows X).
    Variable fs : list string.

    Definition Qs (k : skey) : Prop := In (fst k) fs /\ In (snd k) (grid O X (fst k)).

    Lemma single_body_good g s s' r f : rowwise (c_predict c) g -> In f fs ->
      single_body O N c s f = (s', r) -> ssh O (e_tab s) = sshape X ->
      Inv (job_single X) xl (n_isnan N) (sget O) (sspec X g) s -> keysQ Qs s ->
      Good (job_single X) xl (n_isnan N) (sget O) (ssh O) (sspec X g) Qs s s' r
      /\ (r = Ok tt -> forall k, fst k = f /\ In (snd k) (grid O X f) -> Pod (sget O) (sspec X g) s' k).
    Proof.
      intros Hg Hf H Hsh Hi Hq. unfold single_body in H.
      destruct (dict_get String.eqb f (e_tab s)) as [e|x] eqn:Ed.
      2:{ injection H as <- <-. split; [apply Good_refl; assumption|discriminate]. }
      apply dict_get_assoc in Ed. destruct (sshape_assoc X _ f Hsh) as [_ H2].
      destruct (H2 _ Ed) as (Hcol & Hfv & Hl & Hnv).
      destruct (has_nan N (snd e)) eqn:En.
      - eapply (submit_good (c_predict c) (np_mean N) (skey_eqb O) (job_single X) (set_single O) xl (c_batchsize c)
           (n_isnan N) (sget O) (ssh O) (single_laws O HO) g (sspec X g) Hg (fun k => eq_refl) Qs) in H as [Hgood Hpost]; [|exact Hi|exact Hq|].
        + split; [exact Hgood|]. intros Hr k [Hk1 Hk2]. apply (Hpost Hr). rewrite Hfv.
          destruct k as [f' v]; cbn in *; subst f'. apply in_map; exact Hk2.
        + intros k Hk. apply in_map_iff in Hk as (v & <- & Hv). rewrite Hfv in Hv.
          split; [split; [exact Hf|exact Hv]|apply job_single_length].
      - injection H as <- <-. split; [apply Good_refl; assumption|]. intros _ [f' v] [Hk1 Hk2]; cbn in *; subst f'.
        right. destruct Hi as [_ Hc]. destruct (c_isnan O v) eqn:Ev.
        { rewrite (nanvals_has_nan (grid O X f) (snd e)) in En; [discriminate|exact Hl|exact Hnv|eauto]. }
        destruct (sget_some X _ f v Hsh Hcol Hk2 Ev) as (x & Hx). rewrite Hx. f_equal.
        destruct (Hc _ _ Hx) as [Hn|Hsp]; [|exact Hsp].
        rewrite (proj1 (has_nan_false _) En) in Hn; [discriminate|].
        unfold sget in Hx; cbn in Hx. rewrite Ed in Hx. destruct (get_index O (fst e) v) as [i|]; [|discriminate].
        eapply nth_error_In; exact Hx.
    Qed.

    Lemma single_run_good g s' r : rowwise (c_predict c) g -> Shaped c -> Coherent g c ->
      seq2 (loop (single_body O N c) fs {| e_log := c_log c; e_tab := c_single c; e_b := b_empty |})
           (finish (c_predict c) (np_mean N) (set_single O)) = (s', r) ->
      ssh O (e_tab s') = sshape X /\ Coh (n_isnan N) (sget O) (sspec X g) (e_tab s')
      /\ (forall k, ~ Qs k -> sget O (e_tab s') k = sget O (c_single c) k)
      /\ (r = Ok tt -> forall k, Qs k -> sget O (e_tab s') k = Some (sspec X g k)).
    Proof.
      intros Hg (Hs & _) (Hc & _) H.
      set (s0 := {| e_log := c_log c; e_tab := c_single c; e_b := b_empty |}) in H.
      destruct (loop (single_body O N c) fs s0) as [s1 r1] eqn:El.
      assert (Hi0 : Inv (job_single X) xl (n_isnan N) (sget O) (sspec X g) s0).
      { split; [apply batch_ok_empty|exact Hc]. }
      assert (Hq0 : keysQ Qs s0) by (apply keysQ_empty; reflexivity).
      eapply (loop_good (job_single X) xl (n_isnan N) (sget O) (ssh O) (sspec X g) Qs (single_body O N c)
        (fun f k => fst k = f /\ In (snd k) (grid O X f)) (sshape X)) in El as [Hgood Hpost];
        [|intros a a' ra f Hf Hb Hsh Hi Hq; eapply single_body_good; eassumption|exact Hs|exact Hi0|exact Hq0].
      destruct Hgood as (Gsh & Gi & Gq & Gfr & _).
      destruct r1 as [[]|e]; cbn in H.
      - eapply (finish_good (c_predict c) (np_mean N) (skey_eqb O) (job_single X) (set_single O) xl
           (n_isnan N) (sget O) (ssh O) (single_laws O HO) g (sspec X g) Hg (fun k => eq_refl) Qs) in H as [(Fsh & Fi & _ & Ffr & _) Fpost];
          [|exact Gi|exact Gq|intros k [_ Hk]; eapply (grid_nonempty_rows O HO); exact Hk].
        split; [rewrite Fsh, Gsh; exact Hs|]. split; [apply Fi|]. split.
        + intros k Hk. rewrite Ffr, Gfr by exact Hk. reflexivity.
        + intros Hr k [Hk1 Hk2]. apply (Fpost Hr). eapply (Hpost eq_refl); [exact Hk1|auto].
      - injection H as <- <-. split; [rewrite Gsh; exact Hs|]. split; [apply Gi|]. split; [exact Gfr|discriminate].
    Qed.
  End Single.

  (** ** calculate_pd_minus_single *)
  Section Minus.
    Variable c : calc.
    Let X := c_X c.
    Let xl := length (f_rows X).
    Variable fs : list string.

    Definition Qm (k : mkey) : Prop := In (fst k) fs /\ snd k < length (f_rows (c_X c)).

    Lemma minus_body_good g s s' r f : rowwise (c_predict c) g -> In f fs ->
      minus_body N c s f = (s', r) -> msh (e_tab s) = mshape X ->
      Inv (job_minus X) xl (n_isnan N) mget (mspec X g) s -> keysQ Qm s ->
      Good (job_minus X) xl (n_isnan N) mget msh (mspec X g) Qm s s' r
      /\ (r = Ok tt -> forall k, fst k = f /\ snd k < length (f_rows X) -> Pod mget (mspec X g) s' k).
    Proof.
      intros Hg Hf H Hsh Hi Hq. unfold minus_body in H.
      destruct (dict_get String.eqb f (e_tab s)) as [a|x] eqn:Ed.
      2:{ injection H as <- <-. split; [apply Good_refl; assumption|discriminate]. }
      apply dict_get_assoc in Ed. destruct (mshape_assoc X _ f Hsh) as [_ H2].
      destruct (H2 _ Ed) as (Hcol & Hl).
      destruct (has_nan N a) eqn:En.
      - eapply (submit_good (c_predict c) (np_mean N) mkey_eqb (job_minus X) set_minus xl (c_batchsize c)
           (n_isnan N) mget msh minus_laws g (mspec X g) Hg (fun k => eq_refl) Qm) in H as [Hgood Hpost]; [|exact Hi|exact Hq|].
        + split; [exact Hgood|]. intros Hr k [Hk1 Hk2]. apply (Hpost Hr).
          destruct k as [f' i]; cbn in *; subst f'. apply in_map_iff. exists i; split; [reflexivity|]. apply in_seq; cbn. unfold X in *; lia.
        + intros k Hk. apply in_map_iff in Hk as (i & <- & Hin). apply in_seq in Hin.
          split; [split; cbn; [exact Hf|lia]|apply job_minus_length; unfold X; cbn; lia].
      - injection H as <- <-. split; [apply Good_refl; assumption|]. intros _ [f' i] [Hk1 Hk2]; cbn in *; subst f'.
        right. destruct Hi as [_ Hc].
        destruct (mget_some X _ f i Hsh Hcol Hk2) as (x & Hx). rewrite Hx. f_equal.
        destruct (Hc _ _ Hx) as [Hn|Hsp]; [|exact Hsp].
        rewrite (proj1 (has_nan_false _) En) in Hn; [discriminate|].
        unfold mget in Hx; cbn in Hx. rewrite Ed in Hx. eapply nth_error_In; exact Hx.
    Qed.

    Lemma minus_run_good g s' r : rowwise (c_predict c) g -> Shaped c -> Coherent g c ->
      seq2 (loop (minus_body N c) fs {| e_log := c_log c; e_tab := c_minus c; e_b := b_empty |})
           (finish (c_predict c) (np_mean N) set_minus) = (s', r) ->
      msh (e_tab s') = mshape X /\ Coh (n_isnan N) mget (mspec X g) (e_tab s')
      /\ (forall k, ~ Qm k -> mget (e_tab s') k = mget (c_minus c) k)
      /\ (r = Ok tt -> forall k, Qm k -> mget (e_tab s') k = Some (mspec X g k)).
    Proof.
      intros Hg (_ & _ & Hs) (_ & _ & Hc) H.
      set (s0 := {| e_log := c_log c; e_tab := c_minus c; e_b := b_empty |}) in H.
      destruct (loop (minus_body N c) fs s0) as [s1 r1] eqn:El.
      assert (Hi0 : Inv (job_minus X) xl (n_isnan N) mget (mspec X g) s0).
      { split; [apply batch_ok_empty|exact Hc]. }
      assert (Hq0 : keysQ Qm s0) by (apply keysQ_empty; reflexivity).
      eapply (loop_good (job_minus X) xl (n_isnan N) mget msh (mspec X g) Qm (minus_body N c)
        (fun f k => fst k = f /\ snd k < length (f_rows X)) (mshape X)) in El as [Hgood Hpost];
        [|intros a a' ra f Hf Hb Hsh Hi Hq; eapply minus_body_good; eassumption|exact Hs|exact Hi0|exact Hq0].
      destruct Hgood as (Gsh & Gi & Gq & Gfr & _).
      destruct r1 as [[]|e]; cbn in H.
      - eapply (finish_good (c_predict c) (np_mean N) mkey_eqb (job_minus X) set_minus xl
           (n_isnan N) mget msh minus_laws g (mspec X g) Hg (fun k => eq_refl) Qm) in H as [(Fsh & Fi & _ & Ffr & _) Fpost];
          [|exact Gi|exact Gq|intros k [_ Hk]; unfold xl, X; lia].
        split; [rewrite Fsh, Gsh; exact Hs|]. split; [apply Fi|]. split.
        + intros k Hk. rewrite Ffr, Gfr by exact Hk. reflexivity.
        + intros Hr k [Hk1 Hk2]. apply (Fpost Hr). eapply (Hpost eq_refl); [exact Hk1|auto].
      - injection H as <- <-. split; [rewrite Gsh; exact Hs|]. split; [apply Gi|]. split; [exact Gfr|discriminate].
    Qed.
  End Minus.

  (** ** calculate_pd_pairs *)
  Section Pairs.
    Variable c : calc.
    Let X := c_X c.
    Let xl := length (f_rows X).
    Variable ps : list (string * string).
    Variable allc : bool.

    (** the value pairs the loop walks over for a (normalised) pair of features *)
    Definition pair_vals (p : string * string) (v w : C) : Prop :=
      if allc then In v (grid O X (fst p)) /\ In w (grid O X (snd p))
      else exists a b, column X (fst p) = Ok a /\ column X (snd p) = Ok b /\ In (v, w) (combine a b).

    Definition Qp (k : pkey) : Prop :=
      (exists pr, In pr ps /\ fst (fst k) = get_pair_key c pr)
      /\ pair_vals (fst (fst k)) (snd (fst k)) (snd k)
      /\ In (fst (fst k)) (combinations2 (f_cols X))
      /\ In (snd (fst k)) (grid O X (fst (fst (fst k)))) /\ In (snd k) (grid O X (snd (fst (fst k))))
      /\ c_isnan O (snd (fst k)) = false /\ c_isnan O (snd k) = false.

    Lemma pairs_cell_read (t : list ((string * string) * (list C * list C * list (list V)))) p v x : psh O t = pshape X ->
      (do e <- dict_get pair_eqb p t;
       do i <- get_index O (fst (fst e)) (fst v);
       do j <- get_index O (snd (fst e)) (snd v);
       mat_get i j (snd e)) = Ok x ->
      pget O t (p, fst v, snd v) = Some x /\ In p (combinations2 (f_cols X))
      /\ In (fst v) (grid O X (fst p)) /\ In (snd v) (grid O X (snd p))
      /\ c_isnan O (fst v) = false /\ c_isnan O (snd v) = false.
    Proof.
      intros Hsh H. bsplit H. apply dict_get_assoc in E. bsplit H. bsplit H.
      unfold mat_get in H. bsplit H. apply get_nth_inv in H, E2.
      destruct (pshape_assoc X _ p Hsh) as [_ H2]. destruct (H2 _ E) as (Hp & Hf & _ & _).
      unfold pget; cbn [fst snd]. rewrite E, E0, E1, E2.
      apply (get_index_spec O HO) in E0 as [A1 A2], E1 as [B1 B2]. rewrite Hf in A1, B1. cbn in A1, B1.
      apply nth_error_In in A1, B1. auto 10.
    Qed.

    Lemma pairs_cell_good g p s s' r v : rowwise (c_predict c) g ->
      (exists pr, In pr ps /\ p = get_pair_key c pr) -> pair_vals p (fst v) (snd v) ->
      pairs_cell_body O N c p s v = (s', r) -> psh O (e_tab s) = pshape X ->
      Inv (job_pairs X) xl (n_isnan N) (pget O) (pspec X g) s -> keysQ Qp s ->
      Good (job_pairs X) xl (n_isnan N) (pget O) (psh O) (pspec X g) Qp s s' r
      /\ (r = Ok tt -> forall k, k = (p, fst v, snd v) -> Pod (pget O) (pspec X g) s' k).
    Proof.
      intros Hg Hp Hv H Hsh Hi Hq. unfold pairs_cell_body in H.
      destruct (bind _ _) as [x|e] eqn:Er.
      2:{ injection H as <- <-. split; [apply Good_refl; assumption|discriminate]. }
      apply (pairs_cell_read _ _ _ _ Hsh) in Er as (Hx & Hcomb & Hv1 & Hv2 & Hn1 & Hn2).
      destruct (n_isnan N x) eqn:En.
      - eapply (submit_good (c_predict c) (np_mean N) (pkey_eqb O) (job_pairs X) (set_pairs O) xl (c_batchsize c)
           (n_isnan N) (pget O) (psh O) (pairs_laws O HO) g (pspec X g) Hg (fun k => eq_refl) Qp) in H as [Hgood Hpost]; [|exact Hi|exact Hq|].
        + split; [exact Hgood|]. intros Hr k ->. apply (Hpost Hr). left; reflexivity.
        + intros k [<-|[]]. split; [|apply job_pairs_length]. unfold Qp; cbn [fst snd]. auto 10.
      - injection H as <- <-. split; [apply Good_refl; assumption|]. intros _ k ->. right.
        rewrite Hx; f_equal. destruct Hi as [_ Hc]. destruct (Hc _ _ Hx) as [Hn|Hsp]; [congruence|exact Hsp].
    Qed.

    Lemma pairs_body_good g s s' r pr : rowwise (c_predict c) g -> In pr ps ->
      pairs_body O N c allc s pr = (s', r) -> psh O (e_tab s) = pshape X ->
      Inv (job_pairs X) xl (n_isnan N) (pget O) (pspec X g) s -> keysQ Qp s ->
      Good (job_pairs X) xl (n_isnan N) (pget O) (psh O) (pspec X g) Qp s s' r
      /\ (r = Ok tt -> forall k, fst (fst k) = get_pair_key c pr /\ pair_vals (get_pair_key c pr) (snd (fst k)) (snd k) ->
           Pod (pget O) (pspec X g) s' k).
    Proof.
      intros Hg Hp H Hsh Hi Hq. unfold pairs_body in H.
      set (p := get_pair_key c pr) in *.
      match type of H with (match ?r with Ok _ => _ | Err _ => _ end) = _ => destruct r as [vals|e] eqn:Ev end.
      2:{ injection H as <- <-. split; [apply Good_refl; assumption|discriminate]. }
      assert (Hvals : forall v, In v vals <-> pair_vals p (fst v) (snd v)).
      { intros [v w]; cbn. unfold pair_vals. destruct allc.
        - bsplit Ev. apply dict_get_assoc in E. injection Ev as <-.
          destruct (pshape_assoc X _ p Hsh) as [_ H2]. destruct (H2 _ E) as (_ & Hf & _). rewrite Hf; cbn.
          rewrite in_flat_map. split.
          + intros (a & Ha & Hb). apply in_map_iff in Hb as (b & Hab & Hb). injection Hab as -> ->. auto.
          + intros [Ha Hb]. exists v; split; [exact Ha|]. apply in_map_iff; eauto.
        - bsplit Ev. bsplit Ev. injection Ev as <-. fold X in E, E0. split.
          + intros Hin; eauto 10.
          + intros (a & b & Ha & Hb & Hin). congruence. }
      eapply (loop_good (job_pairs X) xl (n_isnan N) (pget O) (psh O) (pspec X g) Qp (pairs_cell_body O N c p)
        (fun v k => k = (p, fst v, snd v)) (pshape X)) in H as [Hgood Hpost];
        [|intros a a' ra v Hv Hb Hsh' Hi' Hq'; eapply pairs_cell_good; try eassumption;
          [eauto|apply Hvals, Hv]|exact Hsh|exact Hi|exact Hq].
      split; [exact Hgood|]. intros Hr [[p' v] w] [Hk1 Hk2]; cbn in *; subst p'.
      apply (Hpost Hr (v, w)); [|reflexivity]. apply Hvals; exact Hk2.
    Qed.

    Lemma pairs_run_good g s' r : rowwise (c_predict c) g -> Shaped c -> Coherent g c ->
      seq2 (loop (pairs_body O N c allc) ps {| e_log := c_log c; e_tab := c_pairs c; e_b := b_empty |})
           (finish (c_predict c) (np_mean N) (set_pairs O)) = (s', r) ->
      psh O (e_tab s') = pshape X /\ Coh (n_isnan N) (pget O) (pspec X g) (e_tab s')
      /\ (forall k, ~ Qp k -> pget O (e_tab s') k = pget O (c_pairs c) k)
      /\ (r = Ok tt -> forall k, (exists pr, In pr ps /\ fst (fst k) = get_pair_key c pr) ->
            pair_vals (fst (fst k)) (snd (fst k)) (snd k) -> pget O (e_tab s') k = Some (pspec X g k)).
    Proof.
      intros Hg (_ & Hs & _) (_ & Hc & _) H.
      set (s0 := {| e_log := c_log c; e_tab := c_pairs c; e_b := b_empty |}) in H.
      destruct (loop (pairs_body O N c allc) ps s0) as [s1 r1] eqn:El.
      assert (Hi0 : Inv (job_pairs X) xl (n_isnan N) (pget O) (pspec X g) s0).
      { split; [apply batch_ok_empty|exact Hc]. }
      assert (Hq0 : keysQ Qp s0) by (apply keysQ_empty; reflexivity).
      eapply (loop_good (job_pairs X) xl (n_isnan N) (pget O) (psh O) (pspec X g) Qp (pairs_body O N c allc)
        (fun pr k => fst (fst k) = get_pair_key c pr /\ pair_vals (get_pair_key c pr) (snd (fst k)) (snd k)) (pshape X)) in El as [Hgood Hpost];
        [|intros a a' ra f Hf Hb Hsh Hi Hq; eapply pairs_body_good; eassumption|exact Hs|exact Hi0|exact Hq0].
      destruct Hgood as (Gsh & Gi & Gq & Gfr & _).
      destruct r1 as [[]|e]; cbn in H.
      - eapply (finish_good (c_predict c) (np_mean N) (pkey_eqb O) (job_pairs X) (set_pairs O) xl
           (n_isnan N) (pget O) (psh O) (pairs_laws O HO) g (pspec X g) Hg (fun k => eq_refl) Qp) in H as [(Fsh & Fi & _ & Ffr & _) Fpost];
          [|exact Gi|exact Gq|intros k (_ & _ & _ & Hk & _); eapply (grid_nonempty_rows O HO); exact Hk].
        split; [rewrite Fsh, Gsh; exact Hs|]. split; [apply Fi|]. split.
        + intros k Hk. rewrite Ffr, Gfr by exact Hk. reflexivity.
        + intros Hr k (pr & Hpr & Hk) Hv. apply (Fpost Hr). rewrite Hk in Hv. eapply (Hpost eq_refl); [exact Hpr|auto].
      - injection H as <- <-. split; [rewrite Gsh; exact Hs|]. split; [apply Gi|]. split; [exact Gfr|discriminate].
    Qed.
  End Pairs.
End PdProofs.
