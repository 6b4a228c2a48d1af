(** Properties C23, C24 and C68: the additivity index; C21 for the additivity meter. *)
From Verif Require Import Py Num NumR Sorting Frame Rng PdCalc PdSpec PdFacts PdProofs PdTheorems PdErrors PdApi PdMethods MethodSpec
  PdMethodFacts PdMethodRun PdMethodReal PdMethodReal2 Props_Methods2 Additivity.
From Coq Require Import QArith Reals Lra.
Open Scope string_scope.
Open Scope nat_scope.
Open Scope list_scope.

(** ** Real form of the index *)
Section RealIndex.
  Context {C : Type} (rows : list (list C)) (w : nat) (Hw : forall r, In r rows -> length r = w) (h : list C -> R).
  Notation mu := (Rmean (map h rows)).

  (** the sum of the centred first-order effects of a row *)
  Definition effects (r : list C) : R := Rsum (map (fun p => RPD1_at rows h p r - mu)%R (seq 0 w)).
  (** what they leave unexplained, and the variation of the predictions *)
  Definition unexplained : R := Rsum (map (fun r => Rsqr (h r - mu - effects r)) rows).
  Definition variation : R := Rsum (map (fun r => Rsqr (h r - mu)) rows).

  Lemma series_sum_fin (l : list R) : series_sum xR (map Fin l) = Fin (Rsum l).
  Proof.
    unfold series_sum. rewrite <- xR_sum_fin. f_equal. induction l as [|x t IH]; cbn; [reflexivity|]. f_equal. exact IH.
  Qed.

  Lemma additivity_spec_fin :
    additivity_spec xR (fun r => Fin (h r)) rows w = n_sub xR (Fin 1%R) (n_div xR (Fin unexplained) (Fin variation)).
  Proof.
    unfold additivity_spec. change (n_ofZ xR 1) with (Fin 1%R : ext R). f_equal. f_equal.
    - unfold unexplained. rewrite <- xR_sum_fin_map. f_equal. apply map_ext_in. intros r Hr. unfold first_order.
      rewrite (map_ext_in (fun p => n_sub xR (PD1_at xR (fun r => Fin (h r)) rows p r) (np_mean xR (map (fun r => Fin (h r)) rows)))
                 (fun p => Fin (RPD1_at rows h p r - mu)%R)).
      + rewrite xR_sum_fin_map. rewrite <- (map_map h Fin rows), xR_mean_fin.
        2:{ pose proof (in_rows_nonempty rows r Hr). destruct rows; [congruence|discriminate]. }
        cbn -[Rmean]. unfold effects, Rsqr. f_equal. cbn -[Rmean]. unfold Rsqr. f_equal; lra.
      + intros p Hp. apply in_seq in Hp. rewrite (PD1_at_fin rows w Hw h p) by (lia || assumption).
        rewrite <- (map_map h Fin rows), xR_mean_fin; [reflexivity|].
        pose proof (in_rows_nonempty rows r Hr). destruct rows; [congruence|discriminate].
    - unfold variation. rewrite <- series_sum_fin, map_map. f_equal. apply map_ext_in. intros r Hr.
      rewrite (dev_fin rows _ h r (fun r _ => eq_refl) Hr). reflexivity.
  Qed.

  Lemma unexplained_nonneg : (0 <= unexplained)%R.
  Proof. apply Rsum_nonneg. intros x Hx; apply in_map_iff in Hx as (r & <- & _). apply Rle_0_sqr. Qed.
  Lemma variation_nonneg : (0 <= variation)%R.
  Proof. apply Rsum_nonneg. intros x Hx; apply in_map_iff in Hx as (r & <- & _). apply Rle_0_sqr. Qed.

  Lemma Rsum_sqr_map_zero {A} (f : A -> R) l : Rsum (map (fun x => Rsqr (f x)) l) = 0%R -> forall x, In x l -> f x = 0%R.
  Proof. intros H x Hx. rewrite <- (map_map f Rsqr) in H. apply (Rsum_sqr_zero _ H). apply in_map, Hx. Qed.

  Lemma variation_zero : variation = 0%R <-> forall r r', In r rows -> In r' rows -> h r = h r'.
  Proof.
    split.
    - intros H r r' Hr Hr'. pose proof (Rsum_sqr_map_zero _ _ H r Hr). pose proof (Rsum_sqr_map_zero _ _ H r' Hr'). cbn in *. lra.
    - intros H. unfold variation. rewrite (Rsum_map_ext _ (fun _ => 0%R)), Rsum_map_const; [lra|].
      intros r Hr. assert (E : mu = h r).
      { rewrite (Rmean_map_ext h (fun _ => h r)) by (intros; apply H; assumption).
        apply Rmean_map_const, (in_rows_nonempty rows r Hr). }
      rewrite E. unfold Rsqr; lra.
  Qed.

  (** a sum of functions of single columns *)
  Definition additive_model : Prop :=
    exists (k : R) (a : nat -> option C -> R), forall r, length r = w ->
      h r = (k + Rsum (map (fun p => a p (nth_error r p)) (seq 0 w)))%R.

  Lemma Rsum_pick (f f' : nat -> R) p w' s : s <= p < s + w' -> (forall q, q <> p -> f q = f' q) ->
    (Rsum (map f (seq s w')) = Rsum (map f' (seq s w')) + (f p - f' p))%R.
  Proof.
    revert s; induction w' as [|w' IH]; intros s Hp Hf; [lia|]. cbn [seq map]. rewrite !Rsum_cons.
    destruct (Nat.eq_dec s p) as [->|Hne].
    - rewrite (Rsum_map_ext f f' (seq (S p) w')); [lra|]. intros q Hq. apply in_seq in Hq. apply Hf. lia.
    - rewrite (IH (S s)), (Hf s) by (lia || assumption). lra.
  Qed.

  Lemma additive_effects : additive_model -> forall r, In r rows -> effects r = (h r - mu)%R.
  Proof.
    intros (k & a & Ha) r Hr. pose proof (in_rows_nonempty rows r Hr) as Hne.
    set (A := fun p => Rmean (map (fun s => a p (nth_error s p)) rows)).
    assert (Hmu : mu = (k + Rsum (map A (seq 0 w)))%R).
    { rewrite (Rmean_map_ext h (fun s => k + Rsum (map (fun p => a p (nth_error s p)) (seq 0 w)))%R) by (intros s Hs; apply Ha, Hw, Hs).
      rewrite Rmean_map_add, Rmean_map_const by exact Hne. f_equal. unfold A, Rmean at 1. rewrite Rsum_swap.
      unfold Rmean. rewrite map_length. unfold Rdiv. rewrite Rmult_comm, <- Rsum_map_mult. apply Rsum_map_ext. intros p _. rewrite map_length. lra. }
    assert (HF : forall p, p < w -> (RPD1_at rows h p r = mu + (a p (nth_error r p) - A p))%R).
    { intros p Hp. unfold RPD1_at. destruct (nth_error r p) as [v|] eqn:E; [|apply nth_error_None in E; rewrite (Hw r Hr) in E; lia].
      unfold PD1.
      rewrite (Rmean_map_ext _ (fun s => h s + (a p (Some v) - a p (nth_error s p)))%R).
      - rewrite Rmean_map_add, Rmean_map_sub, (Rmean_map_const _ rows Hne). reflexivity.
      - intros s Hs. pose proof (Hw s Hs) as Hs'.
        rewrite !Ha by (rewrite ?with_value_length; rewrite ?Hs'; auto).
        rewrite (Rsum_pick (fun q => a q (nth_error (with_value p v s) q)) (fun q => a q (nth_error s q)) p w 0).
        + rewrite with_value_nth, Nat.eqb_refl by (rewrite Hs'; exact Hp). lra.
        + lia.
        + intros q Hq. rewrite with_value_nth by (rewrite Hs'; exact Hp). destruct (Nat.eqb_spec q p); [contradiction|reflexivity]. }
    unfold effects.
    rewrite (Rsum_map_ext _ (fun p => a p (nth_error r p) - A p)%R).
    - rewrite Rsum_map_sub, Hmu, (Ha r (Hw r Hr)). lra.
    - intros p Hp. apply in_seq in Hp. rewrite HF by lia. lra.
  Qed.

  Lemma additive_unexplained : additive_model -> unexplained = 0%R.
  Proof.
    intros H. unfold unexplained. rewrite (Rsum_map_ext _ (fun _ => 0%R)), Rsum_map_const; [lra|].
    intros r Hr. rewrite (additive_effects H r Hr). unfold Rsqr; lra.
  Qed.

  (** *** Independent columns: the effects are orthogonal projections *)
  Section Orthogonal.
    Context (Hne : rows <> []) (Hi : forall p, p < w -> independent rows p).
    Notation E phi := (Rmean (map phi rows)).
    Notation F p := (RPD1_at rows h p).

    Lemma row_nth r i : In r rows -> i < w -> exists v, nth_error r i = Some v.
    Proof. intros Hr Hi'. destruct (nth_error r i) eqn:Ei; [eauto|]. apply nth_error_None in Ei. rewrite (Hw r Hr) in Ei. lia. Qed.
    Lemma F_swap_same p r s : p < w -> In r rows -> In s rows -> F p (swap_in p r s) = F p s.
    Proof.
      intros Hp Hr Hs. unfold swap_in, RPD1_at. destruct (row_nth s p Hs Hp) as (u & Eu). rewrite Eu.
      rewrite !with_value_nth by (rewrite (Hw r Hr); exact Hp). rewrite Nat.eqb_refl. reflexivity.
    Qed.
    Lemma F_swap_other p q r s : p < w -> q < w -> p <> q -> In r rows -> In s rows -> F p (swap_in q r s) = F p r.
    Proof.
      intros Hp Hq Hpq Hr Hs. unfold swap_in, RPD1_at. destruct (row_nth s q Hs Hq) as (u & Eu). rewrite Eu.
      rewrite !with_value_nth by (rewrite (Hw r Hr); exact Hq). destruct (Nat.eqb_spec p q); [contradiction|]. reflexivity.
    Qed.
    Lemma F_mean_of p s : p < w -> In s rows -> E (fun r => h (swap_in p r s)) = F p s.
    Proof.
      intros Hp Hs. unfold RPD1_at. destruct (row_nth s p Hs Hp) as (u & Eu). rewrite Eu.
      unfold PD1. apply Rmean_map_ext. intros r Hr. unfold swap_in. rewrite Eu. reflexivity.
    Qed.

    Lemma E_F p : p < w -> E (F p) = mu.
    Proof.
      intros Hp. rewrite (independent_mean rows p h Hne (Hi p Hp)), Rmean_swap. apply Rmean_map_ext.
      intros s Hs. symmetry. apply F_mean_of; assumption.
    Qed.

    (** E[(h - mu)(F_p - mu)] = E[(F_p - mu)^2] *)
    Lemma E_hF p : p < w -> E (fun r => (h r - mu) * (F p r - mu))%R = E (fun r => Rsqr (F p r - mu)).
    Proof.
      intros Hp. rewrite (independent_mean rows p _ Hne (Hi p Hp)), Rmean_swap. apply Rmean_map_ext. intros s Hs.
      rewrite (Rmean_map_ext _ (fun r => (F p s - mu) * (h (swap_in p r s) - mu))%R).
      - rewrite Rmean_map_mult, Rmean_map_sub, F_mean_of, (Rmean_map_const _ rows Hne) by assumption. reflexivity.
      - intros r Hr. rewrite F_swap_same by assumption. lra.
    Qed.

    Lemma E_FF p q : p < w -> q < w -> p <> q -> E (fun r => (F p r - mu) * (F q r - mu))%R = 0%R.
    Proof.
      intros Hp Hq Hpq. rewrite (independent_mean rows q _ Hne (Hi q Hq)).
      rewrite (Rmean_map_ext _ (fun _ => 0%R)); [apply Rmean_map_const, Hne|]. intros r Hr.
      rewrite (Rmean_map_ext _ (fun s => (F p r - mu) * (F q s - mu))%R).
      - rewrite Rmean_map_mult, Rmean_map_sub, E_F, (Rmean_map_const _ rows Hne) by assumption. lra.
      - intros s Hs. rewrite F_swap_same, F_swap_other by assumption. reflexivity.
    Qed.

    Lemma E_sum {A} (f : A -> list C -> R) (l : list A) : E (fun r => Rsum (map (fun p => f p r) l)) = Rsum (map (fun p => E (f p)) l).
    Proof.
      induction l as [|p t IH].
      - cbn [map]. rewrite (Rmean_map_ext _ (fun _ => 0%R)) by reflexivity. rewrite (Rmean_map_const _ rows Hne). reflexivity.
      - cbn [map]. rewrite (Rmean_map_ext _ (fun r => f p r + Rsum (map (fun q => f q r) t))%R) by reflexivity.
        rewrite Rmean_map_add, IH, Rsum_cons. reflexivity.
    Qed.

    (** the sum of the variances of the first-order effects *)
    Definition explained : R := Rsum (map (fun p => E (fun r => Rsqr (F p r - mu))) (seq 0 w)).

    Lemma E_h_effects : E (fun r => (h r - mu) * effects r)%R = explained.
    Proof.
      rewrite (Rmean_map_ext _ (fun r => Rsum (map (fun p => (h r - mu) * (F p r - mu))%R (seq 0 w)))).
      - rewrite (E_sum (fun p r => (h r - mu) * (F p r - mu))%R). apply Rsum_map_ext. intros p Hp. apply in_seq in Hp. apply E_hF. lia.
      - intros r _. unfold effects. rewrite <- Rsum_map_mult. reflexivity.
    Qed.

    Lemma E_effects2 : E (fun r => Rsqr (effects r)) = explained.
    Proof.
      rewrite (Rmean_map_ext _ (fun r => Rsum (map (fun p => Rsum (map (fun q => (F p r - mu) * (F q r - mu))%R (seq 0 w))) (seq 0 w)))).
      - rewrite (E_sum (fun p r => Rsum (map (fun q => (F p r - mu) * (F q r - mu))%R (seq 0 w)))). apply Rsum_map_ext. intros p Hp. apply in_seq in Hp.
        rewrite (E_sum (fun q r => (F p r - mu) * (F q r - mu))%R).
        assert (Hin : forall w' s, s + w' <= w -> (Rsum (map (fun q => E (fun r => (F p r - mu) * (F q r - mu))) (seq s w'))
                  = if (s <=? p) && (p <? s + w') then E (fun r => Rsqr (F p r - mu)) else 0)%R).
        { induction w' as [|w' IH]; intros s Hs; cbn [seq map].
          - destruct (Nat.leb_spec s p), (Nat.ltb_spec p (s + 0)); cbn; try reflexivity. lia.
          - rewrite Rsum_cons, IH by lia. destruct (Nat.eq_dec s p) as [->|Hn].
            + rewrite Nat.leb_refl. destruct (Nat.leb_spec (S p) p), (Nat.ltb_spec p (p + S w')); cbn [andb]; try lia.
              unfold Rsqr. lra.
            + rewrite E_FF by lia.
              destruct (Nat.leb_spec s p), (Nat.ltb_spec p (s + S w')), (Nat.leb_spec (S s) p), (Nat.ltb_spec p (S s + w')); cbn [andb]; try lia; lra. }
        rewrite Hin by lia. destruct (Nat.leb_spec 0 p), (Nat.ltb_spec p (0 + w)); cbn [andb]; try lia. reflexivity.
      - intros r _. unfold effects, Rsqr. rewrite <- Rsum_map_mult. apply Rsum_map_ext. intros p _. rewrite Rsum_map_mult. lra.
    Qed.

    (** variance decomposition *)
    Lemma E_unexplained : E (fun r => Rsqr (h r - mu - effects r)) = (E (fun r => Rsqr (h r - mu)) - explained)%R.
    Proof.
      rewrite (Rmean_map_ext _ (fun r => Rsqr (h r - mu) + (Rsqr (effects r) + (- 2) * ((h r - mu) * effects r)))%R) by (intros; unfold Rsqr; lra).
      rewrite !Rmean_map_add, Rmean_map_mult, E_effects2, E_h_effects. lra.
    Qed.

    Lemma unexplained_le : (unexplained <= variation)%R.
    Proof.
      assert (Hx : (0 <= explained)%R).
      { apply Rsum_nonneg. intros x Hx. apply in_map_iff in Hx as (p & <- & _). apply Rmean_nonneg.
        intros y Hy. apply in_map_iff in Hy as (r & <- & _). apply Rle_0_sqr. }
      pose proof E_unexplained as H. unfold Rmean in H at 1 3. rewrite !map_length in H.
      fold unexplained variation in H. pose proof (INR_pos_length rows Hne) as Hn.
      assert (Hu : (unexplained = variation - INR (length rows) * explained)%R).
      { apply (f_equal (Rmult (INR (length rows)))) in H. field_simplify in H; lra. }
      rewrite Hu. pose proof (Rmult_le_pos _ _ (Rlt_le _ _ Hn) Hx). lra.
    Qed.
  End Orthogonal.
End RealIndex.

Section Props.
  Context {C G : Type} (O : cell_ops C) (HO : cell_ok O) (R : rng_ops G) (HR : rng_ok R).
  Notation fitR := (add_fit O xR R).
  Notation no_clash a := (~ In "centered_prediction" (f_cols (aa_X a))).

  Lemma frame_width {A} (X : frame A) : wf_frame X -> forall r, In r (f_rows X) -> length r = length (f_cols X).
  Proof. intros (_ & H & _) r Hr. rewrite Forall_forall in H. auto. Qed.

  Lemma index_real s a s' v h Xs : wf_frame (aa_X a) -> fitR s a = (s', Ok v) -> ad_X s' = Some Xs ->
    add_explains O xR a (fun r => Fin (h r)) Xs -> no_clash a ->
    (forall r, In r (f_rows Xs) -> length r = length (f_cols Xs))
    /\ v = n_sub xR (Fin 1%R) (n_div xR (Fin (unexplained (f_rows Xs) (length (f_cols Xs)) h)) (Fin (variation (f_rows Xs) h))).
  Proof.
    intros HX H HXs He Hcp.
    destruct (add_fit_spec O xR R HO eq_refl HR s a s' v _ Xs HX H HXs He Hcp) as (HwX & _ & _ & -> & _).
    split; [apply frame_width, HwX|]. apply additivity_spec_fin, frame_width, HwX.
  Qed.

  (** ** C23 *)
  Theorem C23_additive_model s a s' v h Xs : wf_frame (aa_X a) -> fitR s a = (s', Ok v) -> ad_X s' = Some Xs ->
    add_explains O xR a (fun r => Fin (h r)) Xs -> no_clash a ->
    additive_model (length (f_cols Xs)) h ->
    (exists r r', In r (f_rows Xs) /\ In r' (f_rows Xs) /\ h r <> h r') ->
    v = Fin 1%R /\ ad_index s' = Some (Fin 1%R).
  Proof.
    intros HX H HXs He Hcp Hadd (r & r' & Hr & Hr' & Hd).
    destruct (index_real s a s' v h Xs HX H HXs He Hcp) as [Hw Hv].
    rewrite (additive_unexplained (f_rows Xs) _ Hw h Hadd), xR_div_fin in Hv.
    - assert (v = Fin 1%R) as -> by (rewrite Hv; cbn; f_equal; unfold Rdiv; lra). split; [reflexivity|].
      destruct (add_fit_spec O xR R HO eq_refl HR s a s' _ _ Xs HX H HXs He Hcp) as (_ & _ & E & _). exact E.
    - intros E. apply Hd. apply (proj1 (variation_zero (f_rows Xs) h) E); assumption.
  Qed.

  (** the index is at most 1 (minus infinity or NaN when the predictions are constant) and it
      is the documented share of variation whenever the predictions vary *)
  Theorem C23_at_most_one s a s' v h Xs : wf_frame (aa_X a) -> fitR s a = (s', Ok v) -> ad_X s' = Some Xs ->
    add_explains O xR a (fun r => Fin (h r)) Xs -> no_clash a ->
    n_ltb xR (Fin 1%R) v = false
    /\ ((exists x, v = Fin x) <-> exists r r', In r (f_rows Xs) /\ In r' (f_rows Xs) /\ h r <> h r')
    /\ (forall x, v = Fin x -> x = 1 - unexplained (f_rows Xs) (length (f_cols Xs)) h / variation (f_rows Xs) h)%R.
  Proof.
    intros HX H HXs He Hcp. destruct (index_real s a s' v h Xs HX H HXs He Hcp) as [Hw ->].
    pose proof (unexplained_nonneg (f_rows Xs) (length (f_cols Xs)) h) as Hu.
    pose proof (variation_nonneg (f_rows Xs) h) as Hv.
    destruct (Req_dec (variation (f_rows Xs) h) 0) as [E|E].
    - rewrite E, xR_div_zero.
      assert (Hno : ~ exists r r', In r (f_rows Xs) /\ In r' (f_rows Xs) /\ h r <> h r').
      { intros (r & r' & Hr & Hr' & Hd). apply Hd. apply (proj1 (variation_zero (f_rows Xs) h) E); assumption. }
      destruct (Rltb 0 _) eqn:E1; [|destruct (Rltb _ 0) eqn:E2].
      + cbn. repeat split; try discriminate; [intros [? ?]; discriminate|tauto].
      + apply Rltb_spec in E2. lra.
      + cbn. repeat split; try discriminate; [intros [? ?]; discriminate|tauto].
    - rewrite xR_div_fin by exact E. cbn. split; [|split].
      + apply Rltb_false.
        assert (0 <= unexplained (f_rows Xs) (length (f_cols Xs)) h / variation (f_rows Xs) h)%R; [|lra].
        apply Rmult_le_pos; [exact Hu|]. apply Rlt_le, Rinv_0_lt_compat. lra.
      + split; [intros _|eauto].
        destruct (f_rows Xs) as [|r0 t] eqn:Er; [exfalso; apply E; reflexivity|].
        assert (Hex : (exists r, In r (r0 :: t) /\ h r <> h r0) \/ forall r, In r (r0 :: t) -> h r = h r0).
        { clear. induction (r0 :: t) as [|a l IH]; [right; intros r []|]. destruct IH as [(r & Hr & Hd)|IH].
          - left; exists r; cbn; auto.
          - destruct (Req_dec (h a) (h r0)) as [Ha|Ha]; [|left; exists a; cbn; auto]. right. intros r [<-|Hr]; auto. }
        destruct Hex as [(r & Hr & Hd)|Hall]; [exists r, r0; cbn in *; auto|].
        exfalso. apply E, variation_zero. intros r r' Hr Hr'. rewrite (Hall r), (Hall r') by assumption. reflexivity.
      + intros x Hx. injection Hx as <-. reflexivity.
  Qed.

  (** it is 1 only if on every row the centred first-order effects add up to the centred prediction *)
  Theorem C23_one_means_additive s a s' h Xs : wf_frame (aa_X a) -> fitR s a = (s', Ok (Fin 1%R)) -> ad_X s' = Some Xs ->
    add_explains O xR a (fun r => Fin (h r)) Xs -> no_clash a ->
    forall r, In r (f_rows Xs) ->
      (Rsum (map (fun p => RPD1_at (f_rows Xs) h p r - Rmean (map h (f_rows Xs))) (seq 0 (length (f_cols Xs))))
       = h r - Rmean (map h (f_rows Xs)))%R.
  Proof.
    intros HX H HXs He Hcp r Hr. destruct (C23_at_most_one s a s' _ h Xs HX H HXs He Hcp) as (_ & Hfin & Hval).
    specialize (Hval _ eq_refl).
    assert (Hv : variation (f_rows Xs) h <> 0%R).
    { intros E. destruct (proj1 Hfin) as (r1 & r2 & H1 & H2 & Hd); [eauto|].
      apply Hd. apply (proj1 (variation_zero (f_rows Xs) h) E); assumption. }
    assert (Hu : unexplained (f_rows Xs) (length (f_cols Xs)) h = 0%R).
    { assert (unexplained (f_rows Xs) (length (f_cols Xs)) h / variation (f_rows Xs) h = 0)%R as E by lra.
      apply (f_equal (fun x => x * variation (f_rows Xs) h)%R) in E. unfold Rdiv in E.
      rewrite Rmult_assoc, Rinv_l, Rmult_0_l, Rmult_1_r in E by exact Hv. exact E. }
    pose proof (Rsum_sqr_map_zero _ _ Hu r Hr) as Hz. cbn in Hz. unfold effects in Hz. lra.
  Qed.

  (** ** C24: with the empirical independence of the columns (for instance a full factorial
      design) the index lies in [0, 1].  Missing: arbitrary data, where it is false. *)
  Theorem C24_in_unit_interval_partial s a s' v h Xs : wf_frame (aa_X a) -> fitR s a = (s', Ok v) -> ad_X s' = Some Xs ->
    add_explains O xR a (fun r => Fin (h r)) Xs -> no_clash a ->
    (forall p, p < length (f_cols Xs) -> independent (f_rows Xs) p) ->
    (exists r r', In r (f_rows Xs) /\ In r' (f_rows Xs) /\ h r <> h r') ->
    exists x, v = Fin x /\ (0 <= x <= 1)%R.
  Proof.
    intros HX H HXs He Hcp Hi Hnc. destruct (index_real s a s' v h Xs HX H HXs He Hcp) as [Hw _].
    destruct (C23_at_most_one s a s' v h Xs HX H HXs He Hcp) as (Hle & Hfin & Hval).
    destruct (proj2 Hfin Hnc) as (x & ->). exists x. split; [reflexivity|]. cbn in Hle. apply Rltb_false in Hle.
    split; [|exact Hle]. rewrite (Hval x eq_refl).
    destruct Hnc as (r & r' & Hr & Hr' & Hd). pose proof (in_rows_nonempty _ _ Hr) as Hne.
    assert (Hv : variation (f_rows Xs) h <> 0%R) by (intros E; apply Hd, (proj1 (variation_zero (f_rows Xs) h) E); assumption).
    pose proof (variation_nonneg (f_rows Xs) h) as Hv0.
    pose proof (unexplained_le (f_rows Xs) _ Hw h Hne Hi) as Hu.
    assert (unexplained (f_rows Xs) (length (f_cols Xs)) h / variation (f_rows Xs) h <= 1)%R; [|lra].
    apply (Rmult_le_reg_r (variation (f_rows Xs) h)); [lra|]. unfold Rdiv. rewrite Rmult_assoc, Rinv_l by exact Hv. lra.
  Qed.
End Props.

Section General.
  Context {C V G : Type} (O : cell_ops C) (N : num_ops V) (HO : cell_ok O) (HN : num_ord_ok N) (R : rng_ops G) (HR : rng_ok R).
  Notation Hnan := (no_isnan_nan N HN).

  Definition add_explains_total (a : aargs C V) (g : list C -> V) (Xs : frame C) : Prop :=
    rowwise (callable (aa_pf a)) g /\ total (callable (aa_pf a))
    /\ match aa_calc a with None => True
       | Some c => exists P b, reachable O N (md_id (aa_model a)) Xs P b c /\ rowwise P g /\ total P end.

  (** with complete data and a model that always answers, [fit] returns *)
  Theorem C23_fit_returns s a g Xs rng' : wf_frame (aa_X a) ->
    sample_if_not_none R (ad_rng s) (aa_X a) (aa_n a) = Ok (Xs, rng') -> add_explains_total a g Xs -> complete O Xs ->
    exists s' v, add_fit O N R s a = (s', Ok v) /\ ad_X s' = Some Xs /\ ad_index s' = Some v.
  Proof.
    intros HX0 Es (Hpf & Htp & Hc) Hcomp. destruct (sample_wf R _ _ _ _ _ HR HX0 Es) as (HX & _).
    assert (Hpick : exists c P b, pick_calc O N (aa_model a) Xs (aa_pf a) (aa_batch a) (aa_calc a) = Ok c
              /\ reachable O N (md_id (aa_model a)) Xs P b c /\ rowwise P g /\ total P).
    { destruct (aa_calc a) as [c0|].
      - destruct Hc as (P & b & Hr & Hg & Ht). exists c0, P, b. split; [|auto]. eapply (pick_calc_ok O N HO); [exact HX|exact Hr|reflexivity].
      - exists (calc_init O N (md_id (aa_model a)) Xs (callable (aa_pf a)) (aa_batch a)), (callable (aa_pf a)), (aa_batch a).
        split; [reflexivity|]. split; [exists []; reflexivity|auto]. }
    destruct Hpick as (c & P & b & Ec & Hr & Hg & Ht).
    destruct (single_run O N HO Xs P b _ c None HX Ht Hcomp Hr (fun f H => H)) as (c1 & E1 & _).
    destruct (Htp (length (c_log c1)) (f_rows Xs)) as (preds & Ep).
    unfold add_fit. rewrite Es, Ec, E1, Ep, (effects_of O N HO Hnan Xs c c1 _ P b g HX Hg Hr E1). cbn [bind].
    apply Hpf in Ep. subst preds. rewrite map_length, Nat.eqb_refl.
    destruct (additivity_of N _ _) as [full v]. eexists _, v. split; [reflexivity|]. split; reflexivity.
  Qed.

  (** C21 for the additivity meter: the index does not depend on the calculator supplied *)
  Theorem C21_additivity_same s1 a1 s1' v1 s2 a2 s2' v2 g Xs :
    wf_frame (aa_X a1) -> wf_frame (aa_X a2) -> ~ In "centered_prediction" (f_cols (aa_X a1)) -> f_cols (aa_X a1) = f_cols (aa_X a2) ->
    add_fit O N R s1 a1 = (s1', Ok v1) -> ad_X s1' = Some Xs -> add_explains O N a1 g Xs ->
    add_fit O N R s2 a2 = (s2', Ok v2) -> ad_X s2' = Some Xs -> add_explains O N a2 g Xs -> v1 = v2.
  Proof.
    intros HX1 HX2 Hcp Hcols H1 E1 He1 H2 E2 He2.
    destruct (add_fit_spec O N R HO Hnan HR s1 a1 s1' v1 g Xs HX1 H1 E1 He1 Hcp) as (_ & _ & _ & -> & _).
    rewrite Hcols in Hcp.
    destruct (add_fit_spec O N R HO Hnan HR s2 a2 s2' v2 g Xs HX2 H2 E2 He2 Hcp) as (_ & _ & _ & -> & _). reflexivity.
  Qed.

  (** C22/C66 for the additivity meter: a calculator made for other data or another model is
      rejected and the previous index stays *)
  Theorem C21_additivity_rejected s a c Xs rng' : sample_if_not_none R (ad_rng s) (aa_X a) (aa_n a) = Ok (Xs, rng') ->
    aa_calc a = Some c -> (c_model c <> md_id (aa_model a) \/ frame_equals O (c_X c) Xs = false) ->
    exists s', add_fit O N R s a = (s', Err ValueError) /\ ad_index s' = ad_index s /\ ad_calc s' = ad_calc s.
  Proof.
    intros Es Ec Hbad. unfold add_fit. rewrite Es, Ec. unfold pick_calc.
    destruct (Nat.eqb_spec (c_model c) (md_id (aa_model a))) as [Em|Em]; cbn [negb].
    - destruct Hbad as [?| ->]; [contradiction|]. cbn [negb]. eexists; split; [reflexivity|]. cbn. auto.
    - eexists; split; [reflexivity|]. cbn. auto.
  Qed.

  (** ** C68: the index depends on nothing but the model's function and the data, in particular
      not on the column names (except for one name) *)
  Definition renamed (X Y : frame C) : Prop := f_rows X = f_rows Y /\ length (f_cols X) = length (f_cols Y).
  Theorem C68_names_irrelevant_partial s1 a1 s1' v1 s2 a2 s2' v2 g Xs1 Xs2 :
    wf_frame (aa_X a1) -> wf_frame (aa_X a2) -> renamed Xs1 Xs2 ->
    ~ In "centered_prediction" (f_cols (aa_X a1)) -> ~ In "centered_prediction" (f_cols (aa_X a2)) ->
    add_fit O N R s1 a1 = (s1', Ok v1) -> ad_X s1' = Some Xs1 -> add_explains O N a1 g Xs1 ->
    add_fit O N R s2 a2 = (s2', Ok v2) -> ad_X s2' = Some Xs2 -> add_explains O N a2 g Xs2 -> v1 = v2.
  Proof.
    intros HX1 HX2 [Hr Hl] Hc1 Hc2 H1 E1 He1 H2 E2 He2.
    destruct (add_fit_spec O N R HO Hnan HR s1 a1 s1' v1 g Xs1 HX1 H1 E1 He1 Hc1) as (_ & _ & _ & -> & _).
    destruct (add_fit_spec O N R HO Hnan HR s2 a2 s2' v2 g Xs2 HX2 H2 E2 He2 Hc2) as (_ & _ & _ & -> & _).
    rewrite Hr, Hl. reflexivity.
  Qed.
End General.

(** ** Concrete runs *)
Definition mkadd {C V} (P : nat -> list (list C) -> result (list V)) (X : frame C) : aargs C V :=
  {| aa_model := {| md_id := 0; md_proba1 := None; md_predict := Some P |}; aa_X := X; aa_n := None; aa_predict := None; aa_batch := 2000; aa_calc := None |}.
Definition ad0 {V} : astate Z V nat := {| ad_rng := 0; ad_calc := None; ad_X := None; ad_preds := None; ad_full := None; ad_index := None |}.

Definition adX (names : list string) rows : frame Z :=
  {| f_cols := names; f_index := map Z.of_nat (seq 0 (length rows)); f_num := names; f_rows := rows |}.
Definition ad_fun (k : Z -> Z -> Z) (r : list Z) : ext Q := match r with [x; y] => Fin (inject_Z (k x y)) | _ => NaN end.
Definition adP k : nat -> list (list Z) -> result (list (ext Q)) := fun _ rows => Ok (map (ad_fun k) rows).
Lemma adP_rowwise k : rowwise (adP k) (ad_fun k). Proof. intros n rows ys H. unfold adP in H. congruence. Qed.

(** an additive model on correlated data; a product on a factorial design *)
Example C23_example_run :
  snd (add_fit Zcell xQ rotR ad0 (mkadd (adP (fun x y => 2 * x + y * y)%Z) (adX ["a"; "b"] [[0;0];[1;3];[2;1];[2;2]]%Z))) = Ok (Fin 1%Q)
  /\ snd (add_fit Zcell xQ rotR ad0 (mkadd (adP (fun x y => x * y)%Z) (adX ["a"; "b"] [[0;0];[0;1];[1;0];[1;1]]%Z))) = Ok (Fin (2 # 3)%Q).
Proof. split; vm_compute; reflexivity. Qed.

(** C24 is false: the index of this model on two rows is -399/1 *)
Theorem C24_in_unit_interval_refuted :
  exists (a : aargs Z (ext Q)) s' v k, wf_frame (aa_X a) /\ add_explains Zcell xQ a (ad_fun k) (aa_X a)
    /\ ~ In "centered_prediction" (f_cols (aa_X a))
    /\ add_fit Zcell xQ rotR ad0 a = (s', Ok v) /\ n_ltb xQ v (Fin 0%Q) = true.
Proof.
  exists (mkadd (adP (fun x y => if (x =? y)%Z then x else 10)%Z) (adX ["a"; "b"] [[0;0];[1;1]]%Z)).
  eexists _, _, (fun x y => if (x =? y)%Z then x else 10)%Z. split; [repeat constructor; cbn; intuition congruence|].
  split; [split; [apply adP_rowwise|exact I]|]. split; [cbn; intuition congruence|].
  split; [vm_compute; reflexivity|vm_compute; reflexivity].
Qed.

(** C68 is false for the name "centered_prediction": the same rows and model give an index
    below 1 under other names, and 1 under this one *)
Theorem C68_names_irrelevant_refuted :
  exists (a1 a2 : aargs Z (ext Q)) s1 s2 v1 v2 k, wf_frame (aa_X a1) /\ wf_frame (aa_X a2) /\ renamed (aa_X a1) (aa_X a2)
    /\ add_explains Zcell xQ a1 (ad_fun k) (aa_X a1) /\ add_explains Zcell xQ a2 (ad_fun k) (aa_X a2)
    /\ add_fit Zcell xQ rotR ad0 a1 = (s1, Ok v1) /\ add_fit Zcell xQ rotR ad0 a2 = (s2, Ok v2)
    /\ n_ltb xQ v1 (Fin 1%Q) = true /\ v2 = Fin 1%Q.
Proof.
  exists (mkadd (adP Z.mul) (adX ["a"; "b"] [[0;0];[0;1];[1;0];[1;1]]%Z)),
         (mkadd (adP Z.mul) (adX ["centered_prediction"; "b"] [[0;0];[0;1];[1;0];[1;1]]%Z)).
  eexists _, _, _, _, Z.mul. do 2 (split; [repeat constructor; cbn; intuition congruence|]).
  split; [split; reflexivity|]. do 2 (split; [split; [apply adP_rowwise|exact I]|]).
  do 2 (split; [vm_compute; reflexivity|]). split; vm_compute; reflexivity.
Qed.

(** the hypotheses of the real theorems are met by a concrete model and data set *)
Definition adXR : frame Z := adX ["a"; "b"] [[0;0];[0;1];[1;0];[1;1]]%Z.
Definition adhR (r : list Z) : R := match r with [x; y] => (IZR x + 2 * IZR y)%R | _ => 0%R end.
Definition adRP : nat -> list (list Z) -> result (list (ext R)) := fun _ rows => Ok (map (fun r => Fin (adhR r)) rows).
Example C23_example_real :
  exists s' v, add_fit Zcell xR rotR ad0 (mkadd adRP adXR) = (s', Ok v) /\ ad_X s' = Some adXR
    /\ wf_frame adXR /\ add_explains Zcell xR (mkadd adRP adXR) (fun r => Fin (adhR r)) adXR
    /\ additive_model 2 adhR /\ (exists r r', In r (f_rows adXR) /\ In r' (f_rows adXR) /\ adhR r <> adhR r')
    /\ (forall p, p < 2 -> independent (f_rows adXR) p) /\ v = Fin 1%R.
Proof.
  assert (Hw : wf_frame adXR) by (repeat constructor; cbn; intuition congruence).
  assert (Hrow : rowwise adRP (fun r => Fin (adhR r))) by (intros n rows ys H; unfold adRP in H; congruence).
  assert (Hex : add_explains Zcell xR (mkadd adRP adXR) (fun r => Fin (adhR r)) adXR) by (split; [exact Hrow|exact I]).
  assert (Hadd : additive_model 2 adhR).
  { exists 0%R, (fun p v => match p, v with 0, Some x => IZR x | _, Some x => (2 * IZR x)%R | _, None => 0%R end).
    intros [|x [|y [|]]] Hr; cbn in Hr; try lia. cbn [seq map nth_error adhR]. rewrite !Rsum_cons, Rsum_nil. lra. }
  assert (Hnc : exists r r', In r (f_rows adXR) /\ In r' (f_rows adXR) /\ adhR r <> adhR r').
  { exists [0;0]%Z, [1;0]%Z. cbn. repeat split; [auto|auto|lra]. }
  destruct (C23_fit_returns Zcell xR Zcell_ok xR_ord rotR rotR_ok ad0 (mkadd adRP adXR) (fun r => Fin (adhR r)) adXR 0 Hw eq_refl) as (s' & v & E & EX & _).
  - split; [exact Hrow|]. split; [|exact I]. intros n rows. eexists; reflexivity.
  - intros f p v _ _. unfold c_isnan. cbn. rewrite Z.eqb_refl. reflexivity.
  - exists s', v. split; [exact E|]. split; [exact EX|]. split; [exact Hw|]. split; [exact Hex|]. split; [exact Hadd|].
    split; [exact Hnc|]. split.
    + intros p Hp. assert (Hp' : p = 0 \/ p = 1) by lia. destruct Hp' as [->| ->].
      * exact (proj1 C16_example).
      * exact (proj2 C16_example).
    + destruct (C23_additive_model Zcell Zcell_ok rotR rotR_ok ad0 (mkadd adRP adXR) s' v adhR adXR Hw E EX Hex) as [-> _]; auto.
      cbn. intuition congruence.
Qed.

Print Assumptions C23_additive_model.
Print Assumptions C23_at_most_one.
Print Assumptions C23_one_means_additive.
Print Assumptions C24_in_unit_interval_partial.
Print Assumptions C23_fit_returns.
Print Assumptions C21_additivity_same.
Print Assumptions C21_additivity_rejected.
Print Assumptions C68_names_irrelevant_partial.
Print Assumptions C24_in_unit_interval_refuted.
Print Assumptions C68_names_irrelevant_refuted.
