(** Property C135: what the values measure.  The H statistic is the standard deviation of the
    interaction term of the model; where the columns are independent in the data the values are
    shares of variance. *)
From Verif Require Import Py Num NumR Sorting Frame Rng PdCalc PdSpec PdFacts PdProofs PdTheorems PdErrors PdApi PdMethods MethodSpec
  PdMethodFacts PdMethodRun PdMethodReal PdMethodReal2 GreenwellFacts Props_Pd Props_Methods Props_Methods2 Additivity Props_Additivity Views Props_Views Props_Terms.
From Coq Require Import Reals Lra QArith.
Open Scope string_scope.
Open Scope nat_scope.
Open Scope list_scope.

(** ** Specification *)

(** the mean of the squared distances from the mean *)
Definition variance (l : list R) : R := Rmean (map (fun x => Rsqr (x - Rmean l)) l).

(** the term [z] averages to zero over the data when cell [p] is held at a value of its column *)
Definition fades_alone {C} (rows : list (list C)) (z : list C -> R) (p : nat) : Prop :=
  forall r v, In r rows -> nth_error r p = Some v -> Rmean (map (fun s => z (with_value p v s)) rows) = 0%R.
(** the same when cells [p] and [q] are held at the values of a row *)
Definition fades_together {C} (rows : list (list C)) (z : list C -> R) (p q : nat) : Prop :=
  forall r v u, In r rows -> nth_error r p = Some v -> nth_error r q = Some u ->
    Rmean (map (fun s => z (with_value q u (with_value p v s))) rows) = 0%R.
(** the same when all cells but [p] are held at the values of a row *)
Definition fades_without {C} (rows : list (list C)) (z : list C -> R) (p : nat) : Prop :=
  forall r, In r rows -> Rmean (map (fun s => match nth_error s p with Some v => z (with_value p v r) | None => 0%R end) rows) = 0%R.

(** ** Facts about variances *)
Lemma variance_map {A} (f : A -> R) rows : variance (map f rows) = Rmean (map (fun r => Rsqr (rdev rows f r)) rows).
Proof. unfold variance. rewrite map_map. reflexivity. Qed.
Lemma Rsum_mean {A} (phi : A -> R) rows : rows <> [] -> Rsum (map phi rows) = (INR (length rows) * Rmean (map phi rows))%R.
Proof. intros Hne. pose proof (INR_pos_length rows Hne). unfold Rmean. rewrite map_length. field. lra. Qed.
Lemma variance_nonneg l : (0 <= variance l)%R.
Proof. apply Rmean_nonneg. intros y Hy. apply in_map_iff in Hy as (r & <- & _). apply Rle_0_sqr. Qed.

Lemma RHden_variance {A} (rows : list A) f : rows <> [] -> RHden rows f = (INR (length rows) * variance (map f rows))%R.
Proof. intros Hne. unfold RHden. rewrite Rsum_mean, variance_map by exact Hne. reflexivity. Qed.

(** the statistic of orthogonal effects *)
Lemma RHnum_orthogonal {A} (rows : list A) f f1 f2 : rows <> [] ->
  Rmean (map (fun r => rdev rows f r * rdev rows f1 r)%R rows) = variance (map f1 rows) ->
  Rmean (map (fun r => rdev rows f r * rdev rows f2 r)%R rows) = variance (map f2 rows) ->
  Rmean (map (fun r => rdev rows f1 r * rdev rows f2 r)%R rows) = 0%R ->
  RHnum rows f f1 f2 = (INR (length rows) * (variance (map f rows) - variance (map f1 rows) - variance (map f2 rows)))%R.
Proof.
  intros Hne A1 A2 A3. unfold RHnum. rewrite Rsum_mean by exact Hne. f_equal.
  rewrite (Rmean_map_ext _ (fun r => (Rsqr (rdev rows f r) + Rsqr (rdev rows f1 r) + Rsqr (rdev rows f2 r))
       + ((-2) * (rdev rows f r * rdev rows f1 r) + ((-2) * (rdev rows f r * rdev rows f2 r) + 2 * (rdev rows f1 r * rdev rows f2 r))))%R) by (intros; unfold Rsqr; lra).
  rewrite !Rmean_map_add, !Rmean_map_mult, A1, A2, A3, !variance_map. lra.
Qed.

(** the value reported for a statistic whose numerator is [n] times a variance *)
Lemma root_of_mean n x : (0 < n)%R -> (0 <= x)%R -> or_zero xR (n_sqrt xR (n_div xR (Fin (n * x)%R) (Fin n))) = Fin (sqrt x).
Proof.
  intros Hn Hx. rewrite xR_div_fin by lra. replace (n * x / n)%R with x by (field; lra). rewrite xR_sqrt_fin by exact Hx. reflexivity.
Qed.

Section Pair.
  Context {C : Type} (rows : list (list C)) (w : nat) (Hw : forall r, In r rows -> length r = w) (Hne : rows <> []).

  Let Hl r j x : In r rows -> j < w -> length (with_value j x r) = w.
  Proof. intros Hr Hj. rewrite with_value_length by (rewrite (Hw r Hr); exact Hj). apply Hw, Hr. Qed.
  Let Hnth r j : In r rows -> j < w -> exists v, nth_error r j = Some v.
  Proof. intros Hr Hj. destruct (nth_error r j) eqn:E; [eauto|]. apply nth_error_None in E. rewrite (Hw r Hr) in E. lia. Qed.

  (** the pair statistic of a sum of terms *)
  Lemma H_pair_term h e (g : option C -> option C -> R) z p q : p <> q -> p < w -> q < w ->
    (forall r, length r = w -> h r = e r + (g (nth_error r p) (nth_error r q) + z r))%R ->
    not_together w e p q ->
    fades_alone rows (fun r => g (nth_error r p) (nth_error r q)) p -> fades_alone rows (fun r => g (nth_error r p) (nth_error r q)) q ->
    fades_alone rows z p -> fades_alone rows z q -> fades_together rows z p q ->
    or_zero xR (H_pair xR (fun r => Fin (h r)) rows false p q) = Fin (sqrt (variance (map (fun r => g (nth_error r p) (nth_error r q)) rows))).
  Proof.
    intros Hpq Hp Hq Hh He Gp Gq Zp Zq Z. set (g' := fun r => g (nth_error r p) (nth_error r q)) in *. set (k := fun r => (g' r + z r)%R).
    rewrite (H_pair_terms rows w Hw k e h (fun r Hr => eq_trans (Hh r Hr) (Rplus_comm _ _)) false p q Hpq Hp Hq He).
    unfold H_pair. rewrite (H_value_fin rows false _ _ _ (RPD2_at rows k p q) (RPD1_at rows k p) (RPD1_at rows k q)) by (first [apply (PD2_at_fin rows w Hw)|apply (PD1_at_fin rows w Hw)]; assumption).
    rewrite (RHnum_shift rows g' (fun _ => 0%R) (fun _ => 0%R) _ _ _ 0%R).
    - assert (E0 : Rmean (map (fun _ : list C => 0%R) rows) = 0%R) by (apply Rmean_map_const, Hne).
      rewrite (RHnum_orthogonal rows g' (fun _ => 0%R) (fun _ => 0%R) Hne).
      + assert (V0 : variance (map (fun _ : list C => 0%R) rows) = 0%R).
        { rewrite variance_map. unfold rdev. rewrite E0. rewrite (Rmean_map_ext _ (fun _ => 0%R)) by (intros; unfold Rsqr; lra). exact E0. }
        rewrite V0, !Rminus_0_r. apply root_of_mean; [apply INR_pos_length, Hne|apply variance_nonneg].
      + rewrite variance_map. unfold rdev. rewrite E0. apply Rmean_map_ext. intros; unfold Rsqr; lra.
      + rewrite variance_map. unfold rdev. rewrite E0. apply Rmean_map_ext. intros; unfold Rsqr; lra.
      + unfold rdev. rewrite E0. rewrite (Rmean_map_ext _ (fun _ => 0%R)) by (intros; lra). exact E0.
    - intros r Hr. destruct (Hnth r p Hr Hp) as (v & Ev). destruct (Hnth r q Hr Hq) as (u & Eu).
      assert (A1 : RPD1_at rows k p r = 0%R).
      { unfold RPD1_at. rewrite Ev. unfold PD1, k. rewrite Rmean_map_add, (Gp r v Hr Ev), (Zp r v Hr Ev). lra. }
      assert (A2 : RPD1_at rows k q r = 0%R).
      { unfold RPD1_at. rewrite Eu. unfold PD1, k. rewrite Rmean_map_add, (Gq r u Hr Eu), (Zq r u Hr Eu). lra. }
      assert (A3 : RPD2_at rows k p q r = g' r).
      { unfold RPD2_at. rewrite Ev, Eu. unfold PD2, k. rewrite Rmean_map_add, (Z r v u Hr Ev Eu).
        rewrite (Rmean_map_ext _ (fun _ => g' r)); [rewrite Rmean_map_const by exact Hne; lra|].
        intros s Hs. unfold g'. rewrite !with_value_nth by (rewrite ?(Hl s p v Hs Hp), ?(Hw s Hs); assumption).
        rewrite !Nat.eqb_refl. destruct (Nat.eqb_spec p q); [contradiction|]. rewrite Ev, Eu. reflexivity. }
      rewrite A1, A2, A3. lra.
  Qed.

  (** one feature versus all others *)
  Lemma H_all_term h e g p : p < w ->
    (forall r, length r = w -> h r = e r + g r)%R -> not_mixed w e p ->
    fades_alone rows g p -> fades_without rows g p ->
    or_zero xR (H_all xR (fun r => Fin (h r)) rows false p) = Fin (sqrt (variance (map g rows))).
  Proof.
    intros Hp Hh He G1 G2.
    rewrite (H_all_terms rows w Hw g e h (fun r Hr => eq_trans (Hh r Hr) (Rplus_comm _ _)) p Hp He).
    unfold H_all. rewrite (H_value_fin rows false _ _ _ g (RPD1_at rows g p) (RPDminus rows g p)) by (first [intros r _; reflexivity|apply (PD1_at_fin rows w Hw)|apply (PDminus_at_fin rows w Hw)]; assumption).
    rewrite (RHnum_shift rows g (fun _ => 0%R) (fun _ => 0%R) _ _ _ 0%R).
    - assert (E0 : Rmean (map (fun _ : list C => 0%R) rows) = 0%R) by (apply Rmean_map_const, Hne).
      rewrite (RHnum_orthogonal rows g (fun _ => 0%R) (fun _ => 0%R) Hne).
      + assert (V0 : variance (map (fun _ : list C => 0%R) rows) = 0%R).
        { rewrite variance_map. unfold rdev. rewrite E0. rewrite (Rmean_map_ext _ (fun _ => 0%R)) by (intros; unfold Rsqr; lra). exact E0. }
        rewrite V0, !Rminus_0_r. apply root_of_mean; [apply INR_pos_length, Hne|apply variance_nonneg].
      + rewrite variance_map. unfold rdev. rewrite E0. apply Rmean_map_ext. intros; unfold Rsqr; lra.
      + rewrite variance_map. unfold rdev. rewrite E0. apply Rmean_map_ext. intros; unfold Rsqr; lra.
      + unfold rdev. rewrite E0. rewrite (Rmean_map_ext _ (fun _ => 0%R)) by (intros; lra). exact E0.
    - intros r Hr. destruct (Hnth r p Hr Hp) as (v & Ev).
      assert (A1 : RPD1_at rows g p r = 0%R) by (unfold RPD1_at; rewrite Ev; exact (G1 r v Hr Ev)).
      assert (A2 : RPDminus rows g p r = 0%R) by exact (G2 r Hr).
      rewrite A1, A2. lra.
  Qed.

  (** *** Independent columns *)
  Notation E phi := (Rmean (map phi rows)).
  Lemma pair_share h p q : p <> q -> p < w -> q < w -> independent rows p -> independent rows q ->
    RHnum rows (RPD2_at rows h p q) (RPD1_at rows h p) (RPD1_at rows h q)
    = (INR (length rows) * (variance (map (RPD2_at rows h p q) rows) - variance (map (RPD1_at rows h p) rows) - variance (map (RPD1_at rows h q) rows)))%R.
  Proof.
    intros Hpq Hp Hq Ip Iq. set (F := RPD2_at rows h p q). set (F1 := RPD1_at rows h p). set (F2 := RPD1_at rows h q).
    pose proof (E_F1 rows w Hw h p q Hpq Hp Hq Iq Hne : E F1 = E F) as M1. pose proof (E_F2 rows w Hw h p q Hpq Hp Hq Ip Hne : E F2 = E F) as M2.
    set (m := E F) in *.
    apply RHnum_orthogonal; [exact Hne| | |]; rewrite ?variance_map; unfold rdev; fold m; rewrite ?M1, ?M2.
    - rewrite (independent_mean rows q _ Hne Iq). apply Rmean_map_ext. intros r Hr.
      rewrite (Rmean_map_ext _ (fun s => (F1 r - m) * (F (swap_in q r s) - m))%R).
      2:{ intros s Hs. unfold F1. rewrite (F1_swap_q rows w Hw h p q Hpq Hp Hq r s Hr Hs). lra. }
      rewrite Rmean_map_mult. unfold Rsqr. f_equal. rewrite Rmean_map_sub, Rmean_map_const by exact Hne.
      unfold F1. rewrite (F1_marginal rows w Hw h p q Hpq Hp Hq Iq r Hr). reflexivity.
    - rewrite (independent_mean rows p _ Hne Ip). apply Rmean_map_ext. intros r Hr.
      rewrite (Rmean_map_ext _ (fun s => (F2 r - m) * (F (swap_in p r s) - m))%R).
      2:{ intros s Hs. unfold F2. rewrite (F2_swap_p rows w Hw h p q Hpq Hp Hq r s Hr Hs). lra. }
      rewrite Rmean_map_mult. unfold Rsqr. f_equal. rewrite Rmean_map_sub, Rmean_map_const by exact Hne.
      unfold F2. rewrite (F2_marginal rows w Hw h p q Hpq Hp Hq Ip r Hr). reflexivity.
    - rewrite (independent_mean rows q _ Hne Iq).
      rewrite (Rmean_map_ext _ (fun _ => 0%R)); [apply Rmean_map_const, Hne|]. intros r Hr.
      rewrite (Rmean_map_ext _ (fun s => (F1 r - m) * (F2 s - m))%R).
      2:{ intros s Hs. unfold F1, F2. rewrite (F1_swap_q rows w Hw h p q Hpq Hp Hq r s Hr Hs), (F2_swap_q rows w Hw h p q Hpq Hp Hq r s Hr Hs). reflexivity. }
      rewrite Rmean_map_mult, Rmean_map_sub, Rmean_map_const, M2 by exact Hne. lra.
  Qed.

  Lemma all_share h p : p < w -> independent rows p ->
    RHnum rows h (RPD1_at rows h p) (RPDminus rows h p)
    = (INR (length rows) * (variance (map h rows) - variance (map (RPD1_at rows h p) rows) - variance (map (RPDminus rows h p) rows)))%R.
  Proof.
    intros Hp Ip. set (F1 := RPD1_at rows h p). set (M := RPDminus rows h p). set (m := E h).
    assert (S1 : forall r s, In r rows -> In s rows -> F1 (swap_in p r s) = F1 s).
    { intros r s Hr Hs. unfold F1, swap_in, RPD1_at. destruct (Hnth s p Hs Hp) as (u & Eu). rewrite Eu, with_value_nth, Nat.eqb_refl by (rewrite (Hw r Hr); exact Hp). reflexivity. }
    assert (S2 : forall r s, In r rows -> In s rows -> M (swap_in p r s) = M r).
    { intros r s Hr Hs. unfold M, swap_in, RPDminus. destruct (Hnth s p Hs Hp) as (u & Eu). rewrite Eu. apply Rmean_map_ext. intros t Ht.
      destruct (nth_error t p) as [x|]; [|reflexivity]. rewrite with_value_twice by (rewrite (Hw r Hr); exact Hp). reflexivity. }
    assert (P1 : forall s, In s rows -> E (fun r => h (swap_in p r s)) = F1 s).
    { intros s Hs. unfold F1, RPD1_at. destruct (Hnth s p Hs Hp) as (u & Eu). rewrite Eu. unfold PD1. apply Rmean_map_ext. intros r Hr. unfold swap_in. rewrite Eu. reflexivity. }
    assert (P2 : forall r, In r rows -> E (fun s => h (swap_in p r s)) = M r).
    { intros r Hr. unfold M, RPDminus. apply Rmean_map_ext. intros s Hs. unfold swap_in. destruct (Hnth s p Hs Hp) as (u & Eu). rewrite Eu. reflexivity. }
    assert (M1 : E F1 = m).
    { unfold m. rewrite (independent_mean rows p h Hne Ip), Rmean_swap. apply Rmean_map_ext. intros s Hs. symmetry. apply P1, Hs. }
    assert (M2 : E M = m).
    { unfold m. rewrite (independent_mean rows p h Hne Ip). apply Rmean_map_ext. intros r Hr. symmetry. apply P2, Hr. }
    apply RHnum_orthogonal; [exact Hne| | |]; rewrite ?variance_map; unfold rdev; fold m; rewrite ?M1, ?M2.
    - rewrite (independent_mean rows p _ Hne Ip), Rmean_swap. apply Rmean_map_ext. intros s Hs.
      rewrite (Rmean_map_ext _ (fun r => (F1 s - m) * (h (swap_in p r s) - m))%R) by (intros r Hr; rewrite S1 by assumption; lra).
      rewrite Rmean_map_mult, Rmean_map_sub, Rmean_map_const, P1 by assumption. reflexivity.
    - rewrite (independent_mean rows p _ Hne Ip). apply Rmean_map_ext. intros r Hr.
      rewrite (Rmean_map_ext _ (fun s => (M r - m) * (h (swap_in p r s) - m))%R) by (intros s Hs; rewrite S2 by assumption; lra).
      rewrite Rmean_map_mult, Rmean_map_sub, Rmean_map_const, P2 by assumption. reflexivity.
    - rewrite (independent_mean rows p _ Hne Ip). rewrite (Rmean_map_ext _ (fun _ => 0%R)); [apply Rmean_map_const, Hne|]. intros r Hr.
      rewrite (Rmean_map_ext _ (fun s => (M r - m) * (F1 s - m))%R) by (intros s Hs; rewrite S1, S2 by assumption; lra).
      rewrite Rmean_map_mult, Rmean_map_sub, Rmean_map_const, M1 by exact Hne. lra.
  Qed.

  (** a statistic with such a numerator *)
  Definition share (norm : bool) (v12 v1 v2 : R) : R := if norm then (1 - (v1 + v2) / v12)%R else sqrt (v12 - v1 - v2).
  Lemma share_value norm g12 g1 g2 f12 f1 f2 : is_fin rows g12 f12 -> is_fin rows g1 f1 -> is_fin rows g2 f2 ->
    RHnum rows f12 f1 f2 = (INR (length rows) * (variance (map f12 rows) - variance (map f1 rows) - variance (map f2 rows)))%R ->
    (norm = true -> variance (map f12 rows) <> 0%R) ->
    or_zero xR (H_value xR rows norm g12 g1 g2) = Fin (share norm (variance (map f12 rows)) (variance (map f1 rows)) (variance (map f2 rows))).
  Proof.
    intros H12 H1 H2 EN Hv. rewrite (H_value_fin rows norm g12 g1 g2 f12 f1 f2 H12 H1 H2), EN. pose proof (INR_pos_length rows Hne) as Hn. destruct norm.
    - specialize (Hv eq_refl). rewrite (RHden_variance rows f12 Hne), xR_div_fin by (apply Rmult_integral_contrapositive_currified; lra).
      change (or_zero xR (Fin ?x)) with (@Fin R x). unfold share. f_equal. field. lra.
    - unfold share. apply root_of_mean; [exact Hn|]. apply (Rmult_le_reg_l (INR (length rows))); [exact Hn|]. rewrite <- EN, Rmult_0_r. apply RHnum_nonneg.
  Qed.
End Pair.

(** ** C135 *)
Section Api.
  Context {C G : Type} (O : cell_ops C) (HO : cell_ok O) (Rg : rng_ops G) (HR : rng_ok Rg) (srt : sorter) (Hs : sorter_ok srt).
  Notation fit := (PdMethods.fit O xR Rg srt).
  Notation "'fin' h" := (fun r => Fin (h r)) (at level 10, only parsing).
  Notation Hnan := (no_isnan_nan xR xR_ord).

  (** the pair value is the standard deviation of the pair's own term *)
  Theorem C135_pair_term s a s' h e g z Xs p q f1 f2 t v :
    wf_frame (a_X a) -> fit (Friedman false) s a = (s', Ok tt) -> m_X s' = Some Xs -> explains O xR a (fin h) Xs -> f_rows Xs <> [] ->
    nth_error (f_cols Xs) p = Some f1 -> nth_error (f_cols Xs) q = Some f2 ->
    (forall r, length r = length (f_cols Xs) -> h r = e r + (g (nth_error r p) (nth_error r q) + z r))%R ->
    not_together (length (f_cols Xs)) e p q ->
    let gr := fun r : list C => g (nth_error r p) (nth_error r q) in
    fades_alone (f_rows Xs) gr p -> fades_alone (f_rows Xs) gr q ->
    fades_alone (f_rows Xs) z p -> fades_alone (f_rows Xs) z q -> fades_together (f_rows Xs) z p q ->
    m_ovo s' = Some t -> In (f1, f2, v) t ->
    v = Fin (sqrt (variance (map gr (f_rows Xs)))).
  Proof.
    intros HX H HXs He Hne Hp Hq Hh Hnt gr Gp Gq Zp Zq Z Ht Hv.
    destruct (friedman_fit O xR HO Hnan Rg HR srt false s a s' _ Xs HX H HXs He) as (HwX & _).
    destruct (C12_friedman_pairs O xR HO xR_ord x0 Rg HR srt Hs false s a s' _ Xs HX H HXs He) as (t' & Ht' & _ & Hval & _).
    rewrite Ht in Ht'; injection Ht' as <-. destruct (Hval _ _ _ Hv) as (p1 & q1 & Hp1 & Hq1 & Hpq & ->).
    apply (posn_nth Xs _ _ HwX) in Hp1 as <-. apply (posn_nth Xs _ _ HwX) in Hq1 as <-.
    rewrite (posn_nth Xs p f1 HwX Hp), (posn_nth Xs q f2 HwX Hq) in *.
    exact (H_pair_term (f_rows Xs) (length (f_cols Xs)) (wf_rows Xs HwX) Hne h e g z p q Hpq (pos_lt Xs p f1 Hp) (pos_lt Xs q f2 Hq) Hh Hnt Gp Gq Zp Zq Z).
  Qed.

  (** one versus all: the standard deviation of what mixes the feature with the others *)
  Theorem C135_one_versus_all_term s a s' h e g Xs p f t v :
    wf_frame (a_X a) -> fit (Friedman false) s a = (s', Ok tt) -> m_X s' = Some Xs -> explains O xR a (fin h) Xs -> a_ova a = true -> f_rows Xs <> [] ->
    nth_error (f_cols Xs) p = Some f ->
    (forall r, length r = length (f_cols Xs) -> h r = e r + g r)%R -> not_mixed (length (f_cols Xs)) e p ->
    fades_alone (f_rows Xs) g p -> fades_without (f_rows Xs) g p ->
    m_ova s' = Some t -> In (f, v) t ->
    v = Fin (sqrt (variance (map g (f_rows Xs)))).
  Proof.
    intros HX H HXs He Ho Hne Hp Hh Hnm G1 G2 Ht Hv.
    destruct (friedman_fit O xR HO Hnan Rg HR srt false s a s' _ Xs HX H HXs He) as (HwX & _).
    destruct (C13_friedman_ova O xR HO xR_ord x0 Rg HR srt Hs false s a s' _ Xs HX H HXs He Ho) as (t' & Ht' & _ & Hval & _).
    rewrite Ht in Ht'; injection Ht' as <-. destruct (Hval _ _ Hv) as (p1 & Hp1 & ->).
    apply (posn_nth Xs _ _ HwX) in Hp1 as <-. rewrite (posn_nth Xs p f HwX Hp) in *.
    exact (H_all_term (f_rows Xs) (length (f_cols Xs)) (wf_rows Xs HwX) Hne h e g p (pos_lt Xs p f Hp) Hh Hnm G1 G2).
  Qed.

  (** independent columns: the variance of the joint effect less the variances of the two single
      effects; normalised, the share of the variance of the joint effect that the single effects
      do not account for *)
  Theorem C135_pair_share norm s a s' h Xs p q f1 f2 t v :
    wf_frame (a_X a) -> fit (Friedman norm) s a = (s', Ok tt) -> m_X s' = Some Xs -> explains O xR a (fin h) Xs -> f_rows Xs <> [] ->
    nth_error (f_cols Xs) p = Some f1 -> nth_error (f_cols Xs) q = Some f2 ->
    independent (f_rows Xs) p -> independent (f_rows Xs) q ->
    let joint := variance (map (RPD2_at (f_rows Xs) h p q) (f_rows Xs)) in
    let single j := variance (map (RPD1_at (f_rows Xs) h j) (f_rows Xs)) in
    (norm = true -> joint <> 0%R) ->
    m_ovo s' = Some t -> In (f1, f2, v) t ->
    v = Fin (if norm then (1 - (single p + single q) / joint)%R else sqrt (joint - single p - single q)).
  Proof.
    intros HX H HXs He Hne Hp Hq Ip Iq joint single Hj Ht Hv.
    destruct (friedman_fit O xR HO Hnan Rg HR srt norm s a s' _ Xs HX H HXs He) as (HwX & _).
    destruct (C12_friedman_pairs O xR HO xR_ord x0 Rg HR srt Hs norm s a s' _ Xs HX H HXs He) as (t' & Ht' & _ & Hval & _).
    rewrite Ht in Ht'; injection Ht' as <-. destruct (Hval _ _ _ Hv) as (p1 & q1 & Hp1 & Hq1 & Hpq & ->).
    apply (posn_nth Xs _ _ HwX) in Hp1 as <-. apply (posn_nth Xs _ _ HwX) in Hq1 as <-.
    rewrite (posn_nth Xs p f1 HwX Hp), (posn_nth Xs q f2 HwX Hq) in *.
    pose proof (pos_lt Xs p f1 Hp) as Lp. pose proof (pos_lt Xs q f2 Hq) as Lq. pose proof (wf_rows Xs HwX) as Hw.
    unfold H_pair. rewrite (share_value (f_rows Xs) Hne norm _ _ _ (RPD2_at (f_rows Xs) h p q) (RPD1_at (f_rows Xs) h p) (RPD1_at (f_rows Xs) h q)); [reflexivity|..].
    - apply (PD2_at_fin (f_rows Xs) (length (f_cols Xs)) Hw); assumption.
    - apply (PD1_at_fin (f_rows Xs) (length (f_cols Xs)) Hw); assumption.
    - apply (PD1_at_fin (f_rows Xs) (length (f_cols Xs)) Hw); assumption.
    - apply (pair_share (f_rows Xs) (length (f_cols Xs)) Hw Hne h p q Hpq Lp Lq Ip Iq).
    - exact Hj.
  Qed.

  Theorem C135_one_versus_all_share norm s a s' h Xs p f t v :
    wf_frame (a_X a) -> fit (Friedman norm) s a = (s', Ok tt) -> m_X s' = Some Xs -> explains O xR a (fin h) Xs -> a_ova a = true -> f_rows Xs <> [] ->
    nth_error (f_cols Xs) p = Some f -> independent (f_rows Xs) p ->
    let whole := variance (map h (f_rows Xs)) in
    let single := variance (map (RPD1_at (f_rows Xs) h p) (f_rows Xs)) in
    let rest := variance (map (RPDminus (f_rows Xs) h p) (f_rows Xs)) in
    (norm = true -> whole <> 0%R) ->
    m_ova s' = Some t -> In (f, v) t ->
    v = Fin (if norm then (1 - (single + rest) / whole)%R else sqrt (whole - single - rest)).
  Proof.
    intros HX H HXs He Ho Hne Hp Ip whole single rest Hj Ht Hv.
    destruct (friedman_fit O xR HO Hnan Rg HR srt norm s a s' _ Xs HX H HXs He) as (HwX & _).
    destruct (C13_friedman_ova O xR HO xR_ord x0 Rg HR srt Hs norm s a s' _ Xs HX H HXs He Ho) as (t' & Ht' & _ & Hval & _).
    rewrite Ht in Ht'; injection Ht' as <-. destruct (Hval _ _ Hv) as (p1 & Hp1 & ->).
    apply (posn_nth Xs _ _ HwX) in Hp1 as <-. rewrite (posn_nth Xs p f HwX Hp) in *.
    pose proof (pos_lt Xs p f Hp) as Lp. pose proof (wf_rows Xs HwX) as Hw.
    unfold H_all. rewrite (share_value (f_rows Xs) Hne norm _ _ _ h (RPD1_at (f_rows Xs) h p) (RPDminus (f_rows Xs) h p)); [reflexivity|..].
    - intros r _. reflexivity.
    - apply (PD1_at_fin (f_rows Xs) (length (f_cols Xs)) Hw); assumption.
    - apply (PDminus_at_fin (f_rows Xs) (length (f_cols Xs)) Hw); assumption.
    - apply (all_share (f_rows Xs) (length (f_cols Xs)) Hw Hne h p Lp Ip).
    - exact Hj.
  Qed.

  (** the additivity index is the share of the variance of the predictions in the single effects *)
  Theorem C135_additivity_share s a s' v h Xs : wf_frame (aa_X a) -> add_fit O xR Rg s a = (s', Ok v) -> ad_X s' = Some Xs ->
    add_explains O xR a (fin h) Xs -> ~ In "centered_prediction" (f_cols (aa_X a)) -> f_rows Xs <> [] ->
    (forall p, p < length (f_cols Xs) -> independent (f_rows Xs) p) ->
    variance (map h (f_rows Xs)) <> 0%R ->
    v = Fin (Rsum (map (fun p => variance (map (RPD1_at (f_rows Xs) h p) (f_rows Xs))) (seq 0 (length (f_cols Xs)))) / variance (map h (f_rows Xs)))%R.
  Proof.
    intros HX H HXs He Hcp Hne Hi Hv. destruct (index_real O HO Rg HR s a s' v h Xs HX H HXs He Hcp) as [Hw ->].
    set (rows := f_rows Xs) in *. set (w := length (f_cols Xs)) in *.
    pose proof (INR_pos_length rows Hne) as Hn.
    assert (Ev : variation rows h = (INR (length rows) * variance (map h rows))%R) by (unfold variation; rewrite Rsum_mean, variance_map by exact Hne; reflexivity).
    assert (Eu : unexplained rows w h = (INR (length rows) * (variance (map h rows) - explained rows w h))%R).
    { unfold unexplained. rewrite Rsum_mean by exact Hne. f_equal. rewrite (E_unexplained rows w Hw h Hne Hi), variance_map. reflexivity. }
    assert (Ee : explained rows w h = Rsum (map (fun p => variance (map (RPD1_at rows h p) rows)) (seq 0 w))).
    { unfold explained. apply Rsum_map_ext. intros p Hp. apply in_seq in Hp. rewrite variance_map. unfold rdev.
      rewrite (E_F rows w Hw h Hne Hi p) by lia. reflexivity. }
    rewrite <- Ee, Eu, Ev, xR_div_fin by (apply Rmult_integral_contrapositive_currified; lra).
    change (n_sub xR (Fin 1%R) (Fin ?x)) with (@Fin R (1 - x)%R). f_equal. field. lra.
  Qed.
End Api.

(** ** Example: [x + 2y + 3(2x-1)(2y-1) + 4(2y-1)(2z-1) + 5(2x-1)(2y-1)(2z-1)] on the eight corners
    of the cube.  The pair (a, b) has the value 3, normalised 36/41; b versus the others has
    sqrt 50; the additivity index is 1/41. *)
Definition cube : frame Z := {| f_cols := ["a"; "b"; "c"]; f_index := [0;1;2;3;4;5;6;7]%Z; f_num := ["a"; "b"; "c"];
  f_rows := [[0;0;0];[0;0;1];[0;1;0];[0;1;1];[1;0;0];[1;0;1];[1;1;0];[1;1;1]]%Z |}.
Definition sg (x : R) : R := (2 * x - 1)%R.
Definition c_low : list Z -> R := cell3 (fun x y z => x + 2 * y + 4 * (sg y * sg z))%R.
Definition c_lin : list Z -> R := cell3 (fun x y z => x + 2 * y)%R.
Definition c_pair (u v : option Z) : R := match u, v with Some x, Some y => (3 * (sg (IZR x) * sg (IZR y)))%R | _, _ => 0%R end.
Definition c_triple : list Z -> R := cell3 (fun x y z => 5 * (sg x * sg y * sg z))%R.
Definition c_mixed : list Z -> R := cell3 (fun x y z => 3 * (sg x * sg y) + 4 * (sg y * sg z) + 5 * (sg x * sg y * sg z))%R.
Definition c_model : list Z -> R := cell3 (fun x y z => x + 2 * y + 3 * (sg x * sg y) + 4 * (sg y * sg z) + 5 * (sg x * sg y * sg z))%R.
Definition cubeP : nat -> list (list Z) -> result (list (ext R)) := fun _ rows => Ok (map (fun r => Fin (c_model r)) rows).
Definition cubeA : fargs Z (ext R) := mkargs cubeP cube None true None.

Lemma cube_wf : wf_frame cube.
Proof. repeat constructor; cbn; intuition congruence. Qed.
Lemma cube_total : explains_total Zcell xR cubeA (fun r => Fin (c_model r)) cube.
Proof. split; [intros n rows ys E; injection E as <-; reflexivity|]. split; [|exact I]. intros n rows. eexists. reflexivity. Qed.
Lemma cube_explains : explains Zcell xR cubeA (fun r => Fin (c_model r)) cube.
Proof. split; [exact (proj1 cube_total)|exact I]. Qed.
Lemma cube_fit norm : exists s', PdMethods.fit Zcell xR rotR isort (Friedman norm) init0 cubeA = (s', Ok tt) /\ m_X s' = Some cube.
Proof.
  destruct (PdMethods.fit Zcell xR rotR isort (Friedman norm) init0 cubeA) as [s' r] eqn:E. exists s'.
  assert (r = Ok tt) as ->.
  { eapply (C66_fit_succeeds_partial Zcell xR Zcell_ok xR_ord rotR rotR_ok isort norm init0 cubeA s' r _ cube); [exact cube_wf|reflexivity|apply cube_total|apply Z_complete|discriminate| | |exact E].
    - apply cube_wf.
    - intros f Hf. exact Hf. }
  split; [reflexivity|]. exact (mX_ok Zcell xR rotR isort (Friedman norm) init0 cubeA s' eq_refl E).
Qed.
Lemma cube_independent p : p < 3 -> independent (f_rows cube) p.
Proof.
  intros Hp. assert (p = 0 \/ p = 1 \/ p = 2) as [->|[->| ->]] by lia; unfold independent;
    apply (perm_by_key (fun r => match r with [x; y; z] => Z.to_nat (4 * x + 2 * y + z) | _ => 9 end)); vm_compute; reflexivity.
Qed.

Ltac cube_mean := unfold Rmean, Rsum; cbn [cube f_rows map fold_right length nth_error with_value firstn skipn app cell3];
  unfold with_value; cbn [firstn skipn app]; unfold c_triple, c_mixed, c_pair, c_model, cell3, sg; rewrite ?INR_IZR_INZ; cbn [Z.of_nat Pos.of_succ_nat Pos.succ].
Ltac in_cube H := cbn [cube f_rows In] in H; destruct H as [<-|[<-|[<-|[<-|[<-|[<-|[<-|[<-|[]]]]]]]]].

Lemma cube_fades :
  let gr := fun r : list Z => c_pair (nth_error r 0) (nth_error r 1) in
  fades_alone (f_rows cube) gr 0 /\ fades_alone (f_rows cube) gr 1 /\ fades_alone (f_rows cube) c_triple 0 /\ fades_alone (f_rows cube) c_triple 1
  /\ fades_together (f_rows cube) c_triple 0 1 /\ fades_alone (f_rows cube) c_mixed 1 /\ fades_without (f_rows cube) c_mixed 1.
Proof.
  intros gr. unfold gr. repeat split.
  1-4,6: intros r v _ _; cube_mean; field.
  - intros r v u _ _ _. cube_mean. field.
  - intros r Hr. in_cube Hr; cube_mean; field.
Qed.

(** the effects at a row of the cube *)
Lemma cube_single0 r : In r (f_rows cube) -> RPD1_at (f_rows cube) c_model 0 r = (match r with x :: _ => IZR x | _ => 0 end + 1)%R.
Proof. intros Hr. in_cube Hr; unfold RPD1_at; cbn [nth_error]; unfold PD1; cube_mean; field. Qed.
Lemma cube_single1 r : In r (f_rows cube) -> RPD1_at (f_rows cube) c_model 1 r = (match r with _ :: y :: _ => 2 * IZR y | _ => 0 end + 1 / 2)%R.
Proof. intros Hr. in_cube Hr; unfold RPD1_at; cbn [nth_error]; unfold PD1; cube_mean; field. Qed.
Lemma cube_single2 r : In r (f_rows cube) -> RPD1_at (f_rows cube) c_model 2 r = (3 / 2)%R.
Proof. intros Hr. in_cube Hr; unfold RPD1_at; cbn [nth_error]; unfold PD1; cube_mean; field. Qed.
Lemma cube_joint r : In r (f_rows cube) -> RPD2_at (f_rows cube) c_model 0 1 r = (match r with x :: y :: _ => IZR x + 2 * IZR y + 3 * (sg (IZR x) * sg (IZR y)) | _ => 0 end)%R.
Proof. intros Hr. in_cube Hr; unfold RPD2_at; cbn [nth_error]; unfold PD2; cube_mean; field. Qed.

Lemma variance_ext {A} (f g : A -> R) rows : (forall r, In r rows -> f r = g r) -> variance (map f rows) = variance (map g rows).
Proof. intros H. f_equal. apply map_ext_in, H. Qed.
Ltac cube_var := unfold variance; rewrite map_map; unfold Rsqr; cube_mean; field.
Lemma cube_var0 : variance (map (RPD1_at (f_rows cube) c_model 0) (f_rows cube)) = (1 / 4)%R.
Proof. rewrite (variance_ext _ _ _ cube_single0). cube_var. Qed.
Lemma cube_var1 : variance (map (RPD1_at (f_rows cube) c_model 1) (f_rows cube)) = 1%R.
Proof. rewrite (variance_ext _ _ _ cube_single1). cube_var. Qed.
Lemma cube_var2 : variance (map (RPD1_at (f_rows cube) c_model 2) (f_rows cube)) = 0%R.
Proof. rewrite (variance_ext _ _ _ cube_single2). cube_var. Qed.
Lemma cube_var01 : variance (map (RPD2_at (f_rows cube) c_model 0 1) (f_rows cube)) = (41 / 4)%R.
Proof. rewrite (variance_ext _ _ _ cube_joint). cube_var. Qed.
Lemma cube_var : variance (map c_model (f_rows cube)) = (205 / 4)%R.
Proof. cube_var. Qed.

Example C135_example :
  exists s1 s2 t1 t1' t2 sa, PdMethods.fit Zcell xR rotR isort (Friedman false) init0 cubeA = (s1, Ok tt)
    /\ PdMethods.fit Zcell xR rotR isort (Friedman true) init0 cubeA = (s2, Ok tt)
    /\ m_ovo s1 = Some t1 /\ m_ova s1 = Some t1' /\ m_ovo s2 = Some t2
    /\ In ("a", "b", Fin 3%R) t1 /\ In ("b", Fin (sqrt 50)) t1' /\ In ("a", "b", Fin (36 / 41)%R) t2
    /\ add_fit Zcell xR rotR ad0 (mkadd cubeP cube) = (sa, Ok (Fin (1 / 41)%R)).
Proof.
  destruct (cube_fit false) as (s1 & E1 & X1). destruct (cube_fit true) as (s2 & E2 & X2).
  destruct (C12_friedman_pairs Zcell xR Zcell_ok xR_ord eq_refl rotR rotR_ok isort isort_ok false init0 cubeA s1 _ cube cube_wf E1 X1 cube_explains) as (t1 & T1 & K1 & _).
  destruct (C12_friedman_pairs Zcell xR Zcell_ok xR_ord eq_refl rotR rotR_ok isort isort_ok true init0 cubeA s2 _ cube cube_wf E2 X2 cube_explains) as (t2 & T2 & K2 & _).
  destruct (C13_friedman_ova Zcell xR Zcell_ok xR_ord eq_refl rotR rotR_ok isort isort_ok false init0 cubeA s1 _ cube cube_wf E1 X1 cube_explains eq_refl) as (t1' & T1' & K1' & _).
  assert (I1 : In ("a", "b") (map fst t1)) by (rewrite K1; cbn; auto). assert (I2 : In ("a", "b") (map fst t2)) by (rewrite K2; cbn; auto).
  assert (I3 : In "b" (map fst t1')) by (rewrite K1'; cbn; auto).
  apply in_map_iff in I1 as ([[f1 f2] v1] & F1 & I1). injection F1 as -> ->. apply in_map_iff in I2 as ([[f1 f2] v2] & F2 & I2). injection F2 as -> ->.
  apply in_map_iff in I3 as ([f v3] & F3 & I3). cbn in F3. subst f.
  destruct cube_fades as (Ga & Gb & Ta & Tb & Tab & Mb & Mw).
  assert (Hne : f_rows cube <> []) by discriminate.
  assert (V1 : v1 = Fin 3%R).
  { rewrite (C135_pair_term Zcell Zcell_ok rotR rotR_ok isort isort_ok init0 cubeA s1 c_model c_low c_pair c_triple cube 0 1 "a" "b" t1 v1
               cube_wf E1 X1 cube_explains Hne eq_refl eq_refl); try assumption.
    - f_equal. rewrite <- (sqrt_Rsqr 3) by lra. f_equal. cube_var.
    - intros r Hl. destruct r as [|x [|y [|z [|]]]]; try discriminate Hl. cbn [nth_error]. unfold c_model, c_low, c_pair, c_triple, cell3. lra.
    - exists (cell3 (fun x y z => 2 * y + 4 * (sg y * sg z))%R), (cell3 (fun x y z => x)%R).
      split; [|split]; intros r; [intros Hl|intros v Hl..]; destruct r as [|x [|y [|z [|]]]]; try discriminate Hl; unfold c_low, cell3, with_value; cbn [firstn skipn app]; try reflexivity; lra. }
  assert (V3 : v3 = Fin (sqrt 50)).
  { rewrite (C135_one_versus_all_term Zcell Zcell_ok rotR rotR_ok isort isort_ok init0 cubeA s1 c_model c_lin c_mixed cube 1 "b" t1' v3
               cube_wf E1 X1 cube_explains eq_refl Hne eq_refl); try assumption.
    - do 2 f_equal. cube_var.
    - intros r Hl. destruct r as [|x [|y [|z [|]]]]; try discriminate Hl. unfold c_model, c_lin, c_mixed, cell3. lra.
    - exists (fun v => match v with Some y => (2 * IZR y)%R | None => 0%R end), (cell3 (fun x y z => x)%R).
      split; intros r; [intros Hl|intros v Hl]; destruct r as [|x [|y [|z [|]]]]; try discriminate Hl; unfold c_lin, cell3, with_value; cbn [firstn skipn app nth_error]; try reflexivity; lra. }
  assert (V2 : v2 = Fin (36 / 41)%R).
  { rewrite (C135_pair_share Zcell Zcell_ok rotR rotR_ok isort isort_ok true init0 cubeA s2 c_model cube 0 1 "a" "b" t2 v2
               cube_wf E2 X2 cube_explains Hne eq_refl eq_refl (cube_independent 0 ltac:(lia)) (cube_independent 1 ltac:(lia))); try assumption.
    - rewrite cube_var0, cube_var1, cube_var01. f_equal. field.
    - rewrite cube_var01. lra. }
  destruct (C23_fit_returns Zcell xR Zcell_ok xR_ord rotR rotR_ok ad0 (mkadd cubeP cube) (fun r => Fin (c_model r)) cube 0 cube_wf eq_refl) as (sa & va & EA & XA & _).
  { split; [intros n rows ys E; injection E as <-; reflexivity|]. split; [|exact I]. intros n rows. eexists; reflexivity. }
  { intros f p v _ _. unfold c_isnan. cbn. rewrite Z.eqb_refl. reflexivity. }
  assert (VA : va = Fin (1 / 41)%R).
  { rewrite (C135_additivity_share Zcell Zcell_ok rotR rotR_ok ad0 (mkadd cubeP cube) sa va c_model cube cube_wf EA XA).
    - change (seq 0 (length (f_cols cube))) with [0; 1; 2]. cbn [map]. rewrite !Rsum_cons, Rsum_nil, cube_var0, cube_var1, cube_var2, cube_var. f_equal. field.
    - split; [intros n rows ys E; injection E as <-; reflexivity|exact I].
    - cbn. intuition congruence.
    - discriminate.
    - exact cube_independent.
    - rewrite cube_var. lra. }
  subst v1 v2 v3 va. exists s1, s2, t1, t1', t2, sa. repeat split; assumption.
Qed.

Print Assumptions C135_pair_term.
Print Assumptions C135_one_versus_all_term.
Print Assumptions C135_pair_share.
Print Assumptions C135_one_versus_all_share.
Print Assumptions C135_additivity_share.
