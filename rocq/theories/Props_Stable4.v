(** C133, continued: the additivity index of nearby models. *)
From Verif Require Import Py Num NumR Sorting Frame Rng PdCalc PdSpec PdFacts PdProofs PdTheorems PdErrors PdApi PdMethods MethodSpec
  PdMethodFacts PdMethodRun PdMethodReal PdMethodReal2 Props_Pd Props_Methods Props_Methods2 Additivity Props_Additivity Views Props_Views Props_Terms Props_Stable Props_Accuracy Props_Stable3.
From Coq Require Import Reals Lra Lia.
Open Scope string_scope.
Open Scope nat_scope.
Open Scope list_scope.

(** ** Specification *)
(** two indices of additivity: the roots of the unexplained shares differ little compared with the spread [sigma] of the predictions of the first model *)
Definition indices_close (w : nat) (eps sigma : R) (v v' : ext R) : Prop :=
  exists x x', v = Fin x /\ v' = Fin x' /\ (x <= 1)%R /\ (x' <= 1)%R
    /\ (Rabs (sqrt (1 - x') - sqrt (1 - x)) <= eps * (2 * INR w + sqrt (1 - x)) / (sigma - eps))%R.

Section Close.
  Open Scope R_scope.
  Context {C : Type} (rows : list (list C)) (w : nat) (Hw : forall r, In r rows -> length r = w) (Hne : rows <> []) (h h' : list C -> R) (eps : R)
          (Hh : models_close rows w eps h h').
  Notation n := (INR (length rows)).
  Lemma He0 : 0 <= eps. Proof. exact (eps_nonneg rows w Hw Hne h h' eps Hh). Qed.
  Lemma ratio_near K a a' b b' : 0 <= a -> eps < b -> Rabs (a' - a) <= K * eps -> Rabs (b' - b) <= eps ->
    0 < b' /\ Rabs (a' / b' - a / b) <= eps * (K + a / b) / (b - eps).
  Proof.
    pose proof He0 as He. intros Ha Hb Da Db. assert (Hb' : 0 < b - eps <= b') by (revert Db; unfold Rabs; destruct (Rcase_abs _); lra). split; [lra|].
    assert (Hx : 0 <= a / b) by (apply Rmult_le_pos; [exact Ha|left; apply Rinv_0_lt_compat; lra]).
    replace (a' / b' - a / b) with (((a' - a) - (a / b) * (b' - b)) * / b') by (field; lra).
    rewrite Rabs_mult, (Rabs_pos_eq (/ b')) by (left; apply Rinv_0_lt_compat; lra).
    apply Rmult_le_compat; [apply Rabs_pos|left; apply Rinv_0_lt_compat; lra| |apply Rinv_le_contravar; lra].
    assert (K1 : Rabs (a / b * (b' - b)) <= a / b * eps) by (rewrite Rabs_mult, (Rabs_pos_eq (a / b)) by exact Hx; apply Rmult_le_compat_l; assumption).
    eapply Rle_trans; [apply Rabs_triang|]. rewrite Rabs_Ropp. lra.
  Qed.
  Lemma mu_close : Rabs (Rmean (map h' rows) - Rmean (map h rows)) <= eps.
  Proof. apply mean_close; [exact Hne|]. intros r Hr. apply Hh, (made_row rows w Hw), Hr. Qed.
  Lemma PD1_at_close p r : (p < w)%nat -> In r rows -> Rabs (RPD1_at rows h' p r - RPD1_at rows h p r) <= eps.
  Proof.
    intros Hp Hr. unfold RPD1_at. pose proof (Hw r Hr) as Hr'. destruct (nth_error r p) as [v|] eqn:E; [|apply nth_error_None in E; lia]. apply (PD1_close rows w Hw Hne h h' eps Hh); eauto.
  Qed.
  (** the sum of the effects without the centring *)
  Lemma effects_sum f r : effects rows w f r = Rsum (map (fun p => RPD1_at rows f p r) (seq 0 w)) - INR w * Rmean (map f rows).
  Proof.
    unfold effects. rewrite Rsum_map_sub, Rsum_map_const, seq_length. ring.
  Qed.
  Lemma Rsum_close (F F' : nat -> R) l e : (forall p, In p l -> Rabs (F' p - F p) <= e) -> Rabs (Rsum (map F' l) - Rsum (map F l)) <= INR (length l) * e.
  Proof.
    induction l as [|p l IH]; intros D; [cbn [map length]; rewrite !Rsum_nil, Rminus_0_r, Rabs_R0; cbn; lra|].
    cbn [map length]. rewrite !Rsum_cons, S_INR. replace (F' p + Rsum (map F' l) - (F p + Rsum (map F l))) with ((F' p - F p) + (Rsum (map F' l) - Rsum (map F l))) by ring.
    eapply Rle_trans; [apply Rabs_triang|]. specialize (IH (fun q Hq => D q (or_intror Hq))). specialize (D p (or_introl eq_refl)). lra.
  Qed.
  Lemma residual_close r : (0 < w)%nat -> In r rows ->
    Rabs ((h' r - Rmean (map h' rows) - effects rows w h' r) - (h r - Rmean (map h rows) - effects rows w h r)) <= 2 * INR w * eps.
  Proof.
    intros Hw0 Hr. rewrite !effects_sum. pose proof (Hh r (made_row rows w Hw r Hr)) as D. pose proof mu_close as Dm. pose proof He0 as He.
    pose proof (Rsum_close (fun p => RPD1_at rows h p r) (fun p => RPD1_at rows h' p r) (seq 0 w) eps) as DS. rewrite seq_length in DS.
    assert (Hs : forall p, In p (seq 0 w) -> Rabs (RPD1_at rows h' p r - RPD1_at rows h p r) <= eps) by (intros p Hp; apply in_seq in Hp; apply PD1_at_close; [lia|exact Hr]). specialize (DS Hs).
    set (S := Rsum (map (fun p => RPD1_at rows h p r) (seq 0 w))) in *. set (S' := Rsum (map (fun p => RPD1_at rows h' p r) (seq 0 w))) in *.
    set (m := Rmean (map h rows)) in *. set (m' := Rmean (map h' rows)) in *.
    replace (h' r - m' - (S' - INR w * m') - (h r - m - (S - INR w * m))) with ((h' r - h r) + (- (S' - S) + (INR w - 1) * (m' - m))) by ring.
    assert (W1 : 0 <= INR w - 1) by (assert (INR 1 <= INR w) by (apply le_INR; lia); cbn in *; lra).
    assert (Dw : Rabs ((INR w - 1) * (m' - m)) <= (INR w - 1) * eps) by (rewrite Rabs_mult, (Rabs_pos_eq (INR w - 1)) by exact W1; apply Rmult_le_compat_l; assumption).
    eapply Rle_trans; [apply Rabs_triang|]. assert (Rabs (- (S' - S) + (INR w - 1) * (m' - m)) <= INR w * eps + (INR w - 1) * eps) by (eapply Rle_trans; [apply Rabs_triang|]; rewrite Rabs_Ropp; lra). lra.
  Qed.
  Lemma root_variation f : sqrt (variation rows f / n) = Rstd (map f rows).
  Proof. unfold Rstd, Rmean at 1. rewrite center_map, !map_map, map_length. reflexivity. Qed.
  Lemma spread_width : 0 < Rstd (map h rows) -> (0 < w)%nat.
  Proof.
    intros Hs. destruct w as [|w0]; [exfalso|lia]. rewrite <- root_variation in Hs. rewrite (proj2 (variation_zero rows h)) in Hs.
    - unfold Rdiv in Hs. rewrite Rmult_0_l, sqrt_0 in Hs. lra.
    - intros r r' Hr Hr'. pose proof (Hw r Hr) as E. pose proof (Hw r' Hr') as E'. destruct r, r'; try discriminate; reflexivity.
  Qed.
  Lemma index_close : eps < Rstd (map h rows) ->
    0 < variation rows h /\ 0 < variation rows h'
    /\ Rabs (sqrt (unexplained rows w h' / variation rows h') - sqrt (unexplained rows w h / variation rows h)) <= eps * (2 * INR w + sqrt (unexplained rows w h / variation rows h)) / (Rstd (map h rows) - eps).
  Proof.
    intros Hsig. pose proof He0 as He. pose proof (INR_pos_length rows Hne) as Pn. assert (Hw0 : (0 < w)%nat) by (apply spread_width; lra).
    assert (Da : Rabs (sqrt (unexplained rows w h' / n) - sqrt (unexplained rows w h / n)) <= 2 * INR w * eps).
    { pose proof (root_mean_close rows Hne (fun r => h' r - Rmean (map h' rows) - effects rows w h' r) (fun r => h r - Rmean (map h rows) - effects rows w h r) (2 * INR w * eps)) as D.
      assert (EU : forall f, Rmean (map (fun r => Rsqr (f r - Rmean (map f rows) - effects rows w f r)) rows) = unexplained rows w f / n) by (intros f; unfold Rmean at 1; rewrite map_length; reflexivity).
      cbv beta in D. rewrite !EU in D. apply D; [apply Rmult_le_pos; [pose proof (pos_INR w); lra|exact He]|]. intros r Hr. apply residual_close; assumption. }
    assert (Db : Rabs (Rstd (map h' rows) - Rstd (map h rows)) <= eps) by (apply (Rstd_close rows h h' eps Hne He); intros r Hr; apply Hh, (made_row rows w Hw), Hr).
    destruct (ratio_near (2 * INR w) (sqrt (unexplained rows w h / n)) (sqrt (unexplained rows w h' / n)) (Rstd (map h rows)) (Rstd (map h' rows)) (sqrt_pos _) Hsig Da Db) as [Hb' K].
    assert (P : forall f, 0 < Rstd (map f rows) -> 0 < variation rows f).
    { intros f Hf. destruct (Rle_lt_dec (variation rows f) 0) as [L|L]; [|exact L]. exfalso. rewrite <- root_variation, sqrt_neg_0 in Hf; [lra|]. unfold Rdiv. rewrite <- (Rmult_0_l (/ n)). apply Rmult_le_compat_r; [left; apply Rinv_0_lt_compat; exact Pn|exact L]. }
    assert (P1 : 0 < variation rows h) by (apply P; lra). assert (P2 : 0 < variation rows h') by (apply P, Hb'). split; [exact P1|]. split; [exact P2|].
    assert (E : forall f, 0 < variation rows f -> sqrt (unexplained rows w f / variation rows f) = sqrt (unexplained rows w f / n) / Rstd (map f rows)).
    { intros f Hf. rewrite <- root_variation, <- sqrt_div; [|apply Rmult_le_pos; [apply unexplained_nonneg|left; apply Rinv_0_lt_compat; exact Pn]|apply Rmult_lt_0_compat; [exact Hf|apply Rinv_0_lt_compat; exact Pn]].
      f_equal. field. split; lra. }
    rewrite !E by assumption. exact K.
  Qed.
End Close.

Section Stable.
  Context {C G : Type} (O : cell_ops C) (HO : cell_ok O) (Rg : rng_ops G) (HR : rng_ok Rg).
  Notation no_clash a := (~ In "centered_prediction" (f_cols (aa_X a))).
  (** two fits on the same sampled data, the predictions of the first model spread by more than [eps] *)
  Theorem C133_additivity_partial s1 a1 s1' v1 s2 a2 s2' v2 h h' Xs eps :
    wf_frame (aa_X a1) -> wf_frame (aa_X a2) -> no_clash a1 -> no_clash a2 ->
    add_fit O xR Rg s1 a1 = (s1', Ok v1) -> ad_X s1' = Some Xs -> add_explains O xR a1 (fun r => Fin (h r)) Xs ->
    add_fit O xR Rg s2 a2 = (s2', Ok v2) -> ad_X s2' = Some Xs -> add_explains O xR a2 (fun r => Fin (h' r)) Xs ->
    f_rows Xs <> [] -> models_close (f_rows Xs) (length (f_cols Xs)) eps h h' -> (eps < Rstd (map h (f_rows Xs)))%R ->
    indices_close (length (f_cols Xs)) eps (Rstd (map h (f_rows Xs))) v1 v2.
  Proof.
    intros HX1 HX2 Hc1 Hc2 F1 X1 E1 F2 X2 E2 Hne Hh Hsig.
    destruct (index_real O HO Rg HR s1 a1 s1' v1 h Xs HX1 F1 X1 E1 Hc1) as [Hw ->]. destruct (index_real O HO Rg HR s2 a2 s2' v2 h' Xs HX2 F2 X2 E2 Hc2) as [_ ->].
    destruct (index_close (f_rows Xs) (length (f_cols Xs)) Hw Hne h h' eps Hh Hsig) as (P1 & P2 & K). rewrite !xR_div_fin by lra.
    set (q := (unexplained (f_rows Xs) (length (f_cols Xs)) h / variation (f_rows Xs) h)%R) in *. set (q' := (unexplained (f_rows Xs) (length (f_cols Xs)) h' / variation (f_rows Xs) h')%R) in *.
    assert (Q : (0 <= q)%R) by (apply Rmult_le_pos; [apply unexplained_nonneg|left; apply Rinv_0_lt_compat; exact P1]). assert (Q' : (0 <= q')%R) by (apply Rmult_le_pos; [apply unexplained_nonneg|left; apply Rinv_0_lt_compat; exact P2]).
    exists (1 - q)%R, (1 - q')%R. split; [reflexivity|]. split; [reflexivity|]. split; [lra|]. split; [lra|].
    replace (1 - (1 - q'))%R with q' by ring. replace (1 - (1 - q))%R with q by ring. exact K.
  Qed.
  (** a model close to an additive one has an index close to 1 *)
  Theorem C133_nearly_additive_index_partial s a s' v h0 h Xs eps :
    wf_frame (aa_X a) -> no_clash a -> add_fit O xR Rg s a = (s', Ok v) -> ad_X s' = Some Xs -> add_explains O xR a (fun r => Fin (h r)) Xs ->
    f_rows Xs <> [] -> models_close (f_rows Xs) (length (f_cols Xs)) eps h0 h -> additive_model (length (f_cols Xs)) h0 -> (eps < Rstd (map h0 (f_rows Xs)))%R ->
    exists x, v = Fin x /\ (1 - Rsqr (2 * INR (length (f_cols Xs)) * eps / (Rstd (map h0 (f_rows Xs)) - eps)) <= x <= 1)%R.
  Proof.
    intros HX Hc F X E Hne Hh Hadd Hsig. destruct (index_real O HO Rg HR s a s' v h Xs HX F X E Hc) as [Hw ->].
    destruct (index_close (f_rows Xs) (length (f_cols Xs)) Hw Hne h0 h eps Hh Hsig) as (P1 & P2 & K). rewrite xR_div_fin by lra.
    rewrite (additive_unexplained (f_rows Xs) _ Hw h0 Hadd) in K.
    set (q := (unexplained (f_rows Xs) (length (f_cols Xs)) h / variation (f_rows Xs) h)%R) in *. assert (Q : (0 <= q)%R) by (apply Rmult_le_pos; [apply unexplained_nonneg|left; apply Rinv_0_lt_compat; exact P2]).
    replace (0 / variation (f_rows Xs) h0)%R with 0%R in K by (unfold Rdiv; ring). rewrite sqrt_0, Rminus_0_r, Rplus_0_r, Rabs_pos_eq in K by apply sqrt_pos.
    exists (1 - q)%R. split; [reflexivity|]. split; [|lra]. pose proof (sqrt_pos q) as Sq. apply Rsqr_incr_1 in K; [|exact Sq|lra]. rewrite Rsqr_sqrt in K by exact Q.
    replace (2 * INR (length (f_cols Xs)) * eps / (Rstd (map h0 (f_rows Xs)) - eps))%R with (eps * (2 * INR (length (f_cols Xs))) / (Rstd (map h0 (f_rows Xs)) - eps))%R by (unfold Rdiv; ring). lra.
  Qed.
End Stable.

(** ** Example: every model within 1/10 of [x + 2*y] on the four combinations of 0 and 1 *)
Lemma adhR_spread : (11 / 10 <= Rstd (map adhR (f_rows adXR)))%R.
Proof.
  rewrite <- root_variation. replace (variation (f_rows adXR) adhR / INR (length (f_rows adXR)))%R with (5 / 4)%R.
  - rewrite <- (sqrt_Rsqr (11 / 10)) by lra. apply sqrt_le_1_alt. unfold Rsqr. lra.
  - assert (M : Rmean (map adhR (f_rows adXR)) = (3 / 2)%R) by (unfold Rmean; cbn [adXR adX f_rows map adhR length]; rewrite !Rsum_cons, Rsum_nil; cbn [INR]; lra).
    unfold variation. rewrite M. cbn [adXR adX f_rows map adhR length]. rewrite !Rsum_cons, Rsum_nil. unfold Rsqr. cbn [INR]. lra.
Qed.
Definition near_P (h : list Z -> R) : nat -> list (list Z) -> result (list (ext R)) := fun _ rows => Ok (map (fun r => Fin (h r)) rows).
Example C133_additivity_example h : models_close (f_rows adXR) 2 (1 / 10) adhR h ->
  exists s' x, add_fit Zcell xR rotR ad0 (mkadd (near_P h) adXR) = (s', Ok (Fin x)) /\ (4 / 5 <= x <= 1)%R.
Proof.
  intros Hh. assert (Hw : wf_frame adXR) by (repeat constructor; cbn; intuition congruence).
  assert (Hrow : rowwise (near_P h) (fun r => Fin (h r))) by (intros n rows ys H; unfold near_P in H; congruence).
  assert (Hex : add_explains Zcell xR (mkadd (near_P h) adXR) (fun r => Fin (h r)) adXR) by (split; [exact Hrow|exact I]).
  destruct (C23_fit_returns Zcell xR Zcell_ok xR_ord rotR rotR_ok ad0 (mkadd (near_P h) adXR) (fun r => Fin (h r)) adXR 0 Hw eq_refl) as (s' & v & E & EX & _).
  { split; [exact Hrow|]. split; [|exact I]. intros n rows. eexists; reflexivity. }
  { intros f p v _ _. unfold c_isnan. cbn. rewrite Z.eqb_refl. reflexivity. }
  assert (Hadd : additive_model 2 adhR).
  { exists 0%R, (fun p v => match p, v with 0, Some x => IZR x | _, Some x => (2 * IZR x)%R | _, None => 0%R end).
    intros [|x [|y [|]]] Hr; cbn in Hr; try lia. cbn [seq map nth_error adhR]. rewrite !Rsum_cons, Rsum_nil. lra. }
  pose proof adhR_spread as Hs.
  destruct (C133_nearly_additive_index_partial Zcell Zcell_ok rotR rotR_ok ad0 (mkadd (near_P h) adXR) s' v adhR h adXR (1 / 10)%R Hw) as (x & -> & L & U); try assumption.
  - cbn. intuition congruence.
  - discriminate.
  - lra.
  - exists s', x. split; [exact E|]. split; [|exact U]. eapply Rle_trans; [|exact L]. change (INR (length (f_cols adXR))) with (1 + 1)%R.
    set (d := Rstd (map adhR (f_rows adXR))) in *. assert (B : (2 * (1 + 1) * (1 / 10) / (d - 1 / 10) <= 4 / 10)%R).
    { apply (Rmult_le_reg_r (d - 1 / 10)); [lra|]. unfold Rdiv at 1. rewrite Rmult_assoc, Rinv_l, Rmult_1_r by lra. lra. }
    assert (B0 : (0 <= 2 * (1 + 1) * (1 / 10) / (d - 1 / 10))%R) by (apply Rmult_le_pos; [lra|left; apply Rinv_0_lt_compat; lra]).
    apply Rsqr_incr_1 in B; [|exact B0|lra]. unfold Rsqr at 2 in B. lra.
Qed.

Print Assumptions C133_additivity_partial.
Print Assumptions C133_nearly_additive_index_partial.
