(** C134, continued: the order of the tables of a model that answers differently every time. *)
From Verif Require Import Py Num NumR Sorting Frame Rng PdCalc EngineFacts PdSpec PdFacts PdProofs PdTheorems PdErrors PdApi PdMethods MethodSpec
  PdMethodFacts PdMethodRun PdMethodReal PdMethodReal2 GreenwellFacts Props_Pd Props_Methods Props_Methods2 PermFacts Additivity Props_Additivity Views Props_Views PdAny Props_Any Props_Terms Props_Stable Props_Share Props_Stable3 Props_Stable4 Props_Noise Props_Noise4.
From Coq Require Import Reals Lra Lia.
Open Scope string_scope.
Open Scope nat_scope.
Open Scope list_scope.

Section Order.
  Context {C G : Type} (O : cell_ops C) (HO : cell_ok O) (Rg : rng_ops G) (HR : rng_ok Rg) (srt : sorter) (Hs : sorter_ok srt).
  Notation no_clash a := (~ In "centered_prediction" (f_cols (aa_X a))).
  Notation fit := (PdMethods.fit O xR Rg srt).
  Notation "'fin' h" := (fun r => Fin (h r)) (at level 10, only parsing).

  (** in a table of finite values the larger one is above *)
  Lemma table_above {A} (l : list (A * ext R)) (u v : A) x y i j : (forall k w, In (k, w) l -> exists z, w = Fin z) ->
    nth_error (table xR srt l) i = Some (u, Fin x) -> nth_error (table xR srt l) j = Some (v, Fin y) -> (y < x)%R -> i < j.
  Proof.
    intros Hf Hi Hj Hlt. destruct (sort_values_ok xR srt false (fun r : A * ext R => snd r) l Hs xR_ord) as [Hp Hd].
    unfold table in *. set (k := sort_values xR srt false _ l) in *.
    assert (Hk : forall r, In r k -> exists z, snd r = Fin z) by (intros [b w] Hr; apply (Hf b w), (Permutation_in _ Hp), Hr). clear Hp Hf.
    assert (Hat : forall n b z, nth_error (map (fun r : A * ext R => (fst r, fillna0 xR (snd r))) k) n = Some (b, Fin z) -> nth_error k n = Some (b, Fin z)).
    { intros n b z H. rewrite nth_error_map in H. destruct (nth_error k n) as [[b' w]|] eqn:E; [|discriminate]. cbn [option_map fst snd] in H.
      destruct (Hk _ (nth_error_In _ _ E)) as (z' & Ez). cbn [snd] in Ez. subst w. cbn in H. congruence. }
    apply Hat in Hi, Hj. clear Hat Hk. destruct (Nat.lt_trichotomy i j) as [L|[L|L]]; [exact L|subst; rewrite Hi in Hj; injection Hj as _ E; lra|exfalso].
    clearbody k. revert i j Hi Hj L. induction Hd as [|r k Hd IH Hr]; intros i j Hi Hj L; [destruct i; discriminate|].
    destruct i as [|i]; [lia|]. destruct j as [|j]; [|apply (IH i j Hi Hj); lia]. injection Hj as ->. cbn [nth_error] in Hi. rewrite Forall_forall in Hr. specialize (Hr _ (nth_error_In _ _ Hi)).
    cbn in Hr. apply negb_true_iff, Rltb_false in Hr. lra.
  Qed.

  Lemma col_unique Xs (i j : nat) f : NoDup (f_cols Xs) -> nth_error (f_cols (C:=C) Xs) i = Some f -> nth_error (f_cols Xs) j = Some f -> i = j.
  Proof. intros Hd Hi Hj. apply (proj1 (NoDup_nth_error _) Hd); [eapply pos_lt; exact Hi|congruence]. Qed.

  Lemma close_lt eps x x' y y' d : (Rabs (x' - x) <= d * eps)%R -> (Rabs (y' - y) <= d * eps)%R -> (y + 2 * d * eps < x)%R -> (y' < x')%R.
  Proof. intros A B. revert A B. unfold Rabs. destruct (Rcase_abs (x' - x)), (Rcase_abs (y' - y)); lra. Qed.

  (** pairs whose H statistics differ by more than [6 * eps] are listed in the right order *)
  Theorem C134_order s a s' h eps Xs t f1 f2 g1 g2 p q p' q' x y w w' i j :
    wf_frame (a_X a) -> fit (Friedman false) s a = (s', Ok tt) -> m_X s' = Some Xs -> explains_noisy O a h eps Xs -> f_rows Xs <> [] -> m_ovo s' = Some t ->
    nth_error (f_cols Xs) p = Some f1 -> nth_error (f_cols Xs) q = Some f2 -> nth_error (f_cols Xs) p' = Some g1 -> nth_error (f_cols Xs) q' = Some g2 ->
    H_pair xR (fin h) (f_rows Xs) false p q = Fin x -> H_pair xR (fin h) (f_rows Xs) false p' q' = Fin y -> (y + 6 * eps < x)%R ->
    nth_error t i = Some (f1, f2, w) -> nth_error t j = Some (g1, g2, w') -> i < j.
  Proof.
    intros HX H HXs Hex Hne Ht P1 P2 P3 P4 Ex Ey Hxy Hi Hj. apply fit_ok in H as (Xs' & rng' & c & c1 & t' & c2 & fi & Es & Ec & Eo & Ei & E1 & E2 & E3 & E4 & E5 & E6).
    rewrite HXs in E1; injection E1 as <-. rewrite Ht in E3; injection E3 as <-. destruct (sample_wf Rg _ _ _ _ _ HR HX Es) as (HwX & _). pose proof (proj1 HwX) as Hd.
    destruct (noisy_calc O _ _ _ _ _ Hex Ec) as (m & P & b & Hr & Hn). cbn [ovo_of] in Eo.
    apply (friedman_ovo_noise O HO srt Xs _ _ _ _ _ m P b h eps HwX Hne Hn Hr) in Eo as (l & -> & _ & F); [|intros u; apply combinations2_fst_snd].
    assert (K : forall k f1 f2 w p q x, nth_error (table xR srt l) k = Some (f1, f2, w) -> nth_error (f_cols Xs) p = Some f1 -> nth_error (f_cols Xs) q = Some f2 ->
      H_pair xR (fin h) (f_rows Xs) false p q = Fin x -> exists x', w = Fin x' /\ (Rabs (x' - x) <= 3 * eps)%R).
    { intros k u1 u2 z n1 n2 x0 Hk N1 N2 En. apply nth_error_In, (table_In xR srt Hs xR_ord) in Hk as (z' & Hz & ->).
      apply (Forall2_In_right _ _ _ _ F) in Hz as (pr & _ & Epr & m1 & m2 & M1 & M2 & _ & y1 & y2 & Y1 & Y2 & B). cbn [fst snd] in *. subst pr. cbn [fst snd] in *.
      rewrite (col_unique Xs _ _ _ Hd M1 N1), (col_unique Xs _ _ _ Hd M2 N2), En in Y1. injection Y1 as <-. subst z'. exists y2. split; [reflexivity|exact B]. }
    destruct (K _ _ _ _ _ _ _ Hi P1 P2 Ex) as (x' & -> & B1). destruct (K _ _ _ _ _ _ _ Hj P3 P4 Ey) as (y' & -> & B2).
    apply (table_above l (f1, f2) (g1, g2) x' y' i j); [|exact Hi|exact Hj|apply (close_lt eps x x' y y' 3 B1 B2); lra].
    intros k z Hz. apply (Forall2_In_right _ _ _ _ F) in Hz as (pr & _ & _ & m1 & m2 & _ & _ & _ & y1 & y2 & _ & Y2 & _). eauto.
  Qed.

  (** features, one versus all *)
  Theorem C134_one_versus_all_order s a s' h eps Xs t f g p q x y w w' i j :
    wf_frame (a_X a) -> fit (Friedman false) s a = (s', Ok tt) -> m_X s' = Some Xs -> explains_noisy O a h eps Xs -> f_rows Xs <> [] -> a_ova a = true -> m_ova s' = Some t ->
    nth_error (f_cols Xs) p = Some f -> nth_error (f_cols Xs) q = Some g ->
    H_all xR (fin h) (f_rows Xs) false p = Fin x -> H_all xR (fin h) (f_rows Xs) false q = Fin y -> (y + 6 * eps < x)%R ->
    nth_error t i = Some (f, w) -> nth_error t j = Some (g, w') -> i < j.
  Proof.
    intros HX H HXs Hex Hne Ho Ht P1 P2 Ex Ey Hxy Hi Hj. apply fit_ok in H as (Xs' & rng' & c & c1 & t' & c2 & fi & Es & Ec & Eo & Ei & E1 & E2 & E3 & E4 & E5 & E6).
    rewrite HXs in E1; injection E1 as <-. destruct (sample_wf Rg _ _ _ _ _ HR HX Es) as (HwX & _). pose proof (proj1 HwX) as Hd.
    destruct (noisy_calc O _ _ _ _ _ Hex Ec) as (m & P & b & Hr & Hn). cbn [ovo_of] in Eo.
    apply (friedman_ovo_noise O HO srt Xs _ _ _ _ _ m P b h eps HwX Hne Hn Hr) in Eo as (_ & _ & Hr1 & _); [|intros u; apply combinations2_fst_snd].
    apply (pdp_importance_noise O HO srt Xs _ _ _ _ m P b h eps HwX Hne Hn Hr1) in Ei as (_ & _ & Hcs & _).
    rewrite Ho in E6. destruct E6 as (c3 & ova & Ev & Em & _). rewrite Ht in Em; injection Em as <-.
    apply (friedman_ova_noise O HO srt _ Xs _ _ _ _ m P b h eps c1 HwX Hne Hn (proj1 Hex) Hr1 Hcs) in Ev as (l & -> & F).
    assert (K : forall k f w p x, nth_error (table xR srt l) k = Some (f, w) -> nth_error (f_cols Xs) p = Some f ->
      H_all xR (fin h) (f_rows Xs) false p = Fin x -> exists x', w = Fin x' /\ (Rabs (x' - x) <= 3 * eps)%R).
    { intros k u z n x0 Hk N1 En. apply nth_error_In, (table_In xR srt Hs xR_ord) in Hk as (z' & Hz & ->).
      apply (Forall2_In_right _ _ _ _ F) in Hz as (u' & _ & Eu & m1 & M1 & y1 & y2 & Y1 & Y2 & B). cbn [fst snd] in *. subst u'.
      rewrite (col_unique Xs _ _ _ Hd M1 N1), En in Y1. injection Y1 as <-. subst z'. exists y2. split; [reflexivity|exact B]. }
    destruct (K _ _ _ _ _ Hi P1 Ex) as (x' & -> & B1). destruct (K _ _ _ _ _ Hj P2 Ey) as (y' & -> & B2).
    apply (table_above l f g x' y' i j); [|exact Hi|exact Hj|apply (close_lt eps x x' y y' 3 B1 B2); lra].
    intros k z Hz. apply (Forall2_In_right _ _ _ _ F) in Hz as (u & _ & _ & m1 & _ & y1 & y2 & _ & Y2 & _). eauto.
  Qed.

  (** the index of the additivity meter, measured twice *)
  Theorem C134_additivity_repeated s1 a1 s1' s2 a2 s2' v1 v2 h Xs eps :
    wf_frame (aa_X a1) -> wf_frame (aa_X a2) -> no_clash a1 -> no_clash a2 ->
    add_fit O xR Rg s1 a1 = (s1', Ok v1) -> ad_X s1' = Some Xs -> add_noisy O a1 h eps Xs ->
    add_fit O xR Rg s2 a2 = (s2', Ok v2) -> ad_X s2' = Some Xs -> add_noisy O a2 h eps Xs ->
    f_rows Xs <> [] -> (eps < Rstd (map h (f_rows Xs)))%R ->
    exists x1 x2 r, v1 = Fin x1 /\ v2 = Fin x2 /\ additivity_spec xR (fin h) (f_rows Xs) (length (f_cols Xs)) = Fin r
      /\ (Rabs (sqrt (1 - x1) - sqrt (1 - x2)) <= 2 * (eps * (2 * INR (length (f_cols Xs)) + sqrt (1 - r)) / (Rstd (map h (f_rows Xs)) - eps)))%R.
  Proof.
    intros X1 X2 C1 C2 F1 E1 N1 F2 E2 N2 Hne Hsig.
    destruct (C134_additivity O HO Rg HR _ _ _ _ _ _ _ X1 C1 F1 E1 N1 Hne Hsig) as (r & x1 & R1 & -> & _ & _ & B1).
    destruct (C134_additivity O HO Rg HR _ _ _ _ _ _ _ X2 C2 F2 E2 N2 Hne Hsig) as (r' & x2 & R2 & -> & _ & _ & B2).
    rewrite R1 in R2. injection R2 as <-. exists x1, x2, r. split; [reflexivity|]. split; [reflexivity|]. split; [exact R1|].
    revert B1 B2. unfold Rabs. repeat match goal with |- context [Rcase_abs ?p] => destruct (Rcase_abs p) end; lra.
  Qed.
End Order.

(** ** Example: the noisy model of C134_example; (a, b) is listed above (a, c) *)
Example C134_order_example : exists s' t i j v w,
  PdMethods.fit Zcell xR rotR isort (Friedman false) init0 nargs = (s', Ok tt) /\ m_ovo s' = Some t
  /\ nth_error t i = Some ("a", "b", v) /\ nth_error t j = Some ("a", "c", w) /\ i < j.
Proof.
  destruct C134_example as (s' & t & v & w & E & T & I1 & I2 & _). apply In_nth_error in I1 as (i & I1), I2 as (j & I2).
  exists s', t, i, j, (Fin v), (Fin w). split; [exact E|]. split; [exact T|]. split; [exact I1|]. split; [exact I2|].
  assert (Hex : explains_noisy Zcell nargs th (/ 100) rX) by (split; [exact nP_noisy|exact I]).
  assert (Hrows : f_rows rX <> []) by discriminate.
  assert (EX : m_X s' = Some rX).
  { apply (C134_returns Zcell Zcell_ok rotR rotR_ok isort false init0 nargs s' (Ok tt) th (/ 100) rX (m_rng init0) rX_wf eq_refl Hrows nP_noisy
     (fun n rows => ex_intro _ _ eq_refl) I (Z_complete rX) (proj1 rX_wf) (fun f Hf => Hf) E). }
  assert (Z : H_pair xR (fun r => Fin (th r)) (f_rows rX) false 0 2 = Fin 0%R).
  { destruct (rfit_ok false th true) as (s1 & E1 & X1).
    destruct (C12_friedman_pairs Zcell xR Zcell_ok xR_ord eq_refl rotR rotR_ok isort isort_ok false init0 (rargs th true) s1 _ rX rX_wf E1 X1 (rargs_explains _ true)) as (t1 & T1 & K1 & V1 & _).
    assert (J1 : In ("a", "c") (map fst t1)) by (rewrite K1; cbn; auto). apply in_map_iff in J1 as ([[f1 f2] w1] & F1 & J1). injection F1 as -> ->.
    assert (Hw : w1 = Fin 0%R).
    { apply (C14_no_interaction_pair Zcell Zcell_ok rotR rotR_ok isort isort_ok false init0 (rargs th true) s1 th rX t1 "a" "c" w1 0 2 rX_wf E1 X1 (rargs_explains th true) T1 J1 eq_refl eq_refl).
      exists (fun _ => 0%R), th. split; [intros; lra|]. split; [intros r u _; reflexivity|]. intros r u Hl. destruct r as [|a0 [|b0 [|c0 [|]]]]; try discriminate Hl. reflexivity. }
    destruct (V1 _ _ _ J1) as (p & q & Hp & Hq & _ & Ew). rewrite (col_unique rX p 0 "a" (proj1 rX_wf) Hp eq_refl), (col_unique rX q 2 "c" (proj1 rX_wf) Hq eq_refl), Hw in Ew.
    assert (Hr : forall r, In r (f_rows rX) -> length r = 3) by (cbn; intuition (subst; reflexivity)).
    unfold H_pair in Ew |- *. rewrite (H_value_fin (f_rows rX) false _ _ _ (RPD2_at (f_rows rX) th 0 2) (RPD1_at (f_rows rX) th 0) (RPD1_at (f_rows rX) th 2)) in Ew |- *
      by (first [apply (PD2_at_fin (f_rows rX) 3 Hr)|apply (PD1_at_fin (f_rows rX) 3 Hr)]; lia).
    assert (Hl : (0 < INR (length (f_rows rX)))%R) by (cbn [f_rows rX length INR]; lra). set (k := INR (length (f_rows rX))) in *. clearbody k.
    pose proof (RHnum_nonneg (f_rows rX) (RPD2_at (f_rows rX) th 0 2) (RPD1_at (f_rows rX) th 0) (RPD1_at (f_rows rX) th 2)) as Hz. set (z := RHnum _ _ _ _) in *. clearbody z.
    rewrite xR_div_fin in Ew |- * by lra. rewrite xR_sqrt_fin in Ew |- * by (apply Rmult_le_pos; [exact Hz|left; apply Rinv_0_lt_compat, Hl]). exact (eq_sym Ew). }
  apply (C134_order Zcell Zcell_ok rotR rotR_ok isort isort_ok init0 nargs s' th (/ 100) rX t "a" "b" "a" "c" 0 1 0 2 (sqrt (2 / 81)) 0 (Fin v) (Fin w) i j rX_wf E EX Hex Hrows T
    eq_refl eq_refl eq_refl eq_refl (th_H false) Z); [|exact I1|exact I2].
  assert (S : (15 / 100 <= sqrt (2 / 81))%R) by (rewrite <- (sqrt_Rsqr (15 / 100)) by lra; apply sqrt_le_1_alt; unfold Rsqr; lra). lra.
Qed.

Print Assumptions C134_order.
Print Assumptions C134_one_versus_all_order.
Print Assumptions C134_additivity_repeated.
