(** C137: accuracy of the importance values and of the additivity index in doubles. *)
From Verif Require Import Py Num NumR Float FloatRound FloatMono FloatOps FloatErr FloatInt FloatReal Sorting Frame Rng PdCalc PdSpec PdFacts PdProofs PdTheorems PdErrors PdApi PdMethods MethodSpec
  PdMethodFacts PdMethodRun PdMethodReal PdMethodReal2 GreenwellFacts Props_Pd Props_Methods Props_Methods2 Props_Float Props_Float3 Views Props_Views Comparator Props_Compare Props_Terms Props_Stable Additivity Props_Additivity Props_Accuracy.
From Coq Require Import ZArith SpecFloat Reals Lra Lia.
Open Scope string_scope.
Open Scope nat_scope.
Open Scope list_scope.

(** ** Standard deviation and range of a profile *)
Section Spread.
  Context {A : Type} (sum : list F -> F) (Hsum : forall l, added l (sum l)) (l : list A) (Hne : l <> []) (n : nat) (Hln : length l <= n) (B : R).
  Notation N := (fl64 sum).
  Notation k := (INR n * ulp)%R.
  Context (Hn : (INR n <= P2 40)%R) (HB : (B <= P2 480)%R) (HB0 : (0 <= B)%R).
  Context (f : A -> F) (h : A -> R) (Hf : forall a, In a l -> near (f a) (h a) (2 * k * B + eta) B).
  Open Scope R_scope.
  Notation single := (map (fun a => [a]) l).
  Definition at1 {X} (d : X) (g : A -> X) (r : list A) : X := match r with [a] => g a | _ => d end.

  Lemma l_n : INR (length l) <= INR n. Proof. apply le_INR, Hln. Qed.
  Lemma l_1 : 1 <= INR (length l). Proof. change 1 with (INR 1). apply le_INR. destruct l; [congruence|cbn; lia]. Qed.
  Lemma k_13 : ulp <= k <= / 8192.
  Proof.
    pose proof l_n. pose proof l_1. pose proof ulp_pos. split; [nra|]. rewrite <- P2_m13. change (-13)%Z with (40 + -53)%Z. rewrite P2_add. fold ulp. apply Rmult_le_compat_r; [lra|exact Hn].
  Qed.
  Lemma near_dev1 a : In a l -> near (fsub (f a) (np_mean N (map f l))) (h a - Rmean (map h l)) (10 * (k * B) + 5 * eta) (2 * B).
  Proof.
    intros Ha. destruct k_13 as [UK K]. pose proof ulp_pos as U. pose proof eta_pos as ET. pose proof eta_1 as E1. destruct big_1 as [G1 G2]. pose proof l_n as Ln. pose proof l_1 as L1.
    assert (KB : 0 <= k * B) by (apply Rmult_le_pos; lra). assert (KB2 : k * B <= / 8192 * B) by (apply Rmult_le_compat_r; lra).
    assert (KE : k * eta <= / 8192 * eta) by (apply Rmult_le_compat_r; lra). assert (KE0 : 0 <= k * eta) by (apply Rmult_le_pos; lra).
    assert (KKB : k * (k * B) <= / 8192 * (k * B)) by (apply Rmult_le_compat_r; lra). assert (KKB0 : 0 <= k * (k * B)) by (apply Rmult_le_pos; lra).
    assert (LK : INR (length l) * ulp <= k) by (apply Rmult_le_compat_r; lra). assert (LK0 : 0 <= INR (length l) * ulp) by (apply Rmult_le_pos; lra).
    assert (M : near (np_mean N (map f l)) (Rmean (map h l)) (5 * (k * B) + 3 * eta) B).
    { eapply near_le; [apply (near_mean sum Hsum f h (2 * k * B + eta) B l Hne Hf)| |lra].
      - lra.
      - apply Rle_trans with (P2 40 * P2 490); [|rewrite <- P2_add; apply P2_le; lia]. apply Rmult_le_compat; lra.
      - assert (2 * (INR (length l) * ulp) * (B + (2 * k * B + eta)) <= 2 * k * (B + (2 * k * B + eta))) by (apply Rmult_le_compat_r; lra). lra. }
    eapply near_le; [apply (near_sub _ _ _ _ _ _ _ _ (Hf a Ha) M)| |lra].
    - apply small_1. lra.
    - assert (ulp * (2 * k * B + eta + (5 * (k * B) + 3 * eta) + B + B) <= k * (2 * k * B + eta + (5 * (k * B) + 3 * eta) + B + B)) by (apply Rmult_le_compat_r; lra). lra.
  Qed.

  Lemma std_float : within (40 * k * B + P2 (-530)) (np_std N (map f l)) (Rstd (map h l)).
  Proof.
    destruct k_13 as [UK K]. pose proof ulp_pos as U. pose proof eta_pos as ET. pose proof eta_1 as E1. destruct big_1 as [G1 G2]. pose proof l_n as Ln. pose proof l_1 as L1.
    assert (KB : 0 <= k * B) by (apply Rmult_le_pos; lra). assert (KB2 : k * B <= / 8192 * B) by (apply Rmult_le_compat_r; lra).
    assert (KE : k * eta <= / 8192 * eta) by (apply Rmult_le_compat_r; lra).
    assert (LK : INR (length l) * ulp <= k) by (apply Rmult_le_compat_r; lra). assert (LK0 : 0 <= INR (length l) * ulp) by (apply Rmult_le_pos; lra).
    set (d := fun a => fsub (f a) (np_mean N (map f l))). set (e := fun a => h a - Rmean (map h l)).
    assert (Sne : single <> []) by (destruct l; [congruence|discriminate]).
    assert (Sn : INR (length single) <= P2 40) by (rewrite map_length; lra).
    destruct (rms_float sum Hsum single Sne Sn (at1 S754_nan d) (2 * B + (10 * (k * B) + 5 * eta))) as [G S].
    { lra. }
    { intros r Hr. apply in_map_iff in Hr as (a & <- & Ha). cbn [at1]. pose proof (near_dev1 a Ha) as D. split; [apply D|apply (near_abs _ _ _ _ D)]. }
    pose proof (root_near single Sne (at1 0 (fun a => fv (d a))) (at1 0 e) (10 * (k * B) + 5 * eta) ltac:(lra)) as T. rewrite map_length in S. rewrite map_map in G. rewrite (map_map _ (fun r => fmul (at1 S754_nan d r) (at1 S754_nan d r))), (map_map _ (fun r => Rsqr (fv (at1 S754_nan d r)))) in S. rewrite (map_map _ (fun r => Rsqr (at1 0 (fun a => fv (d a)) r))), (map_map _ (fun r => Rsqr (at1 0 e r))) in T. cbn [at1] in G, S, T.
    assert (EF : np_std N (map f l) = fsqrt (np_mean N (map (fun a => fmul (d a) (d a)) l))) by (unfold np_std, center; rewrite !map_map; reflexivity).
    assert (ER : Rstd (map h l) = sqrt (Rmean (map (fun a => Rsqr (e a)) l))) by (unfold Rstd; rewrite Rcenter_map, map_map; reflexivity).
    rewrite EF, ER. split; [exact G|]. specialize (T ltac:(intros r Hr; apply in_map_iff in Hr as (a & <- & Ha); cbn [at1]; apply (near_dev1 a Ha))).
    set (v := fv (fsqrt (np_mean N (map (fun a => fmul (d a) (d a)) l)))). set (q := sqrt (Rmean (map (fun a => Rsqr (fv (d a))) l))). set (y := sqrt (Rmean (map (fun a => Rsqr (e a)) l))).
    change (Rabs (v - q) <= 7 * (INR (length l) * ulp) * (2 * B + (10 * (k * B) + 5 * eta)) + 2 * sqrt (3 * eta)) in S. change (Rabs (q - y) <= 10 * (k * B) + 5 * eta) in T.
    assert (R1 : 7 * (INR (length l) * ulp) * (2 * B + (10 * (k * B) + 5 * eta)) <= 7 * k * (2 * B + (10 * (k * B) + 5 * eta))) by (apply Rmult_le_compat_r; lra).
    assert (KKB : k * (k * B) <= / 8192 * (k * B)) by (apply Rmult_le_compat_r; lra).
    assert (Rabs (v - y) <= Rabs (v - q) + Rabs (q - y)) by (replace (v - y) with ((v - q) + (q - y)) by ring; apply Rabs_triang).
    pose proof eta_root. pose proof (sqrt_pos (3 * eta)). lra.
  Qed.

  Lemma vmax2_fv x y : finite x -> finite y -> finite (vmax2 N x y) /\ fv (vmax2 N x y) = Rmax (fv x) (fv y).
  Proof.
    intros Hx Hy. unfold vmax2. cbn [n_isnan n_ltb fl64]. rewrite (finite_num x Hx), (finite_num y Hy). destruct (SFltb x y) eqn:E.
    - split; [exact Hy|]. symmetry. apply Rmax_right. apply Rnot_lt_le. intros L. assert (K : fle y x) by (apply (fle_fv y x Hy Hx); lra). 
      destruct K as (_ & _ & K). congruence.
    - split; [exact Hx|]. symmetry. apply Rmax_left. apply (fle_fv y x Hy Hx). repeat split; [apply finite_num, Hy|apply finite_num, Hx|exact E].
  Qed.
  Lemma vmin2_fv x y : finite x -> finite y -> finite (vmin2 N x y) /\ fv (vmin2 N x y) = Rmin (fv x) (fv y).
  Proof.
    intros Hx Hy. unfold vmin2. cbn [n_isnan n_ltb fl64]. rewrite (finite_num x Hx), (finite_num y Hy). destruct (SFltb y x) eqn:E.
    - split; [exact Hy|]. symmetry. apply Rmin_right. apply Rnot_lt_le. intros L. assert (K : fle x y) by (apply (fle_fv x y Hx Hy); lra).
      destruct K as (_ & _ & K). congruence.
    - split; [exact Hx|]. symmetry. apply Rmin_left. apply (fle_fv x y Hx Hy). repeat split; [apply finite_num, Hx|apply finite_num, Hy|exact E].
  Qed.
  Lemma max_fv (x : F) t : finite x -> Forall finite t -> finite (fold_left (vmax2 N) t x) /\ fv (fold_left (vmax2 N) t x) = fold_left Rmax (map fv t) (fv x).
  Proof.
    revert x. induction t as [|y t IH]; intros x Hx Ht; [split; [exact Hx|reflexivity]|]. inversion Ht as [|? ? Hy Ht']; subst. destruct (vmax2_fv x y Hx Hy) as [G E]. cbn [fold_left map]. rewrite <- E. apply IH; assumption.
  Qed.
  Lemma min_fv (x : F) t : finite x -> Forall finite t -> finite (fold_left (vmin2 N) t x) /\ fv (fold_left (vmin2 N) t x) = fold_left Rmin (map fv t) (fv x).
  Proof.
    revert x. induction t as [|y t IH]; intros x Hx Ht; [split; [exact Hx|reflexivity]|]. inversion Ht as [|? ? Hy Ht']; subst. destruct (vmin2_fv x y Hx Hy) as [G E]. cbn [fold_left map]. rewrite <- E. apply IH; assumption.
  Qed.
  Lemma extremes : exists mx mn, np_max N (map f l) = Ok mx /\ np_min N (map f l) = Ok mn
    /\ near mx (Rmaxl (map h l)) (2 * k * B + eta) B /\ near mn (Rminl (map h l)) (2 * k * B + eta) B.
  Proof.
    assert (FF : Forall finite (map f l)) by (apply Forall_forall; intros x Hx; apply in_map_iff in Hx as (a & <- & Ha); apply (Hf a Ha)).
    assert (C1 : Rabs (Rmaxl (map (fun a => fv (f a)) l) - Rmaxl (map h l)) <= 2 * k * B + eta) by (apply Rmaxl_close; [exact Hne|intros a Ha; apply (Hf a Ha)]).
    assert (C2 : Rabs (Rminl (map (fun a => fv (f a)) l) - Rminl (map h l)) <= 2 * k * B + eta) by (apply Rminl_close; [exact Hne|intros a Ha; apply (Hf a Ha)]).
    assert (B1 : Rabs (Rmaxl (map h l) - Rmaxl (map (fun _ => 0) l)) <= B) by (apply Rmaxl_close; [exact Hne|intros a Ha; rewrite Rminus_0_r; apply (Hf a Ha)]).
    assert (B2 : Rabs (Rminl (map h l) - Rminl (map (fun _ => 0) l)) <= B) by (apply Rminl_close; [exact Hne|intros a Ha; rewrite Rminus_0_r; apply (Hf a Ha)]).
    rewrite Rmaxl_const, Rminus_0_r in B1 by exact Hne. rewrite Rminl_const, Rminus_0_r in B2 by exact Hne.
    rewrite <- (map_map f fv l) in C1, C2. destruct (map f l) as [|x t] eqn:E; [destruct l; [congruence|discriminate]|]. inversion FF as [|? ? Hx Ht]; subst.
    destruct (max_fv x t Hx Ht) as [G1 E1]. destruct (min_fv x t Hx Ht) as [G2 E2]. do 2 eexists. split; [reflexivity|]. split; [reflexivity|]. cbn [map Rmaxl Rminl] in C1, C2. rewrite <- E1 in C1. rewrite <- E2 in C2.
    split; (split; [assumption|split; assumption]).
  Qed.
  (** the importance of a profile *)
  Theorem spread_float num : exists v, calc_importance N (map f l) num = Ok v /\ within (40 * k * B + P2 (-530)) v (Rspread num (map h l)).
  Proof.
    unfold calc_importance, Rspread. destruct num; [eexists; split; [reflexivity|exact std_float]|].
    destruct extremes as (mx & mn & -> & -> & H1 & H2). cbn [bind]. eexists. split; [reflexivity|]. cbn [n_div n_sub n_ofZ fl64].
    destruct k_13 as [UK K]. pose proof ulp_pos as U. pose proof eta_pos as ET. pose proof eta_1 as E1. destruct big_1 as [G1 G2].
    assert (KB : 0 <= k * B) by (apply Rmult_le_pos; lra). assert (KB2 : k * B <= / 8192 * B) by (apply Rmult_le_compat_r; lra).
    assert (KE : k * eta <= / 8192 * eta) by (apply Rmult_le_compat_r; lra). assert (KKB : k * (k * B) <= / 8192 * (k * B)) by (apply Rmult_le_compat_r; lra).
    assert (D : near (fsub mx mn) (Rmaxl (map h l) - Rminl (map h l)) (7 * (k * B) + 3 * eta) (2 * B)).
    { eapply near_le; [apply (near_sub _ _ _ _ _ _ _ _ H1 H2)| |lra]; [apply small_1; lra|].
      assert (ulp * (2 * k * B + eta + (2 * k * B + eta) + B + B) <= k * (2 * k * B + eta + (2 * k * B + eta) + B + B)) by (apply Rmult_le_compat_r; lra). lra. }
    pose proof (near_abs _ _ _ _ D) as DA. destruct D as (G & E & _). destruct (div_real (fsub mx mn) 4 G) as [G4 E4]; [change (2 ^ 52)%Z with 4503599627370496%Z; lia|]. split; [exact G4|].
    set (R0 := Rmaxl (map h l) - Rminl (map h l)) in *. set (x := fv (fsub mx mn)) in *. set (y := fv (fdiv (fsub mx mn) (f_ofZ 4))) in *.
    assert (X4 : Rabs (x / 4) <= B + 4 * (k * B) + eta) by (unfold Rdiv; rewrite Rabs_mult, (Rabs_pos_eq (/ 4)) by lra; lra).
    assert (X5 : ulp * Rabs (x / 4) <= k * (B + 4 * (k * B) + eta)) by (apply Rle_trans with (ulp * (B + 4 * (k * B) + eta)); [apply Rmult_le_compat_l; lra|apply Rmult_le_compat_r; lra]).
    assert (X6 : Rabs (x / 4 - R0 / 4) <= 7 * (k * B) + 3 * eta) by (replace (x / 4 - R0 / 4) with ((x - R0) * / 4) by field; rewrite Rabs_mult, (Rabs_pos_eq (/ 4)) by lra; pose proof (Rabs_pos (x - R0)); lra).
    assert (Rabs (y - R0 / 4) <= Rabs (y - x / 4) + Rabs (x / 4 - R0 / 4)) by (replace (y - R0 / 4) with ((y - x / 4) + (x / 4 - R0 / 4)) by ring; apply Rabs_triang).
    pose proof eta_root. pose proof (sqrt_pos (3 * eta)). lra.
  Qed.
End Spread.

(** ** Quotients of sums of squares; sums *)
Section Quotient.
  Open Scope R_scope.
  Lemma quotient_near (Sa Ss : F) m a s E B : 0 < m -> finite Sa -> 0 <= fv Sa -> finite Ss -> 0 <= fv Ss -> Rabs (sqrt (fv Sa / m) - a) <= E -> Rabs (sqrt (fv Ss / m) - s) <= E ->
    0 <= a -> 0 < E -> 4 * E <= s -> 50 * ulp * s <= E -> a <= 6 * B -> 100 * ulp * B <= E ->
    within (8 * (E / s) * (1 + Rsqr a / Rsqr s)) (fdiv Sa Ss) (Rsqr a / Rsqr s).
  Proof.
    intros Pm Ga Pa Gs Ps Ea Es a0 HE H4 H50 A6 L. assert (Hs : 0 < s) by lra. assert (Pi : 0 < / m) by (apply Rinv_0_lt_compat, Pm).
    set (a' := sqrt (fv Sa / m)) in *. set (s' := sqrt (fv Ss / m)) in *.
    assert (Hs' : 3 / 4 * s <= s') by (clear - Es H4; clearbody s'; abs; lra).
    assert (Qs' : Rsqr s' = fv Ss / m) by (unfold s'; rewrite Rsqr_sqrt; [reflexivity|apply Rmult_le_pos; lra]).
    assert (Qa' : Rsqr a' = fv Sa / m) by (unfold a'; rewrite Rsqr_sqrt; [reflexivity|apply Rmult_le_pos; lra]).
    assert (PS : 0 < fv Ss).
    { assert (X : 0 < Rsqr s') by (unfold Rsqr; apply Rmult_lt_0_compat; lra). rewrite Qs' in X. apply (Rmult_lt_reg_r (/ m)); [exact Pi|]. rewrite Rmult_0_l. exact X. }
    assert (Eq : fv Sa / fv Ss = Rsqr a' / Rsqr s') by (rewrite Qs', Qa'; field; lra).
    assert (a0' : 0 <= a') by apply sqrt_pos.
    assert (Big : Rabs (fv Sa / fv Ss) <= P2 1022).
    { assert (X : a' / s' <= P2 53).
      { apply (Rmult_le_reg_r s'); [lra|]. unfold Rdiv. rewrite Rmult_assoc, Rinv_l, Rmult_1_r by lra. assert (A7 : a' <= 6 * B + E) by (clear - Ea A6; clearbody a'; abs; lra).
        assert (L2 : P2 53 * E <= P2 53 * (/ 3 * s')) by (apply Rmult_le_compat_l; [left; apply P2_pos|lra]).
        assert (L3 : P2 53 * (100 * ulp * B) <= P2 53 * E) by (apply Rmult_le_compat_l; [left; apply P2_pos|exact L]).
        replace (P2 53 * (100 * ulp * B)) with (P2 53 * ulp * (100 * B)) in L3 by ring. assert (EP : P2 53 * ulp = 1) by (unfold ulp; rewrite <- P2_add; reflexivity). rewrite EP, Rmult_1_l in L3.
        assert (1 * E <= P2 53 * E) by (apply Rmult_le_compat_r; [lra|change 1 with (P2 0); apply P2_le; lia]). lra. }
      assert (X0 : 0 <= a' / s') by (apply Rmult_le_pos; [exact a0'|left; apply Rinv_0_lt_compat; lra]).
      rewrite Eq. replace (Rsqr a' / Rsqr s') with ((a' / s') * (a' / s')) by (unfold Rsqr; field; lra). rewrite Rabs_pos_eq by (apply Rmult_le_pos; exact X0).
      apply Rle_trans with (P2 53 * P2 53); [apply Rmult_le_compat; assumption|]. rewrite <- P2_add. apply P2_le. lia. }
    destruct (quot_real Sa Ss Ga Gs PS Big) as [Gv Ev]. split; [exact Gv|].
    rewrite Eq in Ev. rewrite (Rabs_pos_eq (Rsqr a' / Rsqr s')) in Ev by (apply Rmult_le_pos; [apply Rle_0_sqr|left; apply Rinv_0_lt_compat; unfold Rsqr; apply Rmult_lt_0_compat; lra]).
    apply (ratio_close a s a' s' E _ a0 a0' Hs (Rlt_le _ _ HE) Ea Es H4 H50 Ev).
  Qed.
  Lemma near_sum {A} sum (Hsum : forall l, added l (sum l)) (f : A -> F) (h : A -> R) e b (l : list A) : (forall a, In a l -> near (f a) (h a) e b) ->
    4 * (INR (length l) * ulp) <= 1 -> INR (length l) * (b + e) <= P2 1021 ->
    near (sum (map f l)) (Rsum (map h l)) (INR (length l) * e + 2 * (INR (length l) * ulp) * (INR (length l) * (b + e))) (INR (length l) * b).
  Proof.
    intros H Hn Hb. assert (Hf : Forall finite (map f l)) by (apply Forall_forall; intros x Hx; apply in_map_iff in Hx as (a & <- & Ha); apply (H a Ha)).
    assert (Ha : forall a, In a l -> Rabs (fv (f a)) <= b + e) by (intros a Hin; apply (near_abs _ (h a)), H, Hin).
    destruct (sum_real (map f l) (sum (map f l)) (Hsum _) Hf) as [G E]; [rewrite map_length; exact Hn| |].
    { unfold fabs. rewrite map_map. eapply Rle_trans; [apply (Rsum_bound _ (b + e)), Ha|exact Hb]. }
    unfold fabs, fvs in E. rewrite !map_map, map_length in E. pose proof (Rsum_bound _ _ l Ha) as M. pose proof ulp_pos as U. pose proof (pos_INR (length l)) as Pn.
    assert (Sub : Rsum (map (fun a => fv (f a)) l) - Rsum (map h l) = Rsum (map (fun a => fv (f a) - h a) l)) by (clear; induction l as [|a t IH]; [cbn; rewrite Rsum_nil; lra|]; cbn [map]; rewrite !Rsum_cons; lra).
    assert (T : forall (d : A -> R) c, (forall a, In a l -> Rabs (d a) <= c) -> Rabs (Rsum (map d l)) <= INR (length l) * c).
    { intros d c Hd. apply Rabs_le. split; [|apply Rsum_bound; intros a Hin; specialize (Hd a Hin); abs; lra].
      pose proof (Rsum_bound (fun a => - d a) c l (fun a Hin => ltac:(specialize (Hd a Hin); cbn beta; abs; lra))) as S. assert (Z : Rsum (map (fun a => - d a) l) = - Rsum (map d l)) by (clear; induction l as [|a t IH]; [cbn; rewrite Rsum_nil; lra|]; cbn [map]; rewrite !Rsum_cons; lra). lra. }
    split; [exact G|]. split; [|apply T; intros a Hin; apply (H a Hin)].
    pose proof (T (fun a => fv (f a) - h a) e (fun a Hin => proj1 (proj2 (H a Hin)))) as T1. rewrite <- Sub in T1.
    assert (L1 : INR (length l - 1) <= INR (length l)) by (apply le_INR; lia).
    set (S := Rsum (map (fun x => Rabs (fv (f x))) l)) in *. assert (S0 : 0 <= S) by (apply Rsum_nonneg; intros x Hx; apply in_map_iff in Hx as (a & <- & _); apply Rabs_pos).
    assert (L2 : 2 * INR (length l - 1) * ulp * S <= 2 * (INR (length l) * ulp) * (INR (length l) * (b + e))).
    { apply Rle_trans with (2 * (INR (length l) * ulp) * S); [apply Rmult_le_compat_r; [exact S0|]; assert (INR (length l - 1) * ulp <= INR (length l) * ulp) by (apply Rmult_le_compat_r; lra); lra|].
      apply Rmult_le_compat_l; [assert (0 <= INR (length l) * ulp) by (apply Rmult_le_pos; lra); lra|exact M]. }
    change (fun x => fv (f x)) with (fun a => fv (f a)) in E. set (u := fv (sum (map f l))) in *. set (y := Rsum (map (fun a => fv (f a)) l)) in *. set (z := Rsum (map h l)) in *.
    assert (Rabs (u - z) <= Rabs (u - y) + Rabs (y - z)) by (replace (u - z) with ((u - y) + (y - z)) by ring; apply Rabs_triang). lra.
  Qed.
  Lemma near_add x y r s e d b c : near x r e b -> near y s d c -> e + d + b + c <= P2 1023 -> near (fadd x y) (r + s) (e + d + ulp * (e + d + b + c)) (b + c).
  Proof.
    intros H1 H2 Hb. pose proof (near_abs _ _ _ _ H1) as A1. pose proof (near_abs _ _ _ _ H2) as A2. destruct H1 as (F1 & E1 & B1). destruct H2 as (F2 & E2 & B2). pose proof ulp_pos as Hu.
    assert (S : Rabs (fv x + fv y) <= e + d + b + c) by (clear - A1 A2; abs; lra).
    destruct (add_real x y F1 F2 ltac:(lra)) as [G E]. split; [exact G|]. split; [|clear - B1 B2; abs; lra].
    pose proof (Rmult_le_compat_l ulp _ _ (Rlt_le _ _ Hu) S) as M. set (v := fv (fadd x y)) in *. set (U := ulp * (e + d + b + c)) in *. set (W := ulp * Rabs (fv x + fv y)) in *.
    clearbody U W v. clear - E1 E2 E M. abs; lra.
  Qed.
End Quotient.

Lemma added_none x : added [] x -> x = f_zero.
Proof.
  intros H. remember [] as l eqn:E. induction H as [| |l l1 l2 x y P _ IH1 _ IH2]; [reflexivity|discriminate|]. subst l. apply Permutation_nil in P. apply app_eq_nil in P as [-> ->]. rewrite IH1, IH2 by reflexivity. reflexivity.
Qed.
(** ** The additivity index *)
Section Index.
  Context {C : Type} (sum : list F -> F) (Hsum : forall l, added l (sum l)) (rows : list (list C)) (w : nat) (Hw : forall r, In r rows -> length r = w) (Hne : rows <> []) (B : R) (g : list C -> F).
  Notation N := (fl64 sum).
  Notation n := (length rows).
  Notation k := (INR n * ulp)%R.
  Notation kk := (INR (n + w) * ulp)%R.
  Notation W := (INR w + 1)%R.
  Context (Hn : (INR (n + w) <= P2 40)%R) (HB : (W * B <= P2 480)%R) (Hg : numbers_within rows w B g).
  Notation h := (exactly g).
  Open Scope R_scope.

  Lemma n_40 : INR n <= P2 40. Proof. eapply Rle_trans; [apply le_INR|exact Hn]. lia. Qed.
  Lemma B_0 : 0 <= B. Proof. apply (B_nonneg rows w Hw Hne B g n_40 Hg). Qed.
  Lemma W_1 : 1 <= W. Proof. pose proof (pos_INR w). lra. Qed.
  Lemma B_W : B <= W * B. Proof. pose proof B_0. pose proof (pos_INR w). assert (0 <= INR w * B) by (apply Rmult_le_pos; lra). lra. Qed.
  Lemma B_480 : B <= P2 480. Proof. pose proof B_W. lra. Qed.
  Lemma kk_13 : ulp <= k /\ k <= kk /\ INR w * ulp <= kk /\ kk <= / 8192.
  Proof.
    pose proof ulp_pos as U. pose proof (n_1 rows Hne n_40) as N1. split; [replace ulp with (1 * ulp) at 1 by ring; apply Rmult_le_compat_r; lra|]. split; [apply Rmult_le_compat_r; [lra|apply le_INR; lia]|]. split; [apply Rmult_le_compat_r; [lra|apply le_INR; lia]|].
    rewrite <- P2_m13. change (-13)%Z with (40 + -53)%Z. rewrite P2_add. fold ulp. apply Rmult_le_compat_r; [lra|exact Hn].
  Qed.
  Lemma W_eta : W * eta <= P2 (-1034).
  Proof.
    assert (W <= P2 41).
    { assert (INR w <= P2 40) by (eapply Rle_trans; [apply le_INR|exact Hn]; lia). change 41%Z with (1 + 40)%Z. rewrite P2_add. change (P2 1) with (2 * 1). assert (1 <= P2 40) by (change 1 with (P2 0); apply P2_le; lia). lra. }
    apply Rle_trans with (P2 41 * eta); [apply Rmult_le_compat_r; [left; apply eta_pos|assumption]|]. unfold eta. rewrite <- P2_add. apply P2_le. lia.
  Qed.
  Definition resid (r : list C) : F := fsub (g r) (first_order N g rows w r).
  Definition rresid (r : list C) : R := h r - Rmean (map h rows) - effects rows w h r.

  Lemma near_resid r : In r rows -> near (resid r) (rresid r) (24 * (kk * (W * B)) + 8 * (W * eta)) (4 * (W * B)).
  Proof.
    intros Hr. destruct kk_13 as (UK & KK & WK & K). pose proof ulp_pos as U. pose proof eta_pos as ET. pose proof eta_1 as E1. destruct big_1 as [G1 G2]. pose proof B_0 as B0. pose proof W_1 as W1. pose proof B_W as BW. pose proof W_eta as WE. pose proof (pos_INR w) as w0.
    assert (WE1 : W * eta <= / 8192) by (eapply Rle_trans; [exact WE|rewrite <- P2_m13; apply P2_le; lia]). assert (EW : eta <= W * eta) by (assert (0 <= INR w * eta) by (apply Rmult_le_pos; lra); lra).
    assert (KB : k * B <= kk * B) by (apply Rmult_le_compat_r; lra). assert (KW : kk * B <= kk * (W * B)) by (apply Rmult_le_compat_l; lra). assert (KB0 : 0 <= k * B) by (apply Rmult_le_pos; lra).
    assert (KS : kk * (W * B) <= / 8192 * (W * B)) by (apply Rmult_le_compat_r; lra). assert (KES : kk * (W * eta) <= / 8192 * (W * eta)) by (apply Rmult_le_compat_r; lra). assert (KE0 : kk * eta <= kk * (W * eta)) by (apply Rmult_le_compat_l; lra).
    assert (KKS : kk * (kk * (W * B)) <= / 8192 * (kk * (W * B))) by (apply Rmult_le_compat_r; [apply Rmult_le_pos; lra|exact K]).
    set (T := W * B) in *. assert (WT : INR w * B <= T) by (unfold T; lra). set (TE := W * eta) in *. assert (WTE : INR w * eta <= TE) by (unfold TE; lra). set (Q := kk * T) in *.
    assert (KwB : kk * (INR w * B) <= Q) by (apply Rmult_le_compat_l; lra). assert (KwE : kk * (INR w * eta) <= kk * TE) by (apply Rmult_le_compat_l; lra). assert (wB0 : 0 <= INR w * B) by (apply Rmult_le_pos; lra). assert (wE0 : 0 <= INR w * eta) by (apply Rmult_le_pos; lra).
    assert (Q0 : 0 <= Q) by (apply Rmult_le_pos; lra).
    set (m := np_mean N (map g rows)). set (mu := Rmean (map h rows)).
    assert (M : near m mu (2 * k * B + eta) B).
    { apply (near_average sum Hsum rows w Hw Hne B g n_40 B_480 Hg rows (fun r => r) eq_refl). intros a Ha. apply made_row; assumption. }
    assert (D : forall p, In p (seq 0 w) -> near (fsub (PD1_at N g rows p r) m) (RPD1_at rows h p r - mu) (7 * (kk * B) + 3 * eta) (2 * B)).
    { intros p Hp. apply in_seq in Hp. eapply near_le; [apply (near_sub _ _ _ _ _ _ _ _ (near_PD1_at sum Hsum rows w Hw Hne B g n_40 B_480 Hg p r ltac:(lia) Hr) M)| |lra].
      - apply small_1. lra.
      - assert (ulp * (2 * k * B + eta + (2 * k * B + eta) + B + B) <= kk * (2 * k * B + eta + (2 * k * B + eta) + B + B)) by (apply Rmult_le_compat_r; lra).
        assert (kk * (k * B) <= / 8192 * (k * B)) by (apply Rmult_le_compat_r; lra). assert (kk * eta <= / 8192 * eta) by (apply Rmult_le_compat_r; lra). lra. }
    assert (wK : INR w * (7 * (kk * B) + 3 * eta) <= 7 * Q + 3 * TE) by (replace (INR w * (7 * (kk * B) + 3 * eta)) with (7 * (kk * (INR w * B)) + 3 * (INR w * eta)) by ring; lra).
    assert (S : near (sum (map (fun p => fsub (PD1_at N g rows p r) m) (seq 0 w))) (effects rows w h r) (12 * Q + 4 * TE) (2 * T)).
    { eapply near_le; [apply (near_sum sum Hsum (fun p => fsub (PD1_at N g rows p r) m) (fun p => RPD1_at rows h p r - mu) _ _ (seq 0 w) D)| |]; rewrite ?seq_length.
      - lra.
      - replace (INR w * (2 * B + (7 * (kk * B) + 3 * eta))) with (2 * (INR w * B) + INR w * (7 * (kk * B) + 3 * eta)) by ring. apply Rle_trans with (P2 490); [lra|apply P2_le; lia].
      - replace (INR w * (2 * B + (7 * (kk * B) + 3 * eta))) with (2 * (INR w * B) + INR w * (7 * (kk * B) + 3 * eta)) by ring.
        assert (2 * (INR w * ulp) * (2 * (INR w * B) + INR w * (7 * (kk * B) + 3 * eta)) <= 2 * kk * (2 * T + (7 * Q + 3 * TE))) by (apply Rmult_le_compat; try lra; [assert (0 <= INR w * ulp) by (apply Rmult_le_pos; lra); lra|assert (0 <= INR w * (7 * (kk * B) + 3 * eta)) by (apply Rmult_le_pos; lra); lra]).
        replace (2 * kk * (2 * T + (7 * Q + 3 * TE))) with (4 * Q + 14 * (kk * Q) + 6 * (kk * TE)) in * by (unfold Q; ring). lra.
      - lra. }
    assert (FO : near (first_order N g rows w r) (effects rows w h r + mu) (18 * Q + 6 * TE) (2 * T + B)).
    { unfold first_order. cbn [n_add n_sum n_sub fl64]. eapply near_le; [apply (near_add _ _ _ _ _ _ _ _ S M)| |lra].
      - apply small_1. lra.
      - assert (ulp * (12 * Q + 4 * TE + (2 * k * B + eta) + 2 * T + B) <= kk * (12 * Q + 4 * TE + (2 * Q + TE) + 2 * T + T)) by (apply Rmult_le_compat; lra).
        replace (kk * (12 * Q + 4 * TE + (2 * Q + TE) + 2 * T + T)) with (14 * (kk * Q) + 5 * (kk * TE) + 3 * Q) in * by (unfold Q; ring). lra. }
    assert (GR : near (g r) (h r) 0 B) by (apply (near_model rows w B g Hg); apply made_row; assumption).
    unfold resid, rresid. fold mu. replace (h r - mu - effects rows w h r) with (h r - (effects rows w h r + mu)) by ring.
    eapply near_le; [apply (near_sub _ _ _ _ _ _ _ _ GR FO)| |].
    - apply small_1. lra.
    - assert (ulp * (0 + (18 * Q + 6 * TE) + B + (2 * T + B)) <= kk * (0 + (18 * Q + 6 * TE) + T + (2 * T + T))) by (apply Rmult_le_compat; lra).
      replace (kk * (0 + (18 * Q + 6 * TE) + T + (2 * T + T))) with (18 * (kk * Q) + 6 * (kk * TE) + 4 * Q) in * by (unfold Q; ring). lra.
    - lra.
  Qed.
  Lemma fv_one : fv f_one = 1.
  Proof. unfold f_one. cbn [fv cond_Zopp]. replace 4503599627370496%Z with (2 ^ 52)%Z by reflexivity. rewrite P2_IZR by lia. rewrite <- P2_add. reflexivity. Qed.
  Notation E := (100 * kk * (W * B) + P2 (-530)).
  Theorem index_float : 4 * E <= deviation rows h -> 0 < variation rows h
    /\ within (9 * (E / deviation rows h) * (1 + unexplained rows w h / variation rows h)) (additivity_spec N g rows w) (1 - unexplained rows w h / variation rows h).
  Proof.
    intros H4. destruct kk_13 as (UK & KK & WK & K). pose proof ulp_pos as U. pose proof eta_pos as ET. pose proof eta_1 as E1. destruct big_1 as [G1 G2]. pose proof B_0 as B0. pose proof W_1 as W1. pose proof B_W as BW. pose proof W_eta as WE. pose proof (P2_pos (-530)) as P5.
    assert (WE1 : W * eta <= / 8192) by (eapply Rle_trans; [exact WE|rewrite <- P2_m13; apply P2_le; lia]). assert (WE0 : eta <= W * eta) by (pose proof (pos_INR w); assert (0 <= INR w * eta) by (apply Rmult_le_pos; lra); lra).
    assert (KB : k * B <= kk * (W * B)) by (apply Rmult_le_compat; lra). assert (KB0 : 0 <= k * B) by (apply Rmult_le_pos; lra). assert (KS : kk * (W * B) <= / 8192 * (W * B)) by (apply Rmult_le_compat_r; lra).
    assert (DV : forall r, In r rows -> near (dev N rows g r) (rdev rows h r) (10 * (k * B) + 5 * eta) (2 * B)).
    { apply (near_dev sum Hsum rows Hne B n_40 B_480 g h 0 B0); [lra|lra|]. intros r Hr. apply (near_model rows w B g Hg), made_row; assumption. }
    set (dv := deviation rows h) in *. set (T := W * B) in *. set (Q := kk * T) in *. set (EE := 100 * kk * T + P2 (-530)) in *. assert (EEq : EE = 100 * Q + P2 (-530)) by (unfold EE, Q; ring).
    destruct (square_sum_near sum Hsum rows Hne B n_40 B_480 (dev N rows g) (rdev rows h) B0) as (Gs & Ps & Es); [intros r Hr; eapply near_le; [apply (DV r Hr)|lra|lra]|].
    destruct (square_sum_float sum Hsum rows Hne n_40 resid (4 * T + (24 * Q + 8 * (W * eta)))) as (Ga & Pa & Ea).
    { lra. }
    { intros r Hr. pose proof (near_resid r Hr) as D. split; [apply D|apply (near_abs _ _ _ _ D)]. }
    pose proof (root_near rows Hne (fun r => fv (resid r)) rresid (24 * Q + 8 * (W * eta)) ltac:(lra) (fun r Hr => proj1 (proj2 (near_resid r Hr)))) as Ra. cbn beta in Ra.
    set (Sa := sum (map (fun r => fmul (resid r) (resid r)) rows)) in *. set (Ss := sum (map (fun r => fmul (dev N rows g r) (dev N rows g r)) rows)) in *.
    set (a := sqrt (Rmean (map (fun r => Rsqr (rresid r)) rows))) in *. change (sqrt (Rmean (map (fun r => Rsqr (rdev rows h r)) rows))) with dv in Es.
    assert (ER : 9 * (W * eta) + 2 * sqrt (3 * eta) <= P2 (-530)).
    { pose proof eta_root. assert (9 * (W * eta) <= P2 (-1030)).
      { apply Rle_trans with (16 * P2 (-1034)); [lra|]. change (-1030)%Z with (4 + -1034)%Z. rewrite P2_add. apply Rmult_le_compat_r; [left; apply P2_pos|]. change (P2 4) with (2 ^ 4). simpl. lra. }
      assert (S2 : sqrt (3 * eta) <= P2 (-536)).
      { rewrite <- (sqrt_Rsqr (P2 (-536))) by (left; apply P2_pos). apply sqrt_le_1_alt. unfold Rsqr. rewrite <- P2_add. apply Rle_trans with (P2 3 * eta); [|unfold eta; rewrite <- P2_add; apply P2_le; lia].
        apply Rmult_le_compat_r; [left; apply eta_pos|]. change (P2 3) with (2 ^ 3). simpl. lra. }
      assert (P2 (-1030) <= P2 (-536)) by (apply P2_le; lia). assert (4 * P2 (-536) <= P2 (-530)); [|lra].
      change (-530)%Z with (6 + -536)%Z. rewrite P2_add. apply Rmult_le_compat_r; [left; apply P2_pos|]. change (P2 6) with (2 ^ 6). simpl. lra. }
    assert (EaE : Rabs (sqrt (fv Sa / INR n) - a) <= EE).
    { set (x := sqrt (fv Sa / INR n)) in *. set (y := sqrt (Rmean (map (fun r => Rsqr (fv (resid r))) rows))) in *.
      assert (R1 : 7 * k * (4 * T + (24 * Q + 8 * (W * eta))) <= 7 * kk * (4 * T + (24 * Q + 8 * (W * eta)))) by (apply Rmult_le_compat_r; lra).
      assert (kk * Q <= / 8192 * Q) by (apply Rmult_le_compat_r; [apply Rmult_le_pos; lra|exact K]). assert (kk * (W * eta) <= / 8192 * (W * eta)) by (apply Rmult_le_compat_r; lra).
      replace (7 * kk * (4 * T + (24 * Q + 8 * (W * eta)))) with (28 * Q + 168 * (kk * Q) + 56 * (kk * (W * eta))) in R1 by (unfold Q; ring).
      assert (Rabs (x - a) <= Rabs (x - y) + Rabs (y - a)) by (replace (x - a) with ((x - y) + (y - a)) by ring; apply Rabs_triang). rewrite EEq. lra. }
    assert (EsE : Rabs (sqrt (fv Ss / INR n) - dv) <= EE) by (eapply Rle_trans; [exact Es|rewrite EEq; lra]).
    assert (HE : 0 < EE) by (rewrite EEq; lra).
    pose proof (INR_pos_length rows Hne) as Pn. assert (Pi : 0 < / INR n) by (apply Rinv_0_lt_compat, Pn).
    assert (Qs : Rsqr dv = variation rows h / INR n).
    { change dv with (sqrt (Rmean (map (fun r => Rsqr (h r - Rmean (map h rows))) rows))). rewrite Rsqr_sqrt; [unfold Rmean at 1, variation; rewrite map_length; reflexivity|]. unfold Rmean at 1. apply Rmult_le_pos; [apply variation_nonneg|rewrite map_length; lra]. }
    assert (Qa : Rsqr a = unexplained rows w h / INR n).
    { unfold a. rewrite Rsqr_sqrt; [unfold Rmean at 1, unexplained; rewrite map_length; reflexivity|]. unfold Rmean at 1. apply Rmult_le_pos; [apply unexplained_nonneg|rewrite map_length; lra]. }
    assert (Hdv : 0 < dv) by lra.
    assert (PV : 0 < variation rows h).
    { assert (X : 0 < Rsqr dv) by (unfold Rsqr; apply Rmult_lt_0_compat; exact Hdv). rewrite Qs in X. apply (Rmult_lt_reg_r (/ INR n)); [exact Pi|]. rewrite Rmult_0_l. exact X. }
    split; [exact PV|].
    assert (Eq : unexplained rows w h / variation rows h = Rsqr a / Rsqr dv) by (rewrite Qs, Qa; field; lra). rewrite Eq.
    assert (S2 : dv <= 2 * B).
    { change dv with (sqrt (Rmean (map (fun r => Rsqr (rdev rows h r)) rows))). rewrite <- (sqrt_Rsqr (2 * B)) by lra. apply sqrt_le_1_alt. apply Rmean_bound; [exact Hne|]. intros r Hr. apply Rsqr_le_abs_1. rewrite (Rabs_pos_eq (2 * B)) by lra. apply (DV r Hr). }
    assert (UT : ulp * T <= Q) by (apply Rmult_le_compat_r; lra).
    assert (H50 : 50 * ulp * dv <= EE).
    { assert (ulp * dv <= ulp * (2 * T)) by (apply Rmult_le_compat_l; lra). rewrite EEq. lra. }
    assert (A6 : a <= 6 * T).
    { unfold a. rewrite <- (sqrt_Rsqr (6 * T)) by lra. apply sqrt_le_1_alt. apply Rmean_bound; [exact Hne|]. intros r Hr. apply Rsqr_le_abs_1. rewrite (Rabs_pos_eq (6 * T)) by lra. pose proof (near_resid r Hr) as (_ & _ & X). fold T in X. lra. }
    assert (L : 100 * ulp * T <= EE) by (rewrite EEq; lra).
    destruct (quotient_near Sa Ss (INR n) a dv EE T Pn Ga Pa Gs Ps EaE EsE (sqrt_pos _) HE H4 H50 A6 L) as [Gq Eqq].
    assert (Ser : series_sum N (map (fun r => sq N (dev N rows g r)) rows) = Ss).
    { unfold series_sum, Ss. cbn [n_sum fl64]. f_equal. change (fun r => sq N (dev N rows g r)) with (fun r => fmul (dev N rows g r) (dev N rows g r)).
      assert (F0 : forall r, In r rows -> finite ((fun r => fmul (dev N rows g r) (dev N rows g r)) r)).
      { intros r Hr. cbn beta. pose proof (near_abs _ _ _ _ (DV r Hr)) as X. apply mul_real; [apply (DV r Hr)|apply (DV r Hr)|]. rewrite Rabs_mult. apply Rle_trans with (P2 490 * P2 490); [|rewrite <- P2_add; apply P2_le; lia].
        assert (Rabs (fv (dev N rows g r)) <= P2 490) by lra. apply Rmult_le_compat; try assumption; apply Rabs_pos. }
      set (dd := fun r => fmul (dev N rows g r) (dev N rows g r)) in *. clearbody dd. clear - F0. induction rows as [|r t IH]; [reflexivity|]. cbn [map filter]. cbn [n_isnan fl64]. rewrite (finite_num _ (F0 r (or_introl eq_refl))). cbn [negb]. f_equal. apply IH. intros; apply F0; right; assumption. }
    unfold additivity_spec. rewrite Ser. change (n_sum N (map (fun r => sq N (n_sub N (g r) (first_order N g rows w r))) rows)) with Sa. change (n_div N Sa Ss) with (fdiv Sa Ss). change (n_ofZ N 1) with f_one.
    set (q := fdiv Sa Ss) in *. change (n_sub N f_one q) with (fsub f_one q). set (t := Rsqr a / Rsqr dv) in *.
    assert (t0 : 0 <= t) by (apply Rmult_le_pos; [apply Rle_0_sqr|left; apply Rinv_0_lt_compat; unfold Rsqr; apply Rmult_lt_0_compat; lra]).
    set (p := EE / dv) in *. assert (Ep : EE = p * dv) by (unfold p; field; lra).
    assert (p4 : 4 * p <= 1) by (apply (Rmult_le_reg_r dv); [exact Hdv|]; rewrite Rmult_assoc, <- Ep; lra). assert (pu : 50 * ulp <= p) by (apply (Rmult_le_reg_r dv); [exact Hdv|]; rewrite <- Ep; lra).
    assert (T2 : 8 * p * (1 + t) <= 2 * (1 + t)) by (apply Rmult_le_compat_r; lra).
    assert (Hq : Rabs (1 - fv q) <= 4 * (1 + t)) by (clear - Eqq T2 t0; clearbody q t p; abs; lra).
    assert (tB : t <= P2 106 * 36).
    { assert (X : a / dv <= 6 * P2 53).
      { apply (Rmult_le_reg_r dv); [exact Hdv|]. unfold Rdiv. rewrite Rmult_assoc, Rinv_l, Rmult_1_r by lra. assert (EP : P2 53 * ulp = 1) by (unfold ulp; rewrite <- P2_add; reflexivity).
        assert (L3 : P2 53 * (100 * ulp * T) <= P2 53 * dv) by (apply Rmult_le_compat_l; [left; apply P2_pos|lra]). replace (P2 53 * (100 * ulp * T)) with (P2 53 * ulp * (100 * T)) in L3 by ring. rewrite EP, Rmult_1_l in L3. lra. }
      assert (X0 : 0 <= a / dv) by (apply Rmult_le_pos; [apply sqrt_pos|left; apply Rinv_0_lt_compat; lra]).
      unfold t. replace (Rsqr a / Rsqr dv) with ((a / dv) * (a / dv)) by (unfold Rsqr; field; lra). replace (P2 106 * 36) with ((6 * P2 53) * (6 * P2 53)) by (change 106%Z with (53 + 53)%Z; rewrite P2_add; ring). apply Rmult_le_compat; assumption. }
    destruct (sub_real f_one q) as [Gf Ef]; [reflexivity|exact Gq| |].
    { rewrite fv_one. apply Rle_trans with (P2 200); [|apply P2_le; lia]. change 200%Z with (94 + 106)%Z. rewrite P2_add. assert (1 <= P2 106) by (change 1 with (P2 0); apply P2_le; lia). assert (256 <= P2 94) by (apply Rle_trans with (P2 8); [change (P2 8) with (2 ^ 8); simpl; lra|apply P2_le; lia]).
      assert (256 * P2 106 <= P2 94 * P2 106) by (apply Rmult_le_compat_r; lra). lra. }
    rewrite fv_one in Ef. split; [exact Gf|].
    assert (X1 : ulp * Rabs (1 - fv q) <= p * (1 + t)).
    { apply Rle_trans with (ulp * (4 * (1 + t))); [apply Rmult_le_compat_l; lra|]. assert (ulp * (1 + t) <= / 50 * p * (1 + t)) by (apply Rmult_le_compat_r; lra). assert (0 <= p * (1 + t)) by (apply Rmult_le_pos; lra). lra. }
    set (v := fv (fsub f_one q)) in *. set (u := fv q) in *. set (X2 := ulp * Rabs (1 - u)) in *. clearbody X2 v u. replace (9 * p * (1 + t)) with (8 * p * (1 + t) + p * (1 + t)) by ring. set (Y := p * (1 + t)) in *. replace (8 * p * (1 + t)) with (8 * Y) in * by (unfold Y; ring). clearbody Y. clear - Eqq Ef X1. abs; lra.
  Qed.
End Index.

(** ** C137 *)
Section Accuracy.
  Context {C G : Type} (O : cell_ops C) (HO : cell_ok O) (Rg : rng_ops G) (HR : rng_ok Rg) (srt : sorter) (Hs : sorter_ok srt) (sum : list F -> F) (Hsum : forall l, added l (sum l)).
  Notation N := (fl64 sum).
  Notation fitF := (PdMethods.fit O N Rg srt).
  Notation fitR := (PdMethods.fit O xR Rg srt).
  Notation "'fin' h" := (fun r => Fin (h r)) (at level 10, only parsing).

  Notation values X p := (np_unique O (col_at p (f_rows X))).
  Lemma values_length (X : frame C) p : length (values X p) <= length (f_rows X).
  Proof.
    transitivity (length (col_at p (f_rows X))).
    - apply NoDup_incl_length; [apply (np_unique_NoDup O HO)|]. intros v Hv. apply (np_unique_sub O HO), Hv.
    - unfold col_at. induction (f_rows X) as [|r t IH]; [cbn; lia|]. cbn [flat_map length]. rewrite app_length. destruct (nth_error r p); cbn [length]; lia.
  Qed.
  Theorem C137_importance k1 k2 s1 a1 s1' s2 a2 s2' g Xs B f t1 t2 v1 v2 :
    wf_frame (a_X a1) -> wf_frame (a_X a2) ->
    fitF k1 s1 a1 = (s1', Ok tt) -> m_X s1' = Some Xs -> explains O N a1 g Xs ->
    fitR k2 s2 a2 = (s2', Ok tt) -> m_X s2' = Some Xs -> explains O xR a2 (fin (exactly g)) Xs ->
    f_rows Xs <> [] -> (INR (length (f_rows Xs)) <= P2 40)%R -> (B <= P2 480)%R -> numbers_within (f_rows Xs) (length (f_cols Xs)) B g ->
    m_fi s1' = Some t1 -> m_fi s2' = Some t2 -> In (f, v1) t1 -> In (f, v2) t2 ->
    exists y, v2 = Fin y /\ within (40 * (INR (length (f_rows Xs)) * P2 (-53)) * B + P2 (-530)) v1 y.
  Proof.
    intros HX1 HX2 H1 HXs1 He1 H2 HXs2 He2 Hne Hn HB Hg Ht1 Ht2 Hv1 Hv2.
    destruct (fi_fit O HO Rg HR srt Hs sum k1 s1 a1 s1' g Xs HX1 H1 HXs1 He1) as (HwX & t & Ht & V1). assert (t = t1) by congruence. subst t.
    destruct (C20_fit_importance O HO Rg HR srt Hs k2 s2 a2 s2' (exactly g) Xs HX2 H2 HXs2 He2) as (t & Ht' & _ & V2 & _). assert (t = t2) by congruence. subst t.
    destruct (V1 f v1 Hv1) as (p & u & Hp & -> & Hc). destruct (V2 f v2 Hv2) as (p2 & Hp2 & ->). apply (posn_nth Xs _ _ HwX) in Hp2. rewrite (posn_nth Xs p f HwX Hp) in Hp2. subst p2.
    eexists. split; [reflexivity|]. pose proof (B_nonneg (f_rows Xs) (length (f_cols Xs)) (wf_rows Xs HwX) Hne B g Hn Hg) as B0. pose proof (pos_INR (length (f_rows Xs))) as Pn. pose proof ulp_pos as U. pose proof (P2_pos (-530)) as P5.
    destruct (values Xs p) as [|x0 t0] eqn:Ev.
    - cbn [map] in *. unfold calc_importance in Hc. destruct (str_in f (f_num Xs)); [|discriminate Hc]. assert (Eu : fillna0 N u = f_zero).
      { injection Hc as <-. unfold np_std, center, np_mean. cbn [map length n_div n_sum n_ofZ n_sqrt fl64]. rewrite (added_none _ (Hsum [])). reflexivity. }
      rewrite Eu. split; [exact I|]. unfold Rspread, Rstd, Rmean. cbn [map Rcenter]. rewrite Rsum_nil. unfold Rdiv. rewrite Rmult_0_l, sqrt_0. cbn [fv f_zero]. rewrite Rminus_0_r, Rabs_R0.
      fold ulp. assert (0 <= INR (length (f_rows Xs)) * ulp * B)%R by (repeat apply Rmult_le_pos; lra). lra.
    - rewrite <- Ev in *. destruct (spread_float sum Hsum (values Xs p) ltac:(rewrite Ev; discriminate) (length (f_rows Xs)) (values_length Xs p) B Hn HB B0
        (PD1 (np_mean N) g (f_rows Xs) p) (PD1 Rmean (exactly g) (f_rows Xs) p)) with (num := str_in f (f_num Xs)) as (v & Ec & W).
      + intros a Ha. apply (near_PD1 sum Hsum (f_rows Xs) (length (f_cols Xs)) (wf_rows Xs HwX) Hne B g Hn HB Hg p a (pos_lt Xs p f Hp)). apply in_col. apply (np_unique_sub O HO), Ha.
      + rewrite Ec in Hc. injection Hc as <-. unfold fillna0. cbn [n_isnan fl64]. rewrite (finite_num _ (proj1 W)). exact W.
  Qed.

  (** two features whose exact importances differ by more than twice the error come out in the right order *)
  Theorem C137_importance_order k1 k2 s1 a1 s1' s2 a2 s2' g Xs B f1 f2 t1 t2 x y v1 v2 :
    wf_frame (a_X a1) -> wf_frame (a_X a2) ->
    fitF k1 s1 a1 = (s1', Ok tt) -> m_X s1' = Some Xs -> explains O N a1 g Xs ->
    fitR k2 s2 a2 = (s2', Ok tt) -> m_X s2' = Some Xs -> explains O xR a2 (fin (exactly g)) Xs ->
    f_rows Xs <> [] -> (INR (length (f_rows Xs)) <= P2 40)%R -> (B <= P2 480)%R -> numbers_within (f_rows Xs) (length (f_cols Xs)) B g ->
    m_fi s1' = Some t1 -> m_fi s2' = Some t2 -> In (f1, v1) t1 -> In (f2, v2) t1 -> In (f1, Fin x) t2 -> In (f2, Fin y) t2 ->
    (y + 2 * (40 * (INR (length (f_rows Xs)) * P2 (-53)) * B + P2 (-530)) < x)%R -> SFltb v2 v1 = true.
  Proof.
    intros HX1 HX2 H1 HXs1 He1 H2 HXs2 He2 Hne Hn HB Hg Ht1 Ht2 Hf1 Hf2 Hx Hy Hxy.
    destruct (C137_importance k1 k2 s1 a1 s1' s2 a2 s2' g Xs B f1 t1 t2 _ _ HX1 HX2 H1 HXs1 He1 H2 HXs2 He2 Hne Hn HB Hg Ht1 Ht2 Hf1 Hx) as (x' & E1 & F1 & W1). injection E1 as <-.
    destruct (C137_importance k1 k2 s1 a1 s1' s2 a2 s2' g Xs B f2 t1 t2 _ _ HX1 HX2 H1 HXs1 He1 H2 HXs2 He2 Hne Hn HB Hg Ht1 Ht2 Hf2 Hy) as (y' & E2 & F2 & W2). injection E2 as <-.
    set (e := (40 * (INR (length (f_rows Xs)) * P2 (-53)) * B + P2 (-530))%R) in *. clearbody e.
    assert (Hlt : (fv v2 < fv v1)%R) by (clear - W1 W2 Hxy; abs; lra).
    destruct (SFltb v2 v1) eqn:E; [reflexivity|exfalso]. assert (K : fle v1 v2) by (repeat split; [apply finite_num, F1|apply finite_num, F2|exact E]). apply (fle_fv v1 v2 F1 F2) in K. lra.
  Qed.

  (** the additivity index *)
  Notation addF := (add_fit O N Rg).
  Notation addR := (add_fit O xR Rg).
  Notation no_clash a := (~ In "centered_prediction" (f_cols (aa_X a))).
  Theorem C137_additivity s1 a1 s1' v1 s2 a2 s2' v2 g Xs B :
    wf_frame (aa_X a1) -> wf_frame (aa_X a2) -> no_clash a1 -> no_clash a2 ->
    addF s1 a1 = (s1', Ok v1) -> ad_X s1' = Some Xs -> add_explains O N a1 g Xs ->
    addR s2 a2 = (s2', Ok v2) -> ad_X s2' = Some Xs -> add_explains O xR a2 (fin (exactly g)) Xs ->
    f_rows Xs <> [] -> numbers_within (f_rows Xs) (length (f_cols Xs)) B g ->
    let n := length (f_rows Xs) in let w := length (f_cols Xs) in
    let E := (100 * (INR (n + w) * P2 (-53)) * ((INR w + 1) * B) + P2 (-530))%R in
    let s := deviation (f_rows Xs) (exactly g) in
    (INR (n + w) <= P2 40)%R -> ((INR w + 1) * B <= P2 480)%R -> (4 * E <= s)%R ->
    exists y, v2 = Fin y /\ (y <= 1)%R /\ within (9 * (E / s) * (2 - y)) v1 y.
  Proof.
    intros HX1 HX2 Hc1 Hc2 H1 HXs1 He1 H2 HXs2 He2 Hne Hg n w E s Hn HB H4.
    destruct (add_fit_spec O N Rg HO eq_refl HR s1 a1 s1' v1 _ Xs HX1 H1 HXs1 He1 Hc1) as (HwX & _ & _ & -> & _).
    destruct (index_real O HO Rg HR s2 a2 s2' v2 (exactly g) Xs HX2 H2 HXs2 He2 Hc2) as (Hw & ->).
    destruct (index_float sum Hsum (f_rows Xs) w Hw Hne B g Hn HB Hg H4) as (Pv & W).
    assert (Pu : (0 <= unexplained (f_rows Xs) w (exactly g))%R) by (apply Rsum_nonneg; intros x Hx; apply in_map_iff in Hx as (r & <- & _); apply Rle_0_sqr).
    fold w. rewrite xR_div_fin by lra. exists (1 - unexplained (f_rows Xs) w (exactly g) / variation (f_rows Xs) (exactly g))%R. split; [reflexivity|].
    assert (Pq : (0 <= unexplained (f_rows Xs) w (exactly g) / variation (f_rows Xs) (exactly g))%R) by (apply Rmult_le_pos; [exact Pu|left; apply Rinv_0_lt_compat, Pv]).
    set (q := (unexplained (f_rows Xs) w (exactly g) / variation (f_rows Xs) (exactly g))%R) in *. cbn beta. split; [lra|]. replace (2 - (1 - q))%R with (1 + q)%R by ring. exact W.
  Qed.
End Accuracy.

(** ** A concrete run *)
Lemma tg_within : numbers_within (f_rows rX) (length (f_cols rX)) 1 tg.
Proof.
  intros r Hr. destruct (tg_close r Hr) as (F1 & E1 & E2). split; [exact F1|]. assert (U : (P2 (-53) <= P2 (-1))%R) by (apply P2_le; lia). change (P2 (-1)) with (/ (2 * 1))%R in U. set (c := cell3 _ r) in *. clearbody c. clear - E1 E2 U. abs; lra.
Qed.
Lemma tg_deviation : (/ 50 <= deviation (f_rows rX) (exactly tg))%R.
Proof.
  assert (U : (P2 (-53) <= / 1048576)%R) by (apply Rle_trans with (P2 (-20)); [apply P2_le; lia|right; unfold P2; simpl; field]).
  unfold deviation. rewrite <- (sqrt_Rsqr (/ 50)) by lra. apply sqrt_le_1_alt. set (m := Rmean (map (exactly tg) (f_rows rX))). clearbody m. cbn [map f_rows rX].
  assert (In1 : forall r, In r (f_rows rX) -> made_of (f_rows rX) 3 r) by (intros r Hr; apply made_row; [apply (wf_rows rX rX_wf)|exact Hr]).
  destruct (tg_close [1; 0; 2]%Z (In1 _ ltac:(left; reflexivity))) as (_ & A1 & _). destruct (tg_close [0; 1; 1]%Z (In1 _ ltac:(right; left; reflexivity))) as (_ & A2 & _).
  change (cell3 (fun x y z => (x * y + z) / 10)%R [1; 0; 2]%Z) with ((1 * 0 + 2) / 10)%R in A1. change (cell3 (fun x y z => (x * y + z) / 10)%R [0; 1; 1]%Z) with ((0 * 1 + 1) / 10)%R in A2.
  unfold exactly. set (x := fv (tg [1; 0; 2]%Z)) in *. set (y := fv (tg [0; 1; 1]%Z)) in *. set (z := fv (tg [1; 1; 0]%Z)) in *. clearbody x y z. unfold Rmean. rewrite !Rsum_cons, Rsum_nil. cbn [length]. change (INR 3) with (1 + 1 + 1)%R.
  assert (Hd : (9 / 100 <= x - y)%R) by (clear - A1 A2 U; set (u := P2 (-53)) in *; clearbody u; abs; lra). clear - Hd. unfold Rsqr.
  assert (S : ((x - y) * (x - y) <= 2 * ((x - m) * (x - m) + (y - m) * (y - m)))%R) by (pose proof (Rle_0_sqr (x + y - 2 * m)) as Q; unfold Rsqr in Q; nra).
  pose proof (Rle_0_sqr (z - m)) as Q. unfold Rsqr in Q. nra.
Qed.
Definition taddR : aargs Z (ext R) := mkadd (rP (exactly tg)) rX.
(** importance and additivity index of a model that multiplies two features, in doubles and exactly *)
Example C137_example :
  exists s1 s2 t1 t2 v y, PdMethods.fit Zcell (fl64 seq_sum) rotR isort (Friedman false) init0 targs = (s1, Ok tt) /\ m_fi s1 = Some t1
    /\ PdMethods.fit Zcell xR rotR isort (Friedman false) init0 (rargs (exactly tg) true) = (s2, Ok tt) /\ m_fi s2 = Some t2
    /\ In ("c", v) t1 /\ In ("c", Fin y) t2 /\ within (120 * P2 (-53) + P2 (-530)) v y.
Proof.
  assert (Hn : (INR (length (f_rows rX)) <= P2 40)%R) by (change (INR (length (f_rows rX))) with (1 + 1 + 1)%R; apply Rle_trans with (P2 2); [change (P2 2) with (2 * (2 * 1))%R; lra|apply P2_le; lia]).
  assert (HB : (1 <= P2 480)%R) by (change 1%R with (P2 0); apply P2_le; lia).
  assert (He : explains Zcell (fl64 seq_sum) targs tg rX) by (split; [intros n rows ys E; injection E as <-; reflexivity|exact I]).
  set (s1 := fst (PdMethods.fit Zcell (fl64 seq_sum) rotR isort (Friedman false) init0 targs)).
  assert (E1 : PdMethods.fit Zcell (fl64 seq_sum) rotR isort (Friedman false) init0 targs = (s1, Ok tt)) by (unfold s1; rewrite (surjective_pairing (PdMethods.fit Zcell (fl64 seq_sum) rotR isort (Friedman false) init0 targs)) at 1; f_equal; vm_compute; reflexivity).
  assert (X1 : m_X s1 = Some rX) by (vm_compute; reflexivity).
  assert (K1 : match m_fi s1 with Some t => existsb (fun r => String.eqb (fst r) "c") t | None => false end = true) by (vm_compute; reflexivity). clearbody s1.
  destruct (fi_fit Zcell Zcell_ok rotR rotR_ok isort isort_ok seq_sum (Friedman false) init0 targs s1 tg rX rX_wf E1 X1 He) as (_ & t1 & T1 & _).
  destruct (rfit_ok false (exactly tg) true) as (s2 & E2 & X2).
  destruct (C20_fit_importance Zcell Zcell_ok rotR rotR_ok isort isort_ok (Friedman false) init0 (rargs (exactly tg) true) s2 (exactly tg) rX rX_wf E2 X2 (rargs_explains _ true)) as (t2 & T2 & K2 & _).
  assert (I2 : In "c" (map fst t2)) by (eapply Permutation_in; [apply Permutation_sym, K2|cbn; auto]). apply in_map_iff in I2 as ([f2 v2] & F2 & I2). cbn [fst] in F2. subst f2.
  assert (V2 : exists y, v2 = Fin y).
  { destruct (C20_fit_importance Zcell Zcell_ok rotR rotR_ok isort isort_ok (Friedman false) init0 (rargs (exactly tg) true) s2 (exactly tg) rX rX_wf E2 X2 (rargs_explains _ true)) as (t & T & _ & V & _). rewrite T2 in T. injection T as <-. destruct (V "c" v2 I2) as (p & _ & ->). eexists; reflexivity. }
  destruct V2 as [y ->]. rewrite T1 in K1. apply existsb_exists in K1 as ([f1 v] & Hv & F1). cbn [fst] in F1. apply String.eqb_eq in F1. subst f1.
  exists s1, s2, t1, t2, v, y. split; [exact E1|]. split; [exact T1|]. split; [exact E2|]. split; [exact T2|]. split; [exact Hv|]. split; [exact I2|].
  destruct (C137_importance Zcell Zcell_ok rotR rotR_ok isort isort_ok seq_sum seq_sum_added (Friedman false) (Friedman false) init0 targs s1 init0 (rargs (exactly tg) true) s2 tg rX 1 "c" t1 t2 v (Fin y)
              rX_wf rX_wf E1 X1 He E2 X2 (rargs_explains _ true) ltac:(discriminate) Hn HB tg_within T1 T2 Hv I2) as (y' & Ey & W1 & W2). injection Ey as <-.
  split; [exact W1|]. eapply Rle_trans; [exact W2|]. change (INR (length (f_rows rX))) with (1 + 1 + 1)%R. lra.
Qed.
Example C137_additivity_example :
  exists s1 v s2 y, add_fit Zcell (fl64 seq_sum) rotR ad0 (mkadd tP rX) = (s1, Ok v) /\ add_fit Zcell xR rotR ad0 taddR = (s2, Ok (Fin y))
    /\ (4 * (2400 * P2 (-53) + P2 (-530)) <= deviation (f_rows rX) (exactly tg))%R /\ (y <= 1)%R /\ within (450 * (2400 * P2 (-53) + P2 (-530)) * (2 - y)) v y.
Proof.
  assert (U : (P2 (-53) <= / 1048576)%R) by (apply Rle_trans with (P2 (-20)); [apply P2_le; lia|right; unfold P2; simpl; field]).
  assert (U2 : (P2 (-530) <= / 1048576)%R) by (apply Rle_trans with (P2 (-20)); [apply P2_le; lia|right; unfold P2; simpl; field]).
  assert (He : add_explains Zcell (fl64 seq_sum) (mkadd tP rX) tg rX) by (split; [intros n rows ys E; injection E as <-; reflexivity|exact I]).
  assert (He2 : add_explains Zcell xR taddR (fun r => Fin (exactly tg r)) rX) by (split; [intros n rows ys E; injection E as <-; reflexivity|exact I]).
  destruct (C23_fit_returns Zcell (fl64 seq_sum) Zcell_ok (fl64_ord seq_sum) rotR rotR_ok ad0 (mkadd tP rX) tg rX 0 rX_wf eq_refl) as (s1 & v1 & E1 & X1 & _).
  { split; [apply He|]. split; [|exact I]. intros n rows. eexists; reflexivity. }
  { intros f p v _ _. unfold c_isnan. cbn. rewrite Z.eqb_refl. reflexivity. }
  destruct (C23_fit_returns Zcell xR Zcell_ok xR_ord rotR rotR_ok ad0 taddR (fun r => Fin (exactly tg r)) rX 0 rX_wf eq_refl) as (s2 & v2 & E2 & X2 & _).
  { split; [apply He2|]. split; [|exact I]. intros n rows. eexists; reflexivity. }
  { intros f p v _ _. unfold c_isnan. cbn. rewrite Z.eqb_refl. reflexivity. }
  pose proof (C137_additivity Zcell Zcell_ok rotR rotR_ok seq_sum seq_sum_added ad0 (mkadd tP rX) s1 v1 ad0 taddR s2 v2 tg rX 1 rX_wf rX_wf ltac:(cbn; intuition congruence) ltac:(cbn; intuition congruence) E1 X1 He E2 X2 He2 ltac:(discriminate) tg_within) as W.
  cbv zeta in W. change (INR (length (f_rows rX) + length (f_cols rX))) with (1 + 1 + 1 + 1 + 1 + 1)%R in W. change (INR (length (f_cols rX))) with (1 + 1 + 1)%R in W.
  replace (100 * ((1 + 1 + 1 + 1 + 1 + 1) * P2 (-53)) * ((1 + 1 + 1 + 1) * 1) + P2 (-530))%R with (2400 * P2 (-53) + P2 (-530))%R in W by ring.
  pose proof (P2_pos (-53)) as Pu. pose proof (P2_pos (-530)) as Pv. set (E := (2400 * P2 (-53) + P2 (-530))%R) in *. assert (HE : (0 < E <= / 400)%R) by (unfold E; lra). clearbody E.
  pose proof tg_deviation as D. assert (H4 : (4 * E <= deviation (f_rows rX) (exactly tg))%R) by lra. destruct W as (y & -> & Y & W1 & W2).
  { apply Rle_trans with (P2 3); [change (P2 3) with (2 * (2 * (2 * 1)))%R; lra|apply P2_le; lia]. }
  { apply Rle_trans with (P2 3); [change (P2 3) with (2 * (2 * (2 * 1)))%R; lra|apply P2_le; lia]. }
  { exact H4. }
  exists s1, v1, s2, y. split; [exact E1|]. split; [exact E2|]. split; [exact H4|]. split; [exact Y|]. split; [exact W1|]. eapply Rle_trans; [exact W2|]. apply Rmult_le_compat_r; [lra|].
  assert (Q : (E / deviation (f_rows rX) (exactly tg) <= 50 * E)%R); [|lra]. set (d := deviation (f_rows rX) (exactly tg)) in *. clearbody d. apply (Rmult_le_reg_r d); [lra|]. unfold Rdiv. rewrite Rmult_assoc, Rinv_l by lra. nra.
Qed.

Print Assumptions C137_importance.
Print Assumptions C137_importance_order.
Print Assumptions C137_additivity.
