(** Friedman's statistic in double arithmetic (C93, C94) and the additivity index of a
    constant model (C95). *)
From Verif Require Import Py Num NumR Float Sorting Frame Rng PdCalc PdSpec MethodSpec PdFacts PdProofs PdTheorems PdErrors PdApi PdMethods PdMethodFacts Props_Pd Props_Methods Props_Methods2 Additivity Props_Additivity.
From Coq Require Import ZArith SpecFloat Reals Lra.
Open Scope string_scope.
Open Scope nat_scope.
Open Scope list_scope.

(** ** Specification *)

(** the model gives the same prediction whatever is in column [p] *)
Definition unused {C V} (w : nat) (g : list C -> V) (p : nat) : Prop := forall r v, length r = w -> g (with_value p v r) = g r.

Section Float.
  Context {C G : Type} (O : cell_ops C) (HO : cell_ok O) (R : rng_ops G) (HR : rng_ok R) (srt : sorter) (Hs : sorter_ok srt)
          (sum : list F -> F) (Hsum : forall l, added l (sum l)).
  Notation N := (fl64 sum).
  Notation fit := (fit O N R srt).

  Lemma added_nan l x : added l x -> In S754_nan l -> x = S754_nan.
  Proof.
    induction 1 as [|x|l l1 l2 x y Hp _ IH1 _ IH2]; intros Hin; [destruct Hin|destruct Hin as [->|[]]; reflexivity|].
    apply (Permutation_in _ Hp), in_app_or in Hin as [Hin|Hin]; [rewrite (IH1 Hin); reflexivity|rewrite (IH2 Hin)]. destruct x; reflexivity.
  Qed.

  Lemma constant_H (rows : list (list C)) f12 f1 f2 d :
    (forall r, In r rows -> f12 r = d /\ f1 r = d /\ f2 r = d) ->
    or_zero N (H_value N rows true f12 f1 f2) = f_zero \/ or_zero N (H_value N rows true f12 f1 f2) = f_one.
  Proof.
    intros Hc. set (e := fsub d (np_mean N (map (fun _ => d) rows))).
    assert (Hd : forall f, (forall r, In r rows -> f r = d) -> forall r, In r rows -> dev N rows f r = e).
    { intros f Hf r Hr. unfold dev, e. rewrite (map_ext_in f (fun _ => d) rows Hf), (Hf r Hr). reflexivity. }
    unfold H_value.
    rewrite (map_ext_in _ (fun _ => fmul (fsub (fsub e e) e) (fsub (fsub e e) e)) rows)
      by (intros r Hr; unfold sq; rewrite !Hd by (try exact Hr; intros r' Hr'; apply (Hc r' Hr')); reflexivity).
    rewrite (map_ext_in (fun r => sq N (dev N rows f12 r)) (fun _ => fmul e e) rows)
      by (intros r Hr; unfold sq; rewrite !Hd by (try exact Hr; intros r' Hr'; apply (Hc r' Hr')); reflexivity).
    cbn [n_div n_sum fl64]. unfold or_zero. cbn [n_isnan n_ofZ fl64].
    assert (Hz : forall l, fdiv (sum l) (sum l) = f_one \/ fdiv (sum l) (sum l) = S754_nan) by (intros; apply fdiv_self).
    destruct rows as [|r0 rows]; [cbn [map]; destruct (Hz []) as [->| ->]; [right|left]; reflexivity|].
    assert (Hbad : fsub (fsub e e) e = S754_nan -> forall y, (if f_isnan (fdiv (sum (map (fun _ : list C => fmul (fsub (fsub e e) e) (fsub (fsub e e) e)) (r0 :: rows))) y) then f_ofZ 0
       else fdiv (sum (map (fun _ : list C => fmul (fsub (fsub e e) e) (fsub (fsub e e) e)) (r0 :: rows))) y) = f_zero).
    { intros E y. rewrite E. rewrite (added_nan _ (sum (map (fun _ => fmul S754_nan S754_nan) (r0 :: rows))) (Hsum _)); [reflexivity|left; reflexivity]. }
    destruct (f_isnan e) eqn:En; [left; apply Hbad; destruct e; try discriminate; reflexivity|].
    assert (Hcase : (exists s, e = S754_infinity s) \/ forall s, e <> S754_infinity s) by (destruct e; try (right; intros; congruence); left; eauto).
    destruct Hcase as [[s Es]|Hi]; [left; apply Hbad; rewrite Es; destruct s; reflexivity|].
    rewrite (sq_triple e En Hi). destruct (Hz (map (fun _ : list C => fmul e e) (r0 :: rows))) as [->| ->]; [right|left]; reflexivity.
  Qed.

  (** ** C93: the normalized value of two features that the model does not use is exactly 0 or
      exactly 1 *)
  Theorem C93_zero_or_one_partial s a s' g Xs t f1 f2 v :
    wf_frame (a_X a) -> fit (Friedman true) s a = (s', Ok tt) -> m_X s' = Some Xs -> explains O N a g Xs ->
    m_ovo s' = Some t -> In (f1, f2, v) t ->
    (forall p, nth_error (f_cols Xs) p = Some f1 \/ nth_error (f_cols Xs) p = Some f2 -> unused (length (f_cols Xs)) g p) ->
    v = f_zero \/ v = f_one.
  Proof.
    intros HX H HXs He Ht Hin Hu.
    destruct (C12_friedman_pairs O N HO (fl64_ord sum) eq_refl R HR srt Hs true s a s' g Xs HX H HXs He) as (t' & Ht' & _ & Hv & _).
    rewrite Ht in Ht'. injection Ht' as <-. destruct (Hv f1 f2 v Hin) as (p & q & Hp & Hq & Hne & ->).
    destruct (friedman_fit O N HO eq_refl R HR srt true s a s' g Xs HX H HXs He) as (HwX & _).
    apply (constant_H (f_rows Xs) _ _ _ (np_mean N (map g (f_rows Xs)))).
    assert (Hlen : forall r, In r (f_rows Xs) -> length r = length (f_cols Xs)) by (destruct HwX as (_ & Hw & _); rewrite Forall_forall in Hw; exact Hw).
    assert (Hpl : p < length (f_cols Xs)) by (apply nth_error_Some; congruence).
    assert (Hql : q < length (f_cols Xs)) by (apply nth_error_Some; congruence).
    intros r Hr. unfold PD2_at, PD1_at.
    destruct (nth_error r p) as [v|] eqn:E1; [|apply nth_error_None in E1; rewrite Hlen in E1 by exact Hr; lia].
    destruct (nth_error r q) as [w|] eqn:E2; [|apply nth_error_None in E2; rewrite Hlen in E2 by exact Hr; lia].
    assert (H1 : forall r', In r' (f_rows Xs) -> g (with_value p v r') = g r') by (intros r' Hr'; apply (Hu p (or_introl Hp)), Hlen, Hr').
    assert (H2 : forall r', length r' = length (f_cols Xs) -> g (with_value q w r') = g r') by (intros r' Hr'; apply (Hu q (or_intror Hq)), Hr').
    unfold PD2, PD1. split; [|split]; f_equal; apply map_ext_in; intros r' Hr'.
    + rewrite H2 by (rewrite with_value_length; rewrite Hlen; auto). apply H1, Hr'.
    + apply H1, Hr'.
    + apply H2, Hlen, Hr'.
  Qed.

  (** ** C94: reported values are numbers and not negative *)
  Lemma H_value_nonneg (rows : list (list C)) norm f12 f1 f2 : fge0 (H_value N rows norm f12 f1 f2).
  Proof.
    unfold H_value. assert (Hsq : forall f : list C -> F, fge0 (sum (map (fun r => sq N (f r)) rows))).
    { intros f. apply (added_nonneg _ _ (Hsum _)). apply Forall_forall. intros x Hx. apply in_map_iff in Hx as (r & <- & _). apply sq_nonneg. }
    destruct norm; cbn [n_div n_sum n_sqrt fl64].
    - apply fdiv_nonneg; [apply (Hsq (fun r => fsub (fsub (dev N rows f12 r) (dev N rows f1 r)) (dev N rows f2 r)))|apply Hsq].
    - apply fsqrt_nonneg. unfold np_mean. cbn [n_div n_sum fl64]. apply fdiv_nonneg; [apply (Hsq (fun r => fsub (fsub (dev N rows f12 r) (dev N rows f1 r)) (dev N rows f2 r)))|apply f_ofZ_nonneg; lia].
  Qed.
  Lemma or_zero_ge0 x : fge0 x -> SFleb f_zero (or_zero N x) = true.
  Proof. intros H. unfold or_zero. cbn [n_isnan fl64]. destruct (f_isnan x) eqn:E; [reflexivity|apply nonneg_ge0; assumption]. Qed.

  Theorem C94_nonnegative norm s a s' g Xs :
    wf_frame (a_X a) -> fit (Friedman norm) s a = (s', Ok tt) -> m_X s' = Some Xs -> explains O N a g Xs ->
    (exists t, m_ovo s' = Some t /\ forall f1 f2 v, In (f1, f2, v) t -> SFleb f_zero v = true)
    /\ (a_ova a = true -> exists t, m_ova s' = Some t /\ forall f v, In (f, v) t -> SFleb f_zero v = true).
  Proof.
    intros HX H HXs He. split.
    - destruct (C12_friedman_pairs O N HO (fl64_ord sum) eq_refl R HR srt Hs norm s a s' g Xs HX H HXs He) as (t & Ht & _ & Hv & _).
      exists t. split; [exact Ht|]. intros f1 f2 v Hin. destruct (Hv f1 f2 v Hin) as (p & q & _ & _ & _ & ->). apply or_zero_ge0, H_value_nonneg.
    - intros Ho. destruct (C13_friedman_ova O N HO (fl64_ord sum) eq_refl R HR srt Hs norm s a s' g Xs HX H HXs He Ho) as (t & Ht & _ & Hv & _).
      exists t. split; [exact Ht|]. intros f v Hin. destruct (Hv f v Hin) as (p & _ & ->). apply or_zero_ge0, H_value_nonneg.
  Qed.

  (** ** C95: the additivity index of a constant model is NaN or 0, never 1 *)
  Lemma added_zeros l x : added l x -> Forall (eq f_zero) l -> x = f_zero.
  Proof.
    induction 1 as [|x|l l1 l2 x y Hp _ IH1 _ IH2]; intros H; [reflexivity|inversion H; congruence|].
    rewrite Hp in H. apply Forall_app in H as [H1 H2]. rewrite (IH1 H1), (IH2 H2). reflexivity.
  Qed.
  Lemma isnan_nan x : f_isnan x = true -> x = S754_nan.
  Proof. destruct x; (reflexivity || discriminate). Qed.
  Lemma filter_all {A} (p : A -> bool) l : (forall x, In x l -> p x = true) -> filter p l = l.
  Proof. induction l as [|x t IH]; intros H; [reflexivity|]. cbn. rewrite (H x (or_introl eq_refl)), IH; [reflexivity|]. intros; apply H; right; assumption. Qed.
  Theorem C95_constant_partial s a s' v g Xs k :
    wf_frame (aa_X a) -> add_fit O N R s a = (s', Ok v) -> ad_X s' = Some Xs -> add_explains O N a g Xs ->
    ~ In "centered_prediction" (f_cols (aa_X a)) -> (forall r, g r = k) ->
    v = S754_nan \/ v = f_zero.
  Proof.
    intros HX H HXs He Hcp Hk. destruct (add_fit_spec O N R HO eq_refl HR s a s' v g Xs HX H HXs He Hcp) as (HwX & _ & _ & -> & _).
    set (rows := f_rows Xs). set (w := length (f_cols Xs)). set (m := np_mean N (map (fun _ => k) rows)).
    assert (Hm : forall f : list C -> list C, np_mean N (map (fun r => g (f r)) rows) = m) by (intros f; unfold m; f_equal; apply map_ext; intros r; apply Hk).
    assert (Hm0 : np_mean N (map g rows) = m) by (unfold m; f_equal; apply map_ext; intros r; apply Hk).
    assert (Hdev : forall r, dev N rows g r = fsub k m) by (intros r; unfold dev; rewrite Hm0, Hk; reflexivity).
    assert (Hfo : forall r, In r rows -> first_order N g rows w r = fadd (sum (map (fun _ => fsub m m) (seq 0 w))) m).
    { intros r Hr. unfold first_order. rewrite Hm0. cbn [n_add n_sum n_sub fl64]. f_equal. f_equal. apply map_ext_in. intros p Hp. apply in_seq in Hp. f_equal.
      unfold PD1_at. destruct (nth_error r p) as [u|] eqn:Eu; [apply (Hm (with_value p u))|]. apply nth_error_None in Eu. destruct HwX as (_ & Hw & _). rewrite Forall_forall in Hw. unfold w in Hp. rewrite (Hw r Hr) in Eu. lia. }
    unfold additivity_spec.
    rewrite (map_ext_in (fun r => sq N (n_sub N (g r) (first_order N g rows w r))) (fun _ => sq N (fsub k (fadd (sum (map (fun _ => fsub m m) (seq 0 w))) m))) rows)
      by (intros r Hr; rewrite Hfo, Hk by exact Hr; reflexivity).
    rewrite (map_ext (fun r => sq N (dev N rows g r)) (fun _ => sq N (fsub k m))) by (intros r; rewrite Hdev; reflexivity).
    assert (Hsame : fmul (fsub k (fadd (sum (map (fun _ => fsub m m) (seq 0 w))) m)) (fsub k (fadd (sum (map (fun _ => fsub m m) (seq 0 w))) m)) = fmul (fsub k m) (fsub k m)
                    \/ fmul (fsub k (fadd (sum (map (fun _ => fsub m m) (seq 0 w))) m)) (fsub k (fadd (sum (map (fun _ => fsub m m) (seq 0 w))) m)) = S754_nan).
    { destruct (f_isnan (fsub m m)) eqn:En.
      - apply fsub_nan_self in En. destruct w as [|w'].
        + left. cbn [seq map]. rewrite (added_zeros [] (sum [])) by (try apply Hsum; constructor). destruct En as [->|[[] ->]]; reflexivity.
        + right. rewrite (added_nan _ (sum (map (fun _ => fsub m m) (seq 0 (S w')))) (Hsum _)); [destruct k, m; reflexivity|].
          left. destruct En as [->|[[] ->]]; reflexivity.
      - left. rewrite (fsub_self m En). rewrite (added_zeros _ (sum (map (fun _ => f_zero) (seq 0 w))) (Hsum _)) by (apply Forall_forall; intros x Hx; apply in_map_iff in Hx as (? & <- & _); reflexivity).
        destruct m as [[]|sm| |sm mm em]; try reflexivity; destruct k as [[]|[]| |sk mk ek]; try reflexivity. }
    unfold sq. cbn [n_mul n_div n_sum n_sub n_ofZ fl64]. change (f_ofZ 1) with f_one. unfold series_sum. cbn [n_isnan n_sum fl64].
    destruct rows as [|r0 rows'].
    { cbn [map filter]. rewrite (added_zeros [] (sum [])) by (try apply Hsum; constructor). left; reflexivity. }
    destruct Hsame as [->| ->].
    2:{ left. rewrite (added_nan _ (sum (map (fun _ => S754_nan) (r0 :: rows'))) (Hsum _)); [reflexivity|left; reflexivity]. }
    destruct (f_isnan (fmul (fsub k m) (fsub k m))) eqn:En.
    - left. rewrite (added_nan _ (sum (map (fun _ => fmul (fsub k m) (fsub k m)) (r0 :: rows'))) (Hsum _)); [reflexivity|left; apply isnan_nan, En].
    - rewrite (filter_all _ (map _ _)).
      + destruct (fdiv_self (sum (map (fun _ => fmul (fsub k m) (fsub k m)) (r0 :: rows')))) as [->| ->]; [right|left]; reflexivity.
      + intros x Hx. apply in_map_iff in Hx as (? & <- & _). rewrite En. reflexivity.
  Qed.
End Float.

(** ** C93 is false in doubles: the model returns a tenth of the third column, the pair of the other
    two gets the largest value, 1 *)
Definition flX : frame Z := {| f_cols := ["a"; "b"; "c"]; f_index := [0;1;2;3;4;5]%Z; f_num := ["a"; "b"; "c"];
  f_rows := [[0;0;1];[0;1;1];[0;0;1];[1;1;1];[1;0;2];[1;1;7]]%Z |}.
Definition flg (r : list Z) : F := match r with [_; _; c] => fdiv (f_ofZ c) (f_ofZ 10) | _ => S754_nan end.
Definition flP : nat -> list (list Z) -> result (list F) := fun _ rows => Ok (map flg rows).
Definition fitF := fit Zcell (fl64 seq_sum) rotR isort.
Definition flA := mkargs flP flX None true None.

Theorem C93_unused_refuted :
  exists s' t, wf_frame (a_X flA) /\ fitF (Friedman true) (m_init 0) flA = (s', Ok tt) /\ m_X s' = Some flX /\ explains Zcell (fl64 seq_sum) flA flg flX
    /\ unused 3 flg 0 /\ unused 3 flg 1 /\ m_ovo s' = Some (("a", "b", f_one) :: t)
    /\ forall f1 f2 v, In (f1, f2, v) t -> SFltb v f_one = true.
Proof.
  exists (fst (fitF (Friedman true) (m_init 0) flA)). eexists. split; [repeat constructor; cbn; intuition congruence|].
  split; [rewrite (surjective_pairing (fitF (Friedman true) (m_init 0) flA)) at 1; f_equal; vm_compute; reflexivity|]. split; [vm_compute; reflexivity|].
  split; [split; [intros n rows ys E; injection E as <-; reflexivity|exact I]|].
  split; [intros [|x [|y [|z [|]]]] v E; try discriminate; reflexivity|]. split; [intros [|x [|y [|z [|]]]] v E; try discriminate; reflexivity|].
  split; [vm_compute; reflexivity|]. intros f1 f2 v [E|[E|[]]]; injection E as <- <- <-; reflexivity.
Qed.

(** the same model has value 0 on the first four rows: the average of 1/10 is exact there *)
Example C93_zero_example :
  option_map (map (fun r => (fst r, snd r))) (m_ovo (fst (fitF (Friedman true) (m_init 0) (mkargs flP {| f_cols := f_cols flX; f_index := [0;1;2;3]%Z; f_num := f_num flX; f_rows := firstn 4 (f_rows flX) |} None true None))))
  = Some [("a", "b", f_zero); ("a", "c", f_zero); ("b", "c", f_zero)].
Proof. vm_compute. reflexivity. Qed.

(** ** C95 is false: a model that returns 1/10 for every row has the index 0 on three rows *)
Definition flK : nat -> list (list Z) -> result (list F) := fun _ rows => Ok (map (fun _ => fdiv (f_ofZ 1) (f_ofZ 10)) rows).
Definition addK : aargs Z F :=
  {| aa_model := {| md_id := 0; md_proba1 := None; md_predict := Some flK |}; aa_X := {| f_cols := ["a"; "b"]; f_index := [0;1;2]%Z; f_num := ["a"; "b"]; f_rows := [[0;0];[0;1];[1;1]]%Z |};
     aa_n := None; aa_predict := None; aa_batch := 100; aa_calc := None |}.
Definition addS : astate Z F nat := {| ad_rng := 0; ad_calc := None; ad_X := None; ad_preds := None; ad_full := None; ad_index := None |}.
Theorem C95_constant_refuted :
  exists s', wf_frame (aa_X addK) /\ add_explains Zcell (fl64 seq_sum) addK (fun _ => fdiv (f_ofZ 1) (f_ofZ 10)) (aa_X addK)
    /\ ~ In "centered_prediction" (f_cols (aa_X addK)) /\ add_fit Zcell (fl64 seq_sum) rotR addS addK = (s', Ok f_zero) /\ ad_X s' = Some (aa_X addK).
Proof.
  exists (fst (add_fit Zcell (fl64 seq_sum) rotR addS addK)). split; [repeat constructor; cbn; intuition congruence|].
  split; [split; [intros n rows ys E; injection E as <-; reflexivity|exact I]|]. split; [cbn; intuition congruence|].
  split; [rewrite (surjective_pairing (add_fit Zcell (fl64 seq_sum) rotR addS addK)) at 1; f_equal; vm_compute; reflexivity|vm_compute; reflexivity].
Qed.

(** in exact arithmetic the index is undefined *)
Theorem C95_exact_partial {C G} (O : cell_ops C) (HO : cell_ok O) (Rg : rng_ops G) (HR : rng_ok Rg) s a s' v k Xs :
  wf_frame (aa_X a) -> add_fit O xR Rg s a = (s', Ok v) -> ad_X s' = Some Xs -> add_explains O xR a (fun _ => Fin k) Xs ->
  ~ In "centered_prediction" (f_cols (aa_X a)) -> v = NaN.
Proof.
  intros HX H HXs He Hcp. destruct (index_real O HO Rg HR s a s' v (fun _ => k) Xs HX H HXs He Hcp) as [Hw ->].
  rewrite (additive_unexplained (f_rows Xs) _ Hw (fun _ => k)).
  - rewrite (proj2 (variation_zero (f_rows Xs) (fun _ => k))) by reflexivity. rewrite xR_div_zero. unfold Rltb. destruct (Rlt_dec 0 0) as [L|_]; [lra|]. reflexivity.
  - exists k, (fun _ _ => 0%R). intros r _. rewrite Rsum_map_const. lra.
Qed.

Print Assumptions C93_zero_or_one_partial.
Print Assumptions C94_nonnegative.
Print Assumptions C95_constant_partial.
Print Assumptions C93_unused_refuted.
Print Assumptions C95_constant_refuted.
Print Assumptions C95_exact_partial.
