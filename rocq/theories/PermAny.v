(** What a run of the permutation based methods computes with any model: PermRun assumes a model
    that predicts row by row; here a model may answer differently every time. *)
From Verif Require Import Py Num Sorting Frame Rng PdCalc PdSpec PdProofs PdMethods PdMethodRun Perm PermFacts PermRun.

Section Run.
  Context {C V G : Type} (N : num_ops V) (R : rng_ops G) (HR : rng_ok R) (srt : sorter).
  Context (P : nat -> list (list C) -> result (list V)).
  Context (X : frame C) (HX : wf_frame X) (m : metric V) (y : target V).
  (** what is known of the score of any answer to a table *)
  Context (judged : list (list C) -> V -> Prop)
          (HJ : forall n rs zs v, P n rs = Ok zs -> mt_calc m y zs = Ok v -> judged rs v).
  Notation pf := (Some P).
  Notation rows := (f_rows X).
  Notation w := (length (f_cols X)).
  Notation len := (length (f_rows X)).
  Notation st := (pst C G).

  Lemma any_score_inv rs (s s' : st) v : score pf m y rs s = (s', Ok v) -> p_rng s' = p_rng s /\ judged rs v.
  Proof.
    unfold score, andthen, ask, lift. destruct (P (length (p_log s)) rs) as [ys|e] eqn:E; intros H; [|discriminate].
    pose proof (f_equal fst H) as H1. pose proof (f_equal snd H) as H2. cbn [fst snd] in *. subst s'.
    split; [reflexivity|]. exact (HJ _ _ _ _ E H2).
  Qed.

  Lemma any_permute_score_inv fs sel ref g0 c (s s' : st) v : selects X fs sel -> p_rng s = gens R len g0 c ->
    permute_score N R pf m X y fs ref s = (s', Ok v) ->
    p_rng s' = gens R len g0 (S c) /\ exists u, judged (rearranged rows sel (nth_perm R len g0 c)) u /\ v = neg_if_class N m (n_sub N u ref).
  Proof.
    intros Hsel Hs H. unfold permute_score in H.
    apply andthen_inv in H as (s1 & p & Hd & H). destruct (draw_inv R X g0 c s s1 p Hs Hd) as [-> Hs1].
    apply andthen_inv in H as (s2 & rs & Hl & H). unfold lift in Hl. rewrite Hsel in Hl by apply nth_perm_ok, HR.
    assert (s2 = s1) by congruence. assert (rs = rearranged rows sel (nth_perm R len g0 c)) by congruence. subst s2 rs. clear Hl.
    apply andthen_inv in H as (s3 & u & Hsc & H). apply any_score_inv in Hsc as [Hr Hu]. unfold ret in H.
    assert (s' = s3) by congruence. assert (v = neg_if_class N m (n_sub N u ref)) by congruence. subst.
    split; [congruence|eauto].
  Qed.

  (** one any_repetition for the pair of columns (k1, k2) starting at draw number [c] *)
  Definition any_repetition (g0 : G) (k1 k2 : nat) (ref : V) (c : nat) (v : V) : Prop :=
    exists u1 u2 u12,
      judged (rearranged rows [k1] (nth_perm R len g0 c)) u1
      /\ judged (rearranged rows [k2] (nth_perm R len g0 (S c))) u2
      /\ judged (rearranged rows [k1; k2] (nth_perm R len g0 (S (S c)))) u12
      /\ v = neg_if_class N m (n_sub N (n_sub N (neg_if_class N m (n_sub N u12 ref)) (neg_if_class N m (n_sub N u1 ref)))
                                     (neg_if_class N m (n_sub N u2 ref))).

  Lemma any_inter_inv f1 f2 k1 k2 ref g0 c (s s' : st) v :
    nth_error (f_cols X) k1 = Some f1 -> nth_error (f_cols X) k2 = Some f2 -> k1 <> k2 -> p_rng s = gens R len g0 c ->
    inter N R pf m X y f1 f2 ref s = (s', Ok v) ->
    p_rng s' = gens R len g0 (3 + c) /\ any_repetition g0 k1 k2 ref c v.
  Proof.
    intros H1 H2 Hne Hs H. unfold inter in H.
    apply andthen_inv in H as (s1 & a1 & E1 & H). destruct (any_permute_score_inv _ _ _ _ _ _ _ _ (selects_one X HX _ _ H1) Hs E1) as [Hs1 (u1 & Hu1 & ->)].
    apply andthen_inv in H as (s2 & a2 & E2 & H). destruct (any_permute_score_inv _ _ _ _ _ _ _ _ (selects_one X HX _ _ H2) Hs1 E2) as [Hs2 (u2 & Hu2 & ->)].
    apply andthen_inv in H as (s3 & a3 & E3 & H). destruct (any_permute_score_inv _ _ _ _ _ _ _ _ (selects_two X HX _ _ _ _ H1 H2 Hne) Hs2 E3) as [Hs3 (u12 & Hu12 & ->)].
    unfold ret in H. assert (s' = s3) by congruence. subst s'. split; [exact Hs3|]. exists u1, u2, u12. repeat split; auto. congruence.
  Qed.

  (** the whole pair table, before sorting *)
  Definition any_pair_row (g0 : G) (n : nat) (ref : V) (c : nat) (pr : string * string) (row : string * string * V) : Prop :=
    exists k1 k2 vs, nth_error (f_cols X) k1 = Some (fst pr) /\ nth_error (f_cols X) k2 = Some (snd pr)
      /\ length vs = n
      /\ (forall j, j < n -> exists v, any_repetition g0 k1 k2 ref (3 * j + c) v /\ nth_error vs j = Some (n_abs N v))
      /\ row = (fst pr, snd pr, np_mean N vs).

  Lemma any_ovo_inv pairs n g0 (s s' : st) t :
    (forall pr, In pr pairs -> In (fst pr) (f_cols X) /\ In (snd pr) (f_cols X) /\ fst pr <> snd pr) ->
    p_rng s = g0 -> perf_based_ovo N R srt pf m X y pairs n s = (s', Ok t) ->
    exists ref raw, judged rows ref /\ t = sort_values N srt false (fun r => n_abs N (snd r)) raw
      /\ length raw = length pairs
      /\ forall i pr, nth_error pairs i = Some pr -> exists row, nth_error raw i = Some row /\ any_pair_row g0 n ref (3 * n * i) pr row.
  Proof.
    intros Hp Hs H. unfold perf_based_ovo in H.
    apply andthen_inv in H as (s1 & ref & E1 & H). apply any_score_inv in E1 as [Hs1 Href].
    apply andthen_inv in H as (s2 & raw & E2 & H). unfold ret in H. assert (t = sort_values N srt false (fun r => n_abs N (snd r)) raw) by congruence. clear H.
    exists ref, raw. split; [exact Href|]. split; [assumption|].
    eapply traverse_inv with (d := 3 * n) (h := any_pair_row g0 n ref) (g0 := g0) (c := 0) in E2.
    - destruct E2 as (_ & Hl & Hn). split; [exact Hl|]. intros i pr Hi. destruct (Hn i pr Hi) as (b & Hb & Hh).
      rewrite Nat.add_0_r in Hh. eauto.
    - clear s s' t Hs s1 s2 E2 Hs1 H0 raw Href; intros [f1 f2] s s' b c Hin Hs H. destruct (Hp _ Hin) as (H1 & H2 & Hne). cbn [fst snd] in *.
      apply In_nth_error in H1 as (k1 & H1). apply In_nth_error in H2 as (k2 & H2).
      assert (Hk : k1 <> k2) by (intros ->; congruence).
      apply andthen_inv in H as (s1 & l & E & H). unfold ret in H. assert (s' = s1) by congruence. assert (b = (f1, f2, np_mean N l)) by congruence. subst s' b. clear H.
      eapply traverse_inv with (d := 3) (h := fun c' _ v => exists v0, any_repetition g0 k1 k2 ref c' v0 /\ v = n_abs N v0) (g0 := g0) (c := c) in E; [|clear E|exact Hs].
      + destruct E as (E1 & E2 & E3). rewrite seq_length in *. split; [exact E1|]. exists k1, k2, l. cbn [fst snd]. repeat split; auto.
        intros j Hj. destruct (E3 j j) as (v & Hv & v0 & Hr & ->); [rewrite nth_error_nth' with (d := 0) by (rewrite seq_length; exact Hj); rewrite seq_nth by exact Hj; reflexivity|].
        exists v0. auto.
      + intros x s2 s3 b c' _ Hs2 H. apply andthen_inv in H as (s4 & v & Hv & H). unfold ret in H. assert (s3 = s4) by congruence. assert (b = n_abs N v) by congruence. subst.
        destruct (any_inter_inv _ _ k1 k2 _ g0 c' _ _ _ H1 H2 Hk Hs2 Hv) as [Ha Hb]. split; [exact Ha|eauto].
    - cbn [gens]. congruence.
  Qed.

  (** *** Permutation importance *)
  Lemma any_corrupt_inv f g0 c (s s' : st) v w' : p_rng s = gens R len g0 c -> corrupt R pf m X y f rows s = (s', Ok (v, w')) ->
    p_rng s' = gens R len g0 (S c) /\ w' = rows
    /\ exists k, nth_error (f_cols X) k = Some f /\ judged (rearranged rows [k] (nth_perm R len g0 c)) v.
  Proof.
    intros Hs H. unfold corrupt in H.
    apply andthen_inv in H as (s1 & k & E1 & H). destruct (col_pos (f_cols X) f) as [k'|] eqn:Ek; [|discriminate].
    unfold ret in E1. assert (s1 = s) by congruence. assert (k = k') by congruence. subst s1 k'. clear E1.
    pose proof (col_pos_nth _ _ _ Ek) as Hk. assert (Hkw : k < w) by (apply nth_error_Some; congruence).
    apply andthen_inv in H as (s2 & p & Hd & H). destruct (draw_inv R X g0 c s s2 p Hs Hd) as [-> Hs2].
    pose proof (nth_perm_ok R len g0 c HR) as Hpp. cbv zeta in H.
    rewrite (permute_at_spec rows w (X_width X HX) k _ Hkw Hpp) in H.
    apply andthen_inv in H as (s3 & u & Hsc & H). apply any_score_inv in Hsc as [Hr Hu]. unfold ret in H.
    rewrite (restore_rows rows w k _ (X_width X HX) Hkw Hpp) in H.
    assert (s' = s3) by congruence. assert (v = u) by congruence. assert (w' = rows) by congruence. subst.
    split; [congruence|]. eauto.
  Qed.

  (** the scores appended by the two loops, in order: entry [i] belongs to draw number [i] *)
  Lemma any_corrupt_loop_inv fs g0 : forall c (s s' : st) l, p_rng s = gens R len g0 c -> corrupt_loop R pf m X y fs rows s = (s', Ok l) ->
    p_rng s' = gens R len g0 (length fs + c) /\ map fst l = fs
    /\ forall i f, nth_error fs i = Some f -> exists k v, nth_error (f_cols X) k = Some f /\ nth_error l i = Some (f, v)
         /\ judged (rearranged rows [k] (nth_perm R len g0 (i + c))) v.
  Proof.
    induction fs as [|f t IH]; intros c s s' l Hs H; cbn [corrupt_loop] in H.
    - unfold ret in H. assert (s' = s) by congruence. assert (l = []) by congruence. subst. split; [exact Hs|]. split; [reflexivity|]. intros [|i] f; discriminate.
    - apply andthen_inv in H as (s1 & [v w'] & E1 & H). destruct (any_corrupt_inv f g0 c s s1 v w' Hs E1) as (Hs1 & -> & k & Hk & Hv).
      cbn [fst snd] in H. apply andthen_inv in H as (s2 & l' & E2 & H). unfold ret in H.
      assert (s' = s2) by congruence. assert (l = (f, v) :: l') by congruence. subst s' l. clear H.
      destruct (IH (S c) s1 s2 l' Hs1 E2) as (Hs2 & Hm & Hn). cbn [length map fst]. split; [rewrite Hs2; f_equal; lia|]. split; [f_equal; exact Hm|].
      intros [|i] f' Hf'; cbn [nth_error] in *.
      + injection Hf' as <-. eauto 6.
      + destruct (Hn i f' Hf') as (k' & v' & ?). exists k', v'. replace (S i + c) with (i + S c) by lia. assumption.
  Qed.

  Lemma any_importance_inv fs n g0 (s s' : st) t : p_rng s = g0 ->
    permutation_importance N R srt pf m X y n (Some fs) s = (s', Ok t) ->
    exists base (vf : nat -> V), judged rows base
      /\ t = sort_values N srt false (fun r => snd r)
               (map (fun f => (f, neg_if_class N m (n_sub N (np_mean N (map vf (shuffles fs n f))) base))) (dedup fs))
      /\ (forall f i, In i (shuffles fs n f) -> exists k, nth_error (f_cols X) k = Some f /\ judged (rearranged rows [k] (nth_perm R len g0 i)) (vf i)).
  Proof.
    intros Hs H. unfold permutation_importance in H.
    apply andthen_inv in H as (s1 & base & E1 & H). apply any_score_inv in E1 as [Hs1 Hb].
    apply andthen_inv in H as (s2 & l & E2 & H).
    destruct (any_corrupt_loop_inv (concat (repeat fs n)) g0 0 s1 s2 l) as (_ & Hm & Hn); [cbn [gens]; congruence|exact E2|].
    exists base, (fun i => nth i (map snd l) (n_nan N)). split; [exact Hb|].
    assert (Hll : length l = n * length fs) by (rewrite <- (map_length fst l), Hm; apply concat_repeat_length).
    assert (Hnth : forall i, i < n * length fs -> nth i l (EmptyString, n_nan N) = (nth (i mod length fs) fs EmptyString, nth i (map snd l) (n_nan N))).
    { intros i Hi. rewrite <- (concat_repeat_nth fs n i EmptyString Hi), <- Hm.
      change EmptyString with (fst (EmptyString, n_nan N)) at 2. rewrite map_nth.
      change (n_nan N) with (snd (EmptyString, n_nan N)) at 3. rewrite map_nth. apply surjective_pairing. }
    assert (Hl : l = map (fun i => (nth (i mod length fs) fs EmptyString, nth i (map snd l) (n_nan N))) (seq 0 (n * length fs))).
    { rewrite (list_as_map l (EmptyString, n_nan N)) at 1. rewrite Hll. apply map_ext_in. intros i Hi. apply in_seq in Hi. apply Hnth. lia. }
    assert (Hf : forall f, map snd (filter (fun e => String.eqb f (fst e)) l) = map (fun i => nth i (map snd l) (n_nan N)) (shuffles fs n f)).
    { intros f. rewrite Hl at 1. rewrite filter_map_comm, map_map. reflexivity. }
    split.
    - rewrite (map_ext _ (fun f => (f, neg_if_class N m (n_sub N (np_mean N (map (fun i => nth i (map snd l) (n_nan N)) (shuffles fs n f))) base)))) in H
        by (intros f; rewrite Hf; reflexivity).
      destruct (map (fun f => (f, neg_if_class N m (n_sub N (np_mean N (map (fun i => nth i (map snd l) (n_nan N)) (shuffles fs n f))) base))) (dedup fs)) as [|x xs];
        [discriminate|]. unfold ret in H. congruence.
    - intros f i Hi. apply filter_In in Hi as [Hi Hf']. apply in_seq in Hi. apply String.eqb_eq in Hf'.
      assert (Hi' : i < n * length fs) by lia.
      destruct (Hn i f) as (k & v & Hk & Hv & Hsc).
      { rewrite (nth_error_nth' _ EmptyString) by (rewrite concat_repeat_length; lia). rewrite concat_repeat_nth by exact Hi'. congruence. }
      exists k. split; [exact Hk|]. rewrite Nat.add_0_r in Hsc. replace (nth i (map snd l) (n_nan N)) with v; [exact Hsc|].
      symmetry. apply nth_error_nth. rewrite nth_error_map, Hv. reflexivity.
  Qed.
End Run.

(** ** Runs that succeed *)
Section Succeeds.
  Context {C V G : Type} (N : num_ops V) (R : rng_ops G) (HR : rng_ok R) (srt : sorter).
  Context (P : nat -> list (list C) -> result (list V)) (HT : total P).
  Context (X : frame C) (HX : wf_frame X) (m : metric V) (y : target V).
  Notation rows := (f_rows X).
  Notation len := (length (f_rows X)).
  (** a class of tables that contains the data and its rearrangements, on which every answer has a score *)
  Context (made : list (list C) -> Prop) (Hm0 : made rows) (Hm1 : forall sel p, Permutation p (seq 0 len) -> made (rearranged rows sel p))
          (Hm : forall n rs zs, made rs -> P n rs = Ok zs -> exists u, mt_calc m y zs = Ok u).

  Lemma any_succ_score rs : made rs -> succeeds (C := C) (G := G) (score (Some P) m y rs) (fun _ => True).
  Proof.
    intros Hl s. unfold score, andthen, ask, lift. destruct (HT (length (p_log s)) rs) as (ys & E). rewrite E.
    destruct (Hm _ rs ys Hl E) as (u & ->). eauto.
  Qed.
  Lemma any_succ_permute_score fs sel ref : selects X fs sel -> succeeds (C := C) (G := G) (permute_score N R (Some P) m X y fs ref) (fun _ => True).
  Proof.
    intros Hs. unfold permute_score. eapply succ_andthen; [apply (succ_draw R HR)|]. intros p Hp. rewrite (Hs p Hp).
    eapply succ_andthen with (p1 := fun rs => rs = rearranged rows sel p); [intros s; exists s; eexists; split; reflexivity|]. intros rs ->.
    eapply succ_andthen; [apply any_succ_score, Hm1, Hp|]. intros; apply succ_ret; trivial.
  Qed.
  Lemma any_succ_ovo pairs n : (forall pr, In pr pairs -> In (fst pr) (f_cols X) /\ In (snd pr) (f_cols X) /\ fst pr <> snd pr) ->
    succeeds (C := C) (G := G) (perf_based_ovo N R srt (Some P) m X y pairs n) (fun _ => True).
  Proof.
    intros Hp. unfold perf_based_ovo. eapply succ_andthen; [apply any_succ_score, Hm0|]. intros ref _.
    eapply succ_andthen; [|intros; apply succ_ret; trivial]. apply succ_traverse. intros [f1 f2] Hin.
    destruct (Hp _ Hin) as (H1 & H2 & Hne). cbn [fst snd] in *.
    apply In_nth_error in H1 as (k1 & H1). apply In_nth_error in H2 as (k2 & H2). assert (Hk : k1 <> k2) by congruence.
    eapply succ_andthen; [|intros; apply succ_ret; trivial]. apply succ_traverse. intros _ _.
    eapply succ_andthen with (p1 := fun _ => True); [|intros; apply succ_ret; trivial]. unfold inter.
    eapply succ_andthen; [eapply any_succ_permute_score, (selects_one X HX); eassumption|]. intros _v _.
    eapply succ_andthen; [eapply any_succ_permute_score, (selects_one X HX); eassumption|]. intros _w _.
    eapply succ_andthen; [eapply any_succ_permute_score, (selects_two X HX); eassumption|]. intros; apply succ_ret; trivial.
  Qed.
  Lemma any_succ_corrupt_loop l : (forall f, In f l -> In f (f_cols X)) -> succeeds (C := C) (G := G) (corrupt_loop R (Some P) m X y l rows) (fun _ => True).
  Proof.
    induction l as [|f t IH]; intros Hl; cbn [corrupt_loop]; [apply succ_ret; trivial|].
    destruct (col_pos_In _ _ (Hl f (or_introl eq_refl))) as (k & Ek).
    assert (Hk : k < length (f_cols X)) by (apply col_pos_nth in Ek; apply nth_error_Some; congruence).
    eapply succ_andthen with (p1 := fun vw => snd vw = rows).
    - unfold corrupt. rewrite Ek. eapply succ_andthen with (p1 := fun k' => k' = k); [apply succ_ret; reflexivity|]. intros k' ->.
      eapply succ_andthen; [apply (succ_draw R HR)|]. intros p Hp. cbv zeta. rewrite (permute_at_spec rows _ (X_width X HX) k p Hk Hp).
      eapply succ_andthen; [apply any_succ_score, Hm1, Hp|]. intros v _. apply succ_ret. cbn [snd].
      apply (restore_rows rows _ k p (X_width X HX) Hk Hp).
    - intros vw ->. eapply succ_andthen; [apply IH; intros; apply Hl; right; assumption|]. intros; apply succ_ret; trivial.
  Qed.
  Lemma any_succ_importance fs n : fs <> [] -> (forall f, In f fs -> In f (f_cols X)) ->
    succeeds (C := C) (G := G) (permutation_importance N R srt (Some P) m X y n (Some fs)) (fun _ => True).
  Proof.
    intros Hne Hin. unfold permutation_importance. eapply succ_andthen; [apply any_succ_score, Hm0|]. intros base _.
    eapply succ_andthen with (p1 := fun _ => True); [apply any_succ_corrupt_loop|].
    - intros f Hf. apply in_concat in Hf as (l & Hl & Hf). apply repeat_spec in Hl. subst. auto.
    - intros sc _. destruct fs as [|f t]; [congruence|]. cbn [dedup map]. apply succ_ret. trivial.
  Qed.
End Succeeds.
