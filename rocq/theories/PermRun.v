(** What a run of the permutation based methods computes. *)
From Verif Require Import Py Num Sorting Frame Rng PdCalc PdSpec PdProofs PdMethods PdMethodRun Perm PermFacts.

Section Stream.
  Context {G : Type} (R : rng_ops G).
  (** the generator after [k] permutations of [len] entries, and the [k]-th permutation it draws *)
  Fixpoint gens (len : nat) (g : G) (k : nat) : G := match k with 0 => g | S j => snd (r_perm R (gens len g j) len) end.
  Definition nth_perm (len : nat) (g : G) (k : nat) : list nat := fst (r_perm R (gens len g k) len).
  Lemma nth_perm_ok len g k : rng_ok R -> Permutation (nth_perm len g k) (seq 0 len).
  Proof. intros HR. apply (rk_perm R HR). Qed.
End Stream.

Section Run.
  Context {C V G : Type} (N : num_ops V) (R : rng_ops G) (HR : rng_ok R) (srt : sorter).
  Context (P : nat -> list (list C) -> result (list V)) (g : list C -> V) (HP : rowwise P g).
  Context (X : frame C) (HX : wf_frame X) (m : metric V) (y : target V).
  Notation pf := (Some P).
  Notation rows := (f_rows X).
  Notation w := (length (f_cols X)).
  Notation len := (length (f_rows X)).
  Notation st := (pst C G).

  Lemma X_width : forall r, In r rows -> length r = w.
  Proof. apply Forall_forall, HX. Qed.

  (** [u] is the metric on the given data *)
  Definition scored (rs : list (list C)) (u : V) : Prop := mt_calc m y (map g rs) = Ok u.

  Lemma score_inv rs (s s' : st) v : score pf m y rs s = (s', Ok v) -> p_rng s' = p_rng s /\ scored rs v.
  Proof.
    unfold score, andthen, ask, lift. destruct (P (length (p_log s)) rs) as [ys|e] eqn:E; intros H; [|discriminate].
    pose proof (f_equal fst H) as H1. pose proof (f_equal snd H) as H2. cbn [fst snd] in *. subst s'.
    split; [reflexivity|]. unfold scored. rewrite <- (HP _ _ _ E). exact H2.
  Qed.

  Lemma draw_inv g0 c (s s' : st) p : p_rng s = gens R len g0 c -> draw R len s = (s', Ok p) ->
    p = nth_perm R len g0 c /\ p_rng s' = gens R len g0 (S c).
  Proof.
    intros Hs. unfold draw, nth_perm. cbn [gens]. rewrite Hs. destruct (r_perm R (gens R len g0 c) len) as [q g']. cbn.
    intros H. injection H as <- <-. auto.
  Qed.

  (** the columns named [fs] are those at the positions [sel] *)
  Definition selects (fs : list string) (sel : list nat) : Prop :=
    forall p, Permutation p (seq 0 len) -> permute_cols (f_cols X) p rows fs = Ok (rearranged rows sel p).

  Lemma selects_one f k : nth_error (f_cols X) k = Some f -> selects [f] [k].
  Proof.
    intros Hk p Hp. cbn [permute_cols fold_left bind]. unfold permute_col. rewrite (col_pos_NoDup _ f k (proj1 HX) Hk).
    f_equal. apply (permute_at_spec rows w X_width k p); [|exact Hp]. apply nth_error_Some. congruence.
  Qed.
  Lemma selects_two f1 f2 k1 k2 : nth_error (f_cols X) k1 = Some f1 -> nth_error (f_cols X) k2 = Some f2 -> k1 <> k2 ->
    selects [f1; f2] [k1; k2].
  Proof.
    intros H1 H2 Hne p Hp. cbn [permute_cols fold_left bind]. unfold permute_col.
    rewrite (col_pos_NoDup _ f1 k1 (proj1 HX) H1). cbn [bind]. rewrite (col_pos_NoDup _ f2 k2 (proj1 HX) H2).
    f_equal. apply (permute_two rows w k1 k2 p X_width); auto; apply nth_error_Some; congruence.
  Qed.

  Lemma andthen_inv {A B} (a : act A) (k : A -> act B) (s s' : st) b : andthen a k s = (s', Ok b) ->
    exists s1 x, a s = (s1, Ok x) /\ k x s1 = (s', Ok b).
  Proof. unfold andthen. destruct (a s) as [s1 [x|e]]; intros H; [eauto|discriminate]. Qed.

  Lemma permute_score_inv fs sel ref g0 c (s s' : st) v : selects fs sel -> p_rng s = gens R len g0 c ->
    permute_score N R pf m X y fs ref s = (s', Ok v) ->
    p_rng s' = gens R len g0 (S c) /\ exists u, scored (rearranged rows sel (nth_perm R len g0 c)) u /\ v = neg_if_class N m (n_sub N u ref).
  Proof.
    intros Hsel Hs H. unfold permute_score in H.
    apply andthen_inv in H as (s1 & p & Hd & H). destruct (draw_inv g0 c s s1 p Hs Hd) as [-> Hs1].
    apply andthen_inv in H as (s2 & rs & Hl & H). unfold lift in Hl. rewrite Hsel in Hl by apply nth_perm_ok, HR.
    assert (s2 = s1) by congruence. assert (rs = rearranged rows sel (nth_perm R len g0 c)) by congruence. subst s2 rs. clear Hl.
    apply andthen_inv in H as (s3 & u & Hsc & H). apply score_inv in Hsc as [Hr Hu]. unfold ret in H.
    assert (s' = s3) by congruence. assert (v = neg_if_class N m (n_sub N u ref)) by congruence. subst.
    split; [congruence|eauto].
  Qed.

  (** one repetition for the pair of columns (k1, k2) starting at draw number [c] *)
  Definition repetition (g0 : G) (k1 k2 : nat) (ref : V) (c : nat) (v : V) : Prop :=
    exists u1 u2 u12,
      scored (rearranged rows [k1] (nth_perm R len g0 c)) u1
      /\ scored (rearranged rows [k2] (nth_perm R len g0 (S c))) u2
      /\ scored (rearranged rows [k1; k2] (nth_perm R len g0 (S (S c)))) u12
      /\ v = neg_if_class N m (n_sub N (n_sub N (neg_if_class N m (n_sub N u12 ref)) (neg_if_class N m (n_sub N u1 ref)))
                                     (neg_if_class N m (n_sub N u2 ref))).

  Lemma inter_inv f1 f2 k1 k2 ref g0 c (s s' : st) v :
    nth_error (f_cols X) k1 = Some f1 -> nth_error (f_cols X) k2 = Some f2 -> k1 <> k2 -> p_rng s = gens R len g0 c ->
    inter N R pf m X y f1 f2 ref s = (s', Ok v) ->
    p_rng s' = gens R len g0 (3 + c) /\ repetition g0 k1 k2 ref c v.
  Proof.
    intros H1 H2 Hne Hs H. unfold inter in H.
    apply andthen_inv in H as (s1 & a1 & E1 & H). destruct (permute_score_inv _ _ _ _ _ _ _ _ (selects_one _ _ H1) Hs E1) as [Hs1 (u1 & Hu1 & ->)].
    apply andthen_inv in H as (s2 & a2 & E2 & H). destruct (permute_score_inv _ _ _ _ _ _ _ _ (selects_one _ _ H2) Hs1 E2) as [Hs2 (u2 & Hu2 & ->)].
    apply andthen_inv in H as (s3 & a3 & E3 & H). destruct (permute_score_inv _ _ _ _ _ _ _ _ (selects_two _ _ _ _ H1 H2 Hne) Hs2 E3) as [Hs3 (u12 & Hu12 & ->)].
    unfold ret in H. assert (s' = s3) by congruence. subst s'. split; [exact Hs3|]. exists u1, u2, u12. repeat split; auto. congruence.
  Qed.

  (** a list comprehension whose body consumes [d] draws *)
  Lemma traverse_inv {A B} (f : A -> act (C := C) (G := G) B) (d : nat) (h : nat -> A -> B -> Prop) g0 l :
    (forall x s s' b c, In x l -> p_rng s = gens R len g0 c -> f x s = (s', Ok b) -> p_rng s' = gens R len g0 (d + c) /\ h c x b) ->
    forall c s s' bs, p_rng s = gens R len g0 c -> traverse f l s = (s', Ok bs) ->
      p_rng s' = gens R len g0 (d * length l + c) /\ length bs = length l
      /\ forall i x, nth_error l i = Some x -> exists b, nth_error bs i = Some b /\ h (d * i + c) x b.
  Proof.
    induction l as [|x t IH]; intros Hf c s s' bs Hs H; cbn [traverse] in H.
    - unfold ret in H. assert (s' = s) by congruence. assert (bs = []) by congruence. subst. cbn [length].
      rewrite Nat.mul_0_r. split; [exact Hs|]. split; [reflexivity|]. intros [|i] x; discriminate.
    - apply andthen_inv in H as (s1 & b & E1 & H). apply andthen_inv in H as (s2 & bs' & E2 & H).
      unfold ret in H. assert (s' = s2) by congruence. assert (bs = b :: bs') by congruence. subst s' bs. clear H.
      destruct (Hf x s s1 b c (or_introl eq_refl) Hs E1) as [Hs1 Hb].
      destruct (IH (fun x s s' b c Hin => Hf x s s' b c (or_intror Hin)) (d + c) s1 s2 bs' Hs1 E2) as (Hs2 & Hl & Hn).
      split; [rewrite Hs2; f_equal; cbn [length]; lia|]. split; [cbn [length]; lia|].
      intros [|i] z Hz; cbn [nth_error] in *.
      + injection Hz as <-. exists b. rewrite Nat.mul_0_r. auto.
      + destruct (Hn i z Hz) as (b' & Hb' & Hh). exists b'. split; [exact Hb'|].
        replace (d * S i + c) with (d * i + (d + c)) by lia. exact Hh.
  Qed.

  (** the whole pair table, before sorting *)
  Definition pair_row (g0 : G) (n : nat) (ref : V) (c : nat) (pr : string * string) (row : string * string * V) : Prop :=
    exists k1 k2 vs, nth_error (f_cols X) k1 = Some (fst pr) /\ nth_error (f_cols X) k2 = Some (snd pr)
      /\ length vs = n
      /\ (forall j, j < n -> exists v, repetition g0 k1 k2 ref (3 * j + c) v /\ nth_error vs j = Some (n_abs N v))
      /\ row = (fst pr, snd pr, np_mean N vs).

  Lemma ovo_inv pairs n g0 (s s' : st) t :
    (forall pr, In pr pairs -> In (fst pr) (f_cols X) /\ In (snd pr) (f_cols X) /\ fst pr <> snd pr) ->
    p_rng s = g0 -> perf_based_ovo N R srt pf m X y pairs n s = (s', Ok t) ->
    exists ref raw, scored rows ref /\ t = sort_values N srt false (fun r => n_abs N (snd r)) raw
      /\ length raw = length pairs
      /\ forall i pr, nth_error pairs i = Some pr -> exists row, nth_error raw i = Some row /\ pair_row g0 n ref (3 * n * i) pr row.
  Proof.
    intros Hp Hs H. unfold perf_based_ovo in H.
    apply andthen_inv in H as (s1 & ref & E1 & H). apply score_inv in E1 as [Hs1 Href].
    apply andthen_inv in H as (s2 & raw & E2 & H). unfold ret in H. assert (t = sort_values N srt false (fun r => n_abs N (snd r)) raw) by congruence. clear H.
    exists ref, raw. split; [exact Href|]. split; [assumption|].
    eapply traverse_inv with (d := 3 * n) (h := pair_row g0 n ref) (g0 := g0) (c := 0) in E2.
    - destruct E2 as (_ & Hl & Hn). split; [exact Hl|]. intros i pr Hi. destruct (Hn i pr Hi) as (b & Hb & Hh).
      rewrite Nat.add_0_r in Hh. eauto.
    - clear - HP HX HR Hp. intros [f1 f2] s s' b c Hin Hs H. destruct (Hp _ Hin) as (H1 & H2 & Hne). cbn [fst snd] in *.
      apply In_nth_error in H1 as (k1 & H1). apply In_nth_error in H2 as (k2 & H2).
      assert (Hk : k1 <> k2) by (intros ->; congruence).
      apply andthen_inv in H as (s1 & l & E & H). unfold ret in H. assert (s' = s1) by congruence. assert (b = (f1, f2, np_mean N l)) by congruence. subst s' b. clear H.
      eapply traverse_inv with (d := 3) (h := fun c' _ v => exists v0, repetition g0 k1 k2 ref c' v0 /\ v = n_abs N v0) (g0 := g0) (c := c) in E; [|clear E|exact Hs].
      + destruct E as (E1 & E2 & E3). rewrite seq_length in *. split; [exact E1|]. exists k1, k2, l. cbn [fst snd]. repeat split; auto.
        intros j Hj. destruct (E3 j j) as (v & Hv & v0 & Hr & ->); [rewrite nth_error_nth' with (d := 0) by (rewrite seq_length; exact Hj); rewrite seq_nth by exact Hj; reflexivity|].
        exists v0. auto.
      + intros x s2 s3 b c' _ Hs2 H. apply andthen_inv in H as (s4 & v & Hv & H). unfold ret in H. assert (s3 = s4) by congruence. assert (b = n_abs N v) by congruence. subst.
        destruct (inter_inv _ _ k1 k2 _ g0 c' _ _ _ H1 H2 Hk Hs2 Hv) as [Ha Hb]. split; [exact Ha|eauto].
    - cbn [gens]. congruence.
  Qed.

  (** *** Permutation importance *)
  Lemma corrupt_inv f g0 c (s s' : st) v w' : p_rng s = gens R len g0 c -> corrupt R pf m X y f rows s = (s', Ok (v, w')) ->
    p_rng s' = gens R len g0 (S c) /\ w' = rows
    /\ exists k, nth_error (f_cols X) k = Some f /\ scored (rearranged rows [k] (nth_perm R len g0 c)) v.
  Proof.
    intros Hs H. unfold corrupt in H.
    apply andthen_inv in H as (s1 & k & E1 & H). destruct (col_pos (f_cols X) f) as [k'|] eqn:Ek; [|discriminate].
    unfold ret in E1. assert (s1 = s) by congruence. assert (k = k') by congruence. subst s1 k'. clear E1.
    pose proof (col_pos_nth _ _ _ Ek) as Hk. assert (Hkw : k < w) by (apply nth_error_Some; congruence).
    apply andthen_inv in H as (s2 & p & Hd & H). destruct (draw_inv g0 c s s2 p Hs Hd) as [-> Hs2].
    pose proof (nth_perm_ok R len g0 c HR) as Hpp. cbv zeta in H.
    rewrite (permute_at_spec rows w X_width k _ Hkw Hpp) in H.
    apply andthen_inv in H as (s3 & u & Hsc & H). apply score_inv in Hsc as [Hr Hu]. unfold ret in H.
    rewrite (restore_rows rows w k _ X_width Hkw Hpp) in H.
    assert (s' = s3) by congruence. assert (v = u) by congruence. assert (w' = rows) by congruence. subst.
    split; [congruence|]. eauto.
  Qed.

  (** the scores appended by the two loops, in order: entry [i] belongs to draw number [i] *)
  Lemma corrupt_loop_inv fs g0 : forall c (s s' : st) l, p_rng s = gens R len g0 c -> corrupt_loop R pf m X y fs rows s = (s', Ok l) ->
    p_rng s' = gens R len g0 (length fs + c) /\ map fst l = fs
    /\ forall i f, nth_error fs i = Some f -> exists k v, nth_error (f_cols X) k = Some f /\ nth_error l i = Some (f, v)
         /\ scored (rearranged rows [k] (nth_perm R len g0 (i + c))) v.
  Proof.
    induction fs as [|f t IH]; intros c s s' l Hs H; cbn [corrupt_loop] in H.
    - unfold ret in H. assert (s' = s) by congruence. assert (l = []) by congruence. subst. split; [exact Hs|]. split; [reflexivity|]. intros [|i] f; discriminate.
    - apply andthen_inv in H as (s1 & [v w'] & E1 & H). destruct (corrupt_inv f g0 c s s1 v w' Hs E1) as (Hs1 & -> & k & Hk & Hv).
      cbn [fst snd] in H. apply andthen_inv in H as (s2 & l' & E2 & H). unfold ret in H.
      assert (s' = s2) by congruence. assert (l = (f, v) :: l') by congruence. subst s' l. clear H.
      destruct (IH (S c) s1 s2 l' Hs1 E2) as (Hs2 & Hm & Hn). cbn [length map fst]. split; [rewrite Hs2; f_equal; lia|]. split; [f_equal; exact Hm|].
      intros [|i] f' Hf'; cbn [nth_error] in *.
      + injection Hf' as <-. eauto 6.
      + destruct (Hn i f' Hf') as (k' & v' & ?). exists k', v'. replace (S i + c) with (i + S c) by lia. assumption.
  Qed.

  (** the numbers of the draws used for the feature [f] *)
  Definition shuffles (fs : list string) (n : nat) (f : string) : list nat :=
    filter (fun i => String.eqb f (nth (i mod length fs) fs EmptyString)) (seq 0 (n * length fs)).

  Lemma concat_repeat_length {A} (fs : list A) n : length (concat (repeat fs n)) = n * length fs.
  Proof. induction n as [|n IH]; cbn [repeat concat]; [reflexivity|]. rewrite app_length, IH. lia. Qed.
  Lemma concat_repeat_nth {A} (fs : list A) n i d : i < n * length fs -> nth i (concat (repeat fs n)) d = nth (i mod length fs) fs d.
  Proof.
    revert i; induction n as [|n IH]; intros i Hi; cbn [repeat concat]; [lia|].
    assert (Hfs : length fs <> 0) by (intros E; rewrite E in Hi; lia).
    destruct (Nat.lt_ge_cases i (length fs)) as [Hl|Hg].
    - rewrite app_nth1, Nat.mod_small by exact Hl. reflexivity.
    - rewrite app_nth2 by exact Hg. rewrite IH by lia. f_equal.
      replace i with ((i - length fs) + 1 * length fs) at 2 by lia. rewrite Nat.mod_add by exact Hfs. reflexivity.
  Qed.

  Lemma filter_map_comm {A B} (p : B -> bool) (h : A -> B) l : filter p (map h l) = map h (filter (fun a => p (h a)) l).
  Proof. induction l as [|a t IH]; cbn; [reflexivity|]. destruct (p (h a)); cbn; rewrite IH; reflexivity. Qed.

  Lemma list_as_map {A} (l : list A) d : l = map (fun i => nth i l d) (seq 0 (length l)).
  Proof.
    apply nth_error_eq; [rewrite map_length, seq_length; reflexivity|]. intros i Hi.
    rewrite nth_error_map, (nth_error_nth' (seq 0 (length l)) 0) by (rewrite seq_length; exact Hi).
    rewrite seq_nth by exact Hi. cbn [option_map]. apply nth_error_nth'. exact Hi.
  Qed.

  Lemma dedup_In x fs : In x (dedup fs) <-> In x fs.
  Proof.
    induction fs as [|a t IH]; cbn; [reflexivity|]. rewrite filter_In, IH.
    destruct (String.eqb_spec a x); cbn; intuition congruence.
  Qed.
  Lemma dedup_NoDup fs : NoDup (dedup fs).
  Proof.
    induction fs as [|a t IH]; cbn; constructor; [|apply NoDup_filter, IH].
    rewrite filter_In, String.eqb_refl. cbn. intuition discriminate.
  Qed.
  Lemma dedup_id fs : NoDup fs -> dedup fs = fs.
  Proof.
    induction fs as [|a t IH]; cbn; intros H; [reflexivity|]. inversion H; subst. rewrite IH by assumption. f_equal.
    clear - H2. induction t as [|b t IH]; cbn; [reflexivity|]. destruct (String.eqb_spec a b); [subst; destruct H2; left; reflexivity|].
    cbn. f_equal. apply IH. intros Hin; apply H2; right; exact Hin.
  Qed.

  Lemma importance_inv fs n g0 (s s' : st) t : p_rng s = g0 ->
    permutation_importance N R srt pf m X y n (Some fs) s = (s', Ok t) ->
    exists base (vf : nat -> V), scored rows base
      /\ t = sort_values N srt false (fun r => snd r)
               (map (fun f => (f, neg_if_class N m (n_sub N (np_mean N (map vf (shuffles fs n f))) base))) (dedup fs))
      /\ (forall f i, In i (shuffles fs n f) -> exists k, nth_error (f_cols X) k = Some f /\ scored (rearranged rows [k] (nth_perm R len g0 i)) (vf i)).
  Proof.
    intros Hs H. unfold permutation_importance in H.
    apply andthen_inv in H as (s1 & base & E1 & H). apply score_inv in E1 as [Hs1 Hb].
    apply andthen_inv in H as (s2 & l & E2 & H).
    destruct (corrupt_loop_inv (concat (repeat fs n)) g0 0 s1 s2 l) as (_ & Hm & Hn); [cbn [gens]; congruence|exact E2|].
    exists base, (fun i => nth i (map snd l) (n_nan N)). split; [exact Hb|].
    assert (Hll : length l = n * length fs) by (rewrite <- (map_length fst l), Hm; apply concat_repeat_length).
    assert (Hnth : forall i, i < n * length fs -> nth i l (EmptyString, n_nan N) = (nth (i mod length fs) fs EmptyString, nth i (map snd l) (n_nan N))).
    { intros i Hi. rewrite <- (concat_repeat_nth fs n i EmptyString Hi), <- Hm.
      change EmptyString with (fst (EmptyString, n_nan N)) at 2. rewrite map_nth.
      change (n_nan N) with (snd (EmptyString, n_nan N)) at 3. rewrite map_nth. apply surjective_pairing. }
    assert (Hl : l = map (fun i => (nth (i mod length fs) fs EmptyString, nth i (map snd l) (n_nan N))) (seq 0 (n * length fs))).
    { rewrite (list_as_map l (EmptyString, n_nan N)) at 1. rewrite Hll. apply map_ext_in. intros i Hi. apply in_seq in Hi. apply Hnth. lia. }
    assert (Hf : forall f, map snd (filter (fun e => String.eqb f (fst e)) l) = map (fun i => nth i (map snd l) (n_nan N)) (shuffles fs n f)).
    { intros f. rewrite Hl at 1. rewrite filter_map_comm, map_map. reflexivity. }
    split.
    - rewrite (map_ext _ (fun f => (f, neg_if_class N m (n_sub N (np_mean N (map (fun i => nth i (map snd l) (n_nan N)) (shuffles fs n f))) base)))) in H
        by (intros f; rewrite Hf; reflexivity).
      destruct (map (fun f => (f, neg_if_class N m (n_sub N (np_mean N (map (fun i => nth i (map snd l) (n_nan N)) (shuffles fs n f))) base))) (dedup fs)) as [|x xs];
        [discriminate|]. unfold ret in H. congruence.
    - intros f i Hi. apply filter_In in Hi as [Hi Hf']. apply in_seq in Hi. apply String.eqb_eq in Hf'.
      assert (Hi' : i < n * length fs) by lia.
      destruct (Hn i f) as (k & v & Hk & Hv & Hsc).
      { rewrite (nth_error_nth' _ EmptyString) by (rewrite concat_repeat_length; lia). rewrite concat_repeat_nth by exact Hi'. congruence. }
      exists k. split; [exact Hk|]. rewrite Nat.add_0_r in Hsc. replace (nth i (map snd l) (n_nan N)) with v; [exact Hsc|].
      symmetry. apply nth_error_nth. rewrite nth_error_map, Hv. reflexivity.
  Qed.
End Run.

(** ** The data frames the model is evaluated on, for every outcome *)
Section Requests.
  Context {C V G : Type} (N : num_ops V) (R : rng_ops G) (HR : rng_ok R) (srt : sorter).
  Context (pf : option (nat -> list (list C) -> result (list V))).
  Context (X : frame C) (HX : wf_frame X) (m : metric V) (y : target V) (fs : list string).
  Notation rows := (f_rows X).
  Notation w := (length (f_cols X)).
  Notation len := (length (f_rows X)).
  Notation st := (pst C G).

  Definition allowed (rs : list (list C)) : Prop :=
    rs = rows \/ exists sel p, Permutation p (seq 0 len) /\ rs = rearranged rows sel p
                 /\ (exists f k, sel = [k] /\ In f fs /\ nth_error (f_cols X) k = Some f
                     \/ exists f' k', sel = [k; k'] /\ In (f, f') (combinations2 fs) /\ nth_error (f_cols X) k = Some f /\ nth_error (f_cols X) k' = Some f').
  Definition logok (s : st) : Prop := Forall allowed (p_log s).

  Lemma hoare_score rs : allowed rs -> hoare logok (score pf m y rs) (fun _ => True).
  Proof.
    intros Ha. unfold score. eapply hoare_andthen with (post1 := fun _ => True).
    - intros s Hs. unfold ask. destruct pf; cbn [fst snd]; (split; [|trivial]); [|exact Hs].
      apply Forall_app. split; [exact Hs|]. constructor; [exact Ha|constructor].
    - intros yh _. apply hoare_lift. trivial.
  Qed.
  Lemma hoare_draw n : hoare logok (draw R n) (fun p => Permutation p (seq 0 n)).
  Proof.
    intros s Hs. unfold draw. pose proof (rk_perm R HR (p_rng s) n) as Hp. destruct (r_perm R (p_rng s) n) as [p g'].
    cbn [fst snd] in *. split; [exact Hs|]. intros a Ha. assert (a = p) by congruence. subst; exact Hp.
  Qed.

  Lemma hoare_permute_score1 f ref : In f fs -> hoare logok (permute_score N R pf m X y [f] ref) (fun _ => True).
  Proof.
    intros Hf. unfold permute_score. eapply hoare_andthen; [apply hoare_draw|]. intros p Hp.
    destruct (col_pos (f_cols X) f) as [k|] eqn:Ek.
    - apply col_pos_nth in Ek. rewrite (selects_one X HX f k Ek p Hp).
      eapply hoare_andthen with (post1 := fun rs => rs = rearranged rows [k] p); [apply hoare_lift; congruence|]. intros rs ->.
      eapply hoare_andthen; [apply hoare_score|intros; apply hoare_ret; trivial].
      right. exists [k], p. split; [exact Hp|]. split; [reflexivity|]. exists f, k. left. auto.
    - cbn [permute_cols fold_left bind]. unfold permute_col. rewrite Ek.
      eapply hoare_andthen with (post1 := fun _ => False); [apply hoare_lift; discriminate|]. intros rs [].
  Qed.
  Lemma hoare_permute_score2 f1 f2 ref : In (f1, f2) (combinations2 fs) -> f1 <> f2 -> hoare logok (permute_score N R pf m X y [f1; f2] ref) (fun _ => True).
  Proof.
    intros Hf Hne. unfold permute_score. eapply hoare_andthen; [apply hoare_draw|]. intros p Hp.
    destruct (col_pos (f_cols X) f1) as [k1|] eqn:E1, (col_pos (f_cols X) f2) as [k2|] eqn:E2.
    1: { apply col_pos_nth in E1. apply col_pos_nth in E2. assert (Hk : k1 <> k2) by congruence.
      rewrite (selects_two X HX f1 f2 k1 k2 E1 E2 Hk p Hp).
      eapply hoare_andthen with (post1 := fun rs => rs = rearranged rows [k1; k2] p); [apply hoare_lift; congruence|]. intros rs ->.
      eapply hoare_andthen; [apply hoare_score|intros; apply hoare_ret; trivial].
      right. exists [k1; k2], p. split; [exact Hp|]. split; [reflexivity|]. exists f1, k1. right. exists f2, k2. auto. }
    all: cbn [permute_cols fold_left bind]; unfold permute_col; rewrite E1; cbn [bind]; try rewrite E2.
    all: eapply hoare_andthen with (post1 := fun _ => False); [apply hoare_lift; discriminate|]; intros rs [].
  Qed.

  Lemma hoare_ovo n : NoDup fs -> hoare logok (perf_based_ovo N R srt pf m X y (combinations2 fs) n) (fun _ => True).
  Proof.
    intros Hnd. unfold perf_based_ovo. eapply hoare_andthen; [apply hoare_score; left; reflexivity|]. intros ref _.
    eapply hoare_andthen; [|intros; apply hoare_ret; trivial]. apply hoare_traverse. intros [f1 f2] Hin. cbn [fst snd].
    pose proof (combinations2_In _ _ Hin) as [H1 H2]. cbn [fst snd] in *. pose proof (combinations2_irrefl _ _ _ Hnd Hin) as Hne.
    eapply hoare_andthen; [|intros; apply hoare_ret; trivial]. apply hoare_traverse. intros _ _.
    eapply hoare_andthen with (post1 := fun _ => True); [|intros; apply hoare_ret; trivial]. unfold inter.
    eapply hoare_andthen; [apply hoare_permute_score1, H1|]. intros _v _. eapply hoare_andthen; [apply hoare_permute_score1, H2|]. intros _w _.
    eapply hoare_andthen; [apply hoare_permute_score2; assumption|]. intros _x _. apply hoare_ret. trivial.
  Qed.

  Lemma hoare_corrupt f : In f fs -> hoare logok (corrupt R pf m X y f rows) (fun vw => snd vw = rows).
  Proof.
    intros Hf. unfold corrupt. destruct (col_pos (f_cols X) f) as [k|] eqn:Ek.
    - apply col_pos_nth in Ek. assert (Hk : k < w) by (apply nth_error_Some; congruence).
      eapply hoare_andthen with (post1 := fun k' => k' = k); [apply hoare_ret; reflexivity|]. intros k' ->.
      eapply hoare_andthen; [apply hoare_draw|]. intros p Hp. cbv zeta.
      rewrite (permute_at_spec rows w (X_width X HX) k p Hk Hp).
      eapply hoare_andthen; [apply hoare_score|].
      + right. exists [k], p. split; [exact Hp|]. split; [reflexivity|]. exists f, k. left. auto.
      + intros v _. apply hoare_ret. cbn [snd]. apply (restore_rows rows w k p (X_width X HX) Hk Hp).
    - eapply hoare_andthen with (post1 := fun _ => False); [apply hoare_raise|]. intros k [].
  Qed.
  Lemma hoare_corrupt_loop l : (forall f, In f l -> In f fs) -> hoare logok (corrupt_loop R pf m X y l rows) (fun _ => True).
  Proof.
    induction l as [|f t IH]; intros Hl; cbn [corrupt_loop]; [apply hoare_ret; trivial|].
    eapply hoare_andthen; [apply hoare_corrupt, Hl; left; reflexivity|]. intros vw ->.
    eapply hoare_andthen; [apply IH; intros; apply Hl; right; assumption|]. intros; apply hoare_ret; trivial.
  Qed.
  Lemma hoare_importance n : hoare logok (permutation_importance N R srt pf m X y n (Some fs)) (fun _ => True).
  Proof.
    unfold permutation_importance. eapply hoare_andthen; [apply hoare_score; left; reflexivity|]. intros base _.
    eapply hoare_andthen with (post1 := fun _ => True); [apply hoare_corrupt_loop|].
    - intros f Hf. apply in_concat in Hf as (l & Hl & Hf). apply repeat_spec in Hl. subst. exact Hf.
    - intros sc _. match goal with |- hoare _ (match ?l with _ => _ end) _ => destruct l end; [apply hoare_raise|apply hoare_ret; trivial].
  Qed.
End Requests.

(** ** Runs that succeed *)
Section Succeeds.
  Context {C V G : Type} (N : num_ops V) (R : rng_ops G) (HR : rng_ok R) (srt : sorter).
  Context (P : nat -> list (list C) -> result (list V)) (g : list C -> V) (HP : rowwise P g) (HT : total P).
  Context (X : frame C) (HX : wf_frame X) (m : metric V) (y : target V).
  Notation rows := (f_rows X).
  Notation len := (length (f_rows X)).
  Hypothesis Hm : forall rs, length rs = len -> exists u, mt_calc m y (map g rs) = Ok u.

  Definition succeeds {A} (a : act (C := C) (G := G) A) (post : A -> Prop) : Prop := forall s, exists s' x, a s = (s', Ok x) /\ post x.
  Lemma succ_andthen {A B} (a : act (C := C) (G := G) A) (k : A -> act B) p1 p2 : succeeds a p1 -> (forall x, p1 x -> succeeds (k x) p2) -> succeeds (andthen a k) p2.
  Proof. intros Ha Hk s. destruct (Ha s) as (s1 & x & E & Hx). unfold andthen. rewrite E. apply Hk, Hx. Qed.
  Lemma succ_ret {A} (x : A) (p : A -> Prop) : p x -> succeeds (ret x) p.
  Proof. intros H s. exists s, x. auto. Qed.
  Lemma succ_traverse {A B} (f : A -> act (C := C) (G := G) B) l : (forall x, In x l -> succeeds (f x) (fun _ => True)) -> succeeds (traverse f l) (fun _ => True).
  Proof.
    induction l as [|x t IH]; intros H; cbn [traverse]; [apply succ_ret; trivial|].
    eapply succ_andthen; [apply H; left; reflexivity|]. intros v _. eapply succ_andthen; [apply IH; intros; apply H; right; assumption|].
    intros; apply succ_ret; trivial.
  Qed.
  Lemma succ_score rs : length rs = len -> succeeds (score (Some P) m y rs) (fun _ => True).
  Proof.
    intros Hl s. unfold score, andthen, ask, lift. destruct (HT (length (p_log s)) rs) as (ys & E). rewrite E.
    rewrite (HP _ _ _ E). destruct (Hm rs Hl) as (u & ->). eauto.
  Qed.
  Lemma succ_draw n : succeeds (draw R n) (fun p => Permutation p (seq 0 n)).
  Proof.
    intros s. unfold draw. pose proof (rk_perm R HR (p_rng s) n) as Hp. destruct (r_perm R (p_rng s) n) as [p g']. eauto.
  Qed.
  Lemma succ_permute_score fs sel ref : selects X fs sel -> succeeds (permute_score N R (Some P) m X y fs ref) (fun _ => True).
  Proof.
    intros Hs. unfold permute_score. eapply succ_andthen; [apply succ_draw|]. intros p Hp. rewrite (Hs p Hp).
    eapply succ_andthen with (p1 := fun rs => rs = rearranged rows sel p); [intros s; exists s; eexists; split; reflexivity|]. intros rs ->.
    eapply succ_andthen; [apply succ_score, rearranged_length, Hp|]. intros; apply succ_ret; trivial.
  Qed.
  Lemma succ_ovo pairs n : (forall pr, In pr pairs -> In (fst pr) (f_cols X) /\ In (snd pr) (f_cols X) /\ fst pr <> snd pr) ->
    succeeds (perf_based_ovo N R srt (Some P) m X y pairs n) (fun _ => True).
  Proof.
    intros Hp. unfold perf_based_ovo. eapply succ_andthen; [apply succ_score; reflexivity|]. intros ref _.
    eapply succ_andthen; [|intros; apply succ_ret; trivial]. apply succ_traverse. intros [f1 f2] Hin.
    destruct (Hp _ Hin) as (H1 & H2 & Hne). cbn [fst snd] in *.
    apply In_nth_error in H1 as (k1 & H1). apply In_nth_error in H2 as (k2 & H2). assert (Hk : k1 <> k2) by congruence.
    eapply succ_andthen; [|intros; apply succ_ret; trivial]. apply succ_traverse. intros _ _.
    eapply succ_andthen with (p1 := fun _ => True); [|intros; apply succ_ret; trivial]. unfold inter.
    eapply succ_andthen; [eapply succ_permute_score, selects_one; eassumption|]. intros _v _.
    eapply succ_andthen; [eapply succ_permute_score, selects_one; eassumption|]. intros _w _.
    eapply succ_andthen; [eapply succ_permute_score, selects_two; eassumption|]. intros; apply succ_ret; trivial.
  Qed.
  Lemma succ_corrupt_loop l : (forall f, In f l -> In f (f_cols X)) -> succeeds (corrupt_loop R (Some P) m X y l rows) (fun _ => True).
  Proof.
    induction l as [|f t IH]; intros Hl; cbn [corrupt_loop]; [apply succ_ret; trivial|].
    destruct (col_pos_In _ _ (Hl f (or_introl eq_refl))) as (k & Ek).
    assert (Hk : k < length (f_cols X)) by (apply col_pos_nth in Ek; apply nth_error_Some; congruence).
    eapply succ_andthen with (p1 := fun vw => snd vw = rows).
    - unfold corrupt. rewrite Ek. eapply succ_andthen with (p1 := fun k' => k' = k); [apply succ_ret; reflexivity|]. intros k' ->.
      eapply succ_andthen; [apply succ_draw|]. intros p Hp. cbv zeta. rewrite (permute_at_spec rows _ (X_width X HX) k p Hk Hp).
      eapply succ_andthen; [apply succ_score, rearranged_length, Hp|]. intros v _. apply succ_ret. cbn [snd].
      apply (restore_rows rows _ k p (X_width X HX) Hk Hp).
    - intros vw ->. eapply succ_andthen; [apply IH; intros; apply Hl; right; assumption|]. intros; apply succ_ret; trivial.
  Qed.
  Lemma succ_importance fs n : fs <> [] -> (forall f, In f fs -> In f (f_cols X)) ->
    succeeds (permutation_importance N R srt (Some P) m X y n (Some fs)) (fun _ => True).
  Proof.
    intros Hne Hin. unfold permutation_importance. eapply succ_andthen; [apply succ_score; reflexivity|]. intros base _.
    eapply succ_andthen with (p1 := fun _ => True); [apply succ_corrupt_loop|].
    - intros f Hf. apply in_concat in Hf as (l & Hl & Hf). apply repeat_spec in Hl. subst. auto.
    - intros sc _. destruct fs as [|f t]; [congruence|]. cbn [dedup map]. apply succ_ret. trivial.
  Qed.
End Succeeds.
