(** C60: the path of a zen plot.  C61: its colour range. *)
From Verif Require Import Py Num NumR Sorting Frame Rng PdCalc PdMethods PdMethodReal Props_Visual4 Zenplot ZenFacts.
From Coq Require Import Reals Lra QArith.
Open Scope string_scope.
Open Scope nat_scope.
Open Scope list_scope.

(** ** Specification *)

Definition mentions {A} (f : string) (r : string * string * A) : Prop := fst (fst r) = f \/ snd (fst r) = f.

(** [walk cand p ps]: [ps] starts with the pair [p] and goes on through the candidates.  The path
    leaves a pair by its second feature, along a strongest candidate mentioning it; when there
    is none, it starts again with the first candidate.  No candidate is used twice. *)
Inductive walk {V} (N : num_ops V) : list (string * string * V) -> string * string -> list (string * string) -> Prop :=
| walk_last cand p : walk N cand p [p]
| walk_join l1 r l2 p g ps : fst r = (snd p, g) \/ fst r = (g, snd p) ->
    (forall x, In x (l1 ++ r :: l2) -> mentions (snd p) x -> n_ltb N (snd r) (snd x) = false) ->
    walk N (l1 ++ l2) (snd p, g) ps -> walk N (l1 ++ r :: l2) p (p :: ps)
| walk_jump r l p ps : (forall x, In x (r :: l) -> ~ mentions (snd p) x) -> walk N l (fst r) ps -> walk N (r :: l) p (p :: ps).

(** the pairs are pairwise different, whatever the order of the two features *)
Definition all_different (ps : list (string * string)) : Prop := ForallOrdPairs (fun p q => ~ same_pair false p q) ps.

(** the calculator holds a matrix for the pair, in one of the two orders *)
Definition holds {C V} (c : calc C V) (p : string * string) (e : list C * list C * list (list V)) : Prop :=
  assoc pair_eqb p (c_pairs c) = Some e \/ (assoc pair_eqb p (c_pairs c) = None /\ assoc pair_eqb (snd p, fst p) (c_pairs c) = Some e).

Definition within {V} (N : num_ops V) (lo hi x : V) : Prop := n_ltb N x lo = false /\ n_ltb N hi x = false.

(** ** Different pairs *)
Lemma FOP_perm {A} (R : A -> A -> Prop) l1 l2 : (forall x y, R x y -> R y x) -> Permutation l1 l2 -> ForallOrdPairs R l1 -> ForallOrdPairs R l2.
Proof.
  intros HS HP. induction HP as [|x l1 l2 HP IH|x y l|l1 l2 l3 HP1 IH1 HP2 IH2]; intros H; [exact H| | |auto].
  - inversion H as [|? ? Hx Hl]; subst. constructor; [|apply IH, Hl]. rewrite Forall_forall in *. intros z Hz. apply Hx, (Permutation_in _ (Permutation_sym HP)), Hz.
  - inversion H as [|? ? Hx Hl]; subst. inversion Hl as [|? ? Hy Hl']; subst. inversion Hx as [|? ? Hxy Hx']; subst. constructor; [constructor; [apply HS, Hxy|exact Hy]|]. constructor; [exact Hx'|exact Hl'].
Qed.
Lemma FOP_app_l {A} (R : A -> A -> Prop) l1 l2 : ForallOrdPairs R (l1 ++ l2) -> ForallOrdPairs R l1.
Proof.
  induction l1 as [|x l1 IH]; intros H; [constructor|]. inversion H as [|? ? Hx Hl]; subst. constructor; [|apply IH, Hl]. rewrite Forall_app in Hx. apply Hx.
Qed.

Lemma same_pair_trans a b c : same_pair false a b -> same_pair false b c -> same_pair false a c.
Proof. unfold same_pair. destruct a, b, c; cbn. intros [H1|[_ H1]] [H2|[_ H2]]; injection H1 as -> ->; injection H2 as -> ->; auto. Qed.

Lemma walk_rows {V} (N : num_ops V) cand p ps : walk N cand p ps ->
  exists qs used rest, ps = p :: qs /\ Permutation cand (used ++ rest) /\ Forall2 (fun q r => same_pair false q (fst r)) qs used.
Proof.
  induction 1 as [cand p|l1 r l2 p g ps Hr _ _ (qs & used & rest & -> & HP & HF)|r l p ps _ _ (qs & used & rest & -> & HP & HF)].
  - exists [], [], cand. auto.
  - exists ((snd p, g) :: qs), (r :: used), rest. split; [reflexivity|]. split; [apply (Permutation_trans (Permutation_sym (Permutation_middle l1 l2 r))); cbn [app]; constructor; exact HP|]. constructor; [|exact HF].
    unfold same_pair. destruct Hr as [->| ->]; cbn [fst snd]; auto.
  - exists (fst r :: qs), (r :: used), rest. split; [reflexivity|]. split; [cbn; constructor; exact HP|]. constructor; [left; reflexivity|exact HF].
Qed.
Lemma walk_different {V} (N : num_ops V) r0 cand ps : walk N cand (fst r0) ps -> one_edge_each false (r0 :: cand) -> all_different ps.
Proof.
  intros Hw H. apply walk_rows in Hw as (qs & used & rest & -> & HP & HF).
  assert (HU : one_edge_each false (r0 :: used)).
  { apply (FOP_app_l _ (r0 :: used) rest). refine (FOP_perm _ _ _ _ _ H); [intros x y Hxy Hyx; apply Hxy, same_pair_sym, Hyx|]. cbn. constructor. exact HP. }
  assert (HF' : Forall2 (fun q r => same_pair false q (fst r)) (fst r0 :: qs) (r0 :: used)) by (constructor; [left; reflexivity|exact HF]).
  clear -HU HF'. unfold all_different. revert HU HF'. generalize (fst r0 :: qs) (r0 :: used). clear. intros qs used HU HF'. revert HU. induction HF' as [|q r qs used Hq HF IH]; intros HU; [constructor|]. inversion HU as [|? ? Hr HU']; subst. constructor; [|apply IH, HU'].
  rewrite Forall_forall in *. intros q' Hq' Hs. apply In_nth_error in Hq' as (i & Hi).
  assert (Hu : exists r', In r' used /\ same_pair false q' (fst r')).
  { clear -HF Hi. revert i Hi. induction HF as [|x y l1 l2 H HF IH]; intros [|i] Hi; try discriminate; [injection Hi as ->; exists y; split; [left; reflexivity|exact H]|].
    destruct (IH i Hi) as (r' & H1 & H2). exists r'. split; [right; exact H1|exact H2]. }
  destruct Hu as (r' & Hr' & Hs'). apply (Hr r' Hr'). apply (same_pair_trans _ q); [apply same_pair_sym, Hq|]. apply (same_pair_trans _ q'); assumption.
Qed.

(** panel [i] is drawn at row [i / 2] and column [(i + 1) / 2] *)
Lemma next_position i : (if i / 2 <? (i + 1) / 2 then S (i / 2) else i / 2) = S i / 2 /\ (if i / 2 <? (i + 1) / 2 then (i + 1) / 2 else S ((i + 1) / 2)) = (S i + 1) / 2.
Proof.
  destruct (Nat.Even_or_Odd i) as [[j ->]|[j ->]].
  - replace (2 * j) with (0 + j * 2) by lia. replace (0 + j * 2 + 1) with (1 + j * 2) by lia. replace (S (0 + j * 2)) with (1 + j * 2) by lia. replace (1 + j * 2 + 1) with (0 + (j + 1) * 2) by lia.
    rewrite !Nat.div_add by lia. cbn [Nat.div Nat.divmod fst plus]. rewrite Nat.ltb_irrefl. lia.
  - replace (2 * j + 1) with (1 + j * 2) by lia. replace (1 + j * 2 + 1) with (0 + (j + 1) * 2) by lia. replace (S (1 + j * 2)) with (0 + (j + 1) * 2) by lia. replace (0 + (j + 1) * 2 + 1) with (1 + (j + 1) * 2) by lia.
    rewrite !Nat.div_add by lia. cbn [Nat.div Nat.divmod fst plus]. replace (j <? j + 1) with true by (symmetry; apply Nat.ltb_lt; lia). lia.
Qed.
Lemma across_odd i : (i / 2 <? (i + 1) / 2) = Nat.odd i.
Proof.
  destruct (Nat.Even_or_Odd i) as [[j ->]|[j ->]].
  - rewrite Nat.odd_mul. cbn [Nat.odd Nat.even negb andb]. replace (2 * j) with (0 + j * 2) by lia. replace (0 + j * 2 + 1) with (1 + j * 2) by lia. rewrite !Nat.div_add by lia. apply Nat.ltb_irrefl.
  - rewrite Nat.add_comm, Nat.odd_add_mul_2. replace (1 + 2 * j) with (1 + j * 2) by lia. replace (1 + j * 2 + 1) with (0 + (j + 1) * 2) by lia. rewrite !Nat.div_add by lia. apply Nat.ltb_lt. cbn. lia.
Qed.
Lemma position_inside i k : i < k -> i / 2 < (k + 1) / 2 /\ (i + 1) / 2 < k / 2 + 1.
Proof.
  intros H. split; [|assert ((i + 1) / 2 <= k / 2) by (apply Nat.div_le_mono; lia); lia].
  destruct (Nat.Even_or_Odd i) as [[j ->]|[j ->]];
    [rewrite (Nat.mul_comm 2 j), Nat.div_mul by lia; apply (Nat.div_le_lower_bound (k + 1) 2 (S j)); lia
    |replace (2 * j + 1) with (1 + j * 2) by lia; rewrite Nat.div_add by lia; cbn [Nat.div Nat.divmod fst]; apply (Nat.div_le_lower_bound (k + 1) 2 (S j)); lia].
Qed.

Section Zen.
  Context {C V G : Type} (O : cell_ops C) (N : num_ops V).
  Hypothesis HN : num_ord_ok N.
  Notation table := (list (string * string * V)).
  Notation lrow := (nat * (string * string * V))%type.
  Notation plot_zenplot := (plot_zenplot (C := C) (G := G) N).

  (** ** The loop *)
  Lemma joins_iff f (x : lrow) : joins f x = true <-> mentions f (snd x).
  Proof. unfold joins, mentions. rewrite orb_true_iff, !String.eqb_eq. reflexivity. Qed.

  Lemma holds_key c p e : dict_get pair_eqb (get_pair_key c p) (c_pairs (C := C) (V := V) c) = Ok e <-> holds c p e.
  Proof.
    unfold get_pair_key, holds, dict_get. destruct (assoc pair_eqb p (c_pairs c)) as [e'|] eqn:E.
    - rewrite E. split; [intros [= ->]; auto|intros [H|[H _]]; congruence].
    - destruct (assoc pair_eqb (snd p, fst p) (c_pairs c)); split; intros H; [right|destruct H as [H|[_ H]]|discriminate|destruct H as [H|[_ H]]]; try discriminate; [injection H as ->; auto|congruence].
  Qed.
  (** a pair is held in one order only, as in every calculator *)
  Definition one_order (c : calc C V) : Prop := forall a b e, assoc pair_eqb (a, b) (c_pairs c) = Some e -> assoc pair_eqb (b, a) (c_pairs c) = None.
  Lemma holds_swap (c : calc C V) a b e : one_order c -> holds c (a, b) e -> holds c (b, a) e.
  Proof. intros Hone. unfold holds. cbn [fst snd]. intros [H|[_ H]]; [right; split; [apply (Hone a b e H)|exact H]|left; exact H]. Qed.

  Lemma zen_loop_walk (c : calc C V) kind nr nc n : forall pair (cand : list lrow) row col ps, NoDup (map fst cand) ->
    zen_loop N c kind nr nc (S n) pair cand row col = Ok ps -> length ps = S n /\ walk N (map snd cand) pair (map z_pair ps).
  Proof.
    induction n as [|n IH]; intros pair cand row col ps Hnd E; [remember 0 as n1 eqn:En|remember (S n) as n1 eqn:En]; cbn [zen_loop] in E;
      destruct (get_pd_pairs_values c pair) as [e|]; try discriminate; cbn [bind] in E;
      destruct (negb _); try discriminate; destruct (drawable _ _ _); try discriminate; cbn [bind] in E;
      destruct (find_next_pair_index N cand (snd pair)) as [[idx b]|] eqn:Ef; try discriminate; cbn [bind] in E;
      destruct (loc idx cand) as [r|] eqn:El; try discriminate; cbn [bind] in E.
    - subst n1. cbn [zen_loop bind] in E. injection E as <-. cbn [length map z_pair]. split; [reflexivity|constructor].
    - destruct (zen_loop N c kind nr nc n1 _ _ _ _) as [rest|] eqn:Er; [|discriminate]. cbn [bind] in E. injection E as <-. cbn [length map z_pair].
      apply (find_next_ok N HN) in Ef as (l1 & r' & l2 & -> & Hb). destruct (loc_split l1 l2 idx r' Hnd) as [E1 E2]. rewrite E1 in El. injection El as ->. rewrite E2 in Er.
      subst n1. apply IH in Er as [Hl Hw]; [|clear -Hnd; rewrite map_app in *; apply NoDup_remove_1 in Hnd; exact Hnd].
      split; [rewrite Hl; reflexivity|]. rewrite map_app in *. cbn [map snd]. destruct b.
      + destruct Hb as [Hj Hmx]. apply (walk_join N _ _ _ _ (get_second_feature (snd pair) r)); [| |exact Hw].
        * apply joins_iff in Hj. unfold get_second_feature. destruct Hj as [Hj|Hj]; cbn [snd] in Hj; destruct r as [[x y] v]; cbn [fst snd] in *; destruct (String.eqb_spec x (snd pair)) as [->|Hne]; [left; congruence|congruence|left; congruence|right; congruence].
        * intros x Hx Hm. assert (Hx' : In x (map snd (l1 ++ (idx, r) :: l2))) by (rewrite map_app; exact Hx). apply in_map_iff in Hx' as (y & <- & Hy).
          apply Hmx; [exact Hy|]. apply joins_iff, Hm.
      + destruct Hb as [-> Hno]. cbn [map app] in *. apply walk_jump; [|exact Hw].
        intros x Hx Hm. assert (Hx' : In x (map snd ((idx, r) :: l2))) by exact Hx. apply in_map_iff in Hx' as (y & <- & Hy). apply joins_iff in Hm. rewrite (Hno y Hy) in Hm. discriminate.
  Qed.

  Lemma labelled_nodup {A} (l : list A) a : NoDup (map fst (combine (seq a (length l)) l)) /\ map snd (combine (seq a (length l)) l) = l.
  Proof.
    assert (E : map fst (combine (seq a (length l)) l) = seq a (length l) /\ map snd (combine (seq a (length l)) l) = l).
    { revert a. induction l as [|x l IH]; intros a; [split; reflexivity|]. cbn [length seq combine map fst snd]. destruct (IH (S a)) as [-> ->]. auto. }
    destruct E as [-> ->]. split; [apply seq_NoDup|reflexivity].
  Qed.

  Lemma zen_loop_need (c : calc C V) kind nr nc n : forall pair (cand : list lrow) row col ps, NoDup (map fst cand) -> zen_loop N c kind nr nc n pair cand row col = Ok ps -> n <= length cand.
  Proof.
    induction n as [|n IH]; intros pair cand row col ps Hnd E; [lia|]. cbn [zen_loop] in E.
    destruct (get_pd_pairs_values c pair) as [e|]; try discriminate; cbn [bind] in E;
      destruct (negb _); try discriminate; destruct (drawable _ _ _); try discriminate; cbn [bind] in E;
      destruct (find_next_pair_index N cand (snd pair)) as [[idx b]|] eqn:Ef; try discriminate; cbn [bind] in E;
      destruct (loc idx cand) as [r|] eqn:El; try discriminate; cbn [bind] in E.
    destruct (zen_loop N c kind nr nc n _ _ _ _) as [rest|] eqn:Er; [|discriminate].
    apply (find_next_ok N HN) in Ef as (l1 & r' & l2 & -> & _). destruct (loc_split l1 l2 idx r' Hnd) as [_ E2]. rewrite E2 in Er.
    apply IH in Er; [rewrite app_length in *; cbn [length]; lia|]. rewrite map_app in *. apply NoDup_remove_1 in Hnd. exact Hnd.
  Qed.

  (** ** C60 *)
  Theorem C60_path (s : mstate C V G) k kind z : plot_zenplot s k kind = Ok z ->
    exists r0 t, m_ovo s = Some (r0 :: t) /\ k <= length t /\ length (z_panels z) = k /\ walk N (firstn k t) (fst r0) (map z_pair (z_panels z)).
  Proof.
    unfold Zenplot.plot_zenplot. destruct (m_ovo s) as [t|]; [|discriminate]. destruct (m_calc s) as [c|]; [|discriminate].
    destruct (get_pd_dict _ _ _) as [[lo hi]|]; [|discriminate]. cbn [bind].
    destruct t as [|r0 t]; [destruct k; discriminate|]. rewrite Nat.add_1_r. cbn [firstn length seq combine snd].
    destruct (labelled_nodup (firstn k t) 1) as [Hnd Hsnd].
    set (cand := combine _ _) in *.
    destruct (zen_loop _ _ _ _ _ _ _ _ _ _) as [ps|] eqn:E; [|discriminate]. cbn [bind]. destruct (known_kind kind); [|discriminate].
    destruct k as [|k]; [discriminate|]. cbn [andb Nat.eqb negb]. intros [= <-]. cbn [z_panels]. exists r0, t. split; [reflexivity|].
    pose proof (zen_loop_need _ _ _ _ _ _ _ _ _ _ Hnd E) as Hk. apply zen_loop_walk in E as [H1 H2]; [|exact Hnd]. rewrite <- Hsnd.
    split; [|split; [exact H1|exact H2]]. subst cand. rewrite combine_length, seq_length, firstn_length in Hk. lia.
  Qed.
  Theorem C60_distinct (s : mstate C V G) k kind z t : plot_zenplot s k kind = Ok z -> m_ovo s = Some t -> one_edge_each false t -> all_different (map z_pair (z_panels z)).
  Proof.
    intros H Et Hone. apply C60_path in H as (r0 & u & Eo & Hk & _ & Hw). rewrite Et in Eo. injection Eo as ->. apply (walk_different N r0 _ _ Hw).
    assert (E : r0 :: u = (r0 :: firstn k u) ++ skipn k u) by (cbn [app]; rewrite firstn_skipn; reflexivity). rewrite E in Hone. apply (FOP_app_l _ _ (skipn k u)), Hone.
  Qed.

  (** *** It raises exactly when there are too few rows *)
  Definition fits (kind : string) (e : list C * list C * list (list V)) : Prop :=
    concat (snd e) <> [] /\ (kind = "contour" -> 2 <= length (fst (fst e)) /\ 2 <= length (snd (fst e))).

  Definition shown_ok (c : calc C V) (kind : string) (p : string * string) : Prop := exists e, holds c p e /\ fits kind e.
  Lemma shown_ok_swap c kind a b : one_order c -> shown_ok c kind (a, b) -> shown_ok c kind (b, a).
  Proof. intros Hone (e & He & Hf). exists e. split; [apply (holds_swap c a b e Hone He)|exact Hf]. Qed.
  Lemma drawable_ok kind n m : (kind = "contour" -> 2 <= n /\ 2 <= m) -> drawable kind n m = Ok tt.
  Proof.
    intros H. unfold drawable. destruct (String.eqb_spec kind "contour") as [->|_]; [|reflexivity]. destruct (H eq_refl) as [H1 H2]. apply Nat.leb_le in H1, H2. rewrite H1, H2. reflexivity.
  Qed.

  Lemma zen_loop_total (c : calc C V) kind k n : forall pair (cand : list lrow) i, i + n = k -> NoDup (map fst cand) -> n <= length cand ->
    one_order c -> shown_ok c kind pair -> (forall x, In x cand -> n_isnan N (snd (snd x)) = false /\ shown_ok c kind (fst (snd x))) ->
    exists ps, zen_loop N c kind ((k + 1) / 2) (k / 2 + 1) n pair cand (i / 2) ((i + 1) / 2) = Ok ps.
  Proof.
    induction n as [|n IH]; intros pair cand i Hk Hnd Hlen Hone Hp Hx; [cbn; eauto|]. cbn [zen_loop].
    unfold get_pd_pairs_values. destruct Hp as (e & He & Hfit0). rewrite (proj2 (holds_key c pair e) He). cbn [bind].
    destruct (position_inside i k) as [E1 E2]; [lia|]. apply Nat.ltb_lt in E1, E2. rewrite E1, E2. cbn [andb negb].
    match goal with |- context[drawable kind (length (fst (fst ?w))) _] => set (e' := w) end.
    rewrite (drawable_ok kind (length (fst (fst e'))) (length (snd (fst e')))); [|subst e'; intros Hk'; destruct (proj2 Hfit0 Hk') as [A1 A2]; destruct (String.eqb _ _); cbn [fst snd]; auto]. cbn [bind].
    destruct (find_next_total N cand (snd pair)) as ([idx b] & Ef); [intros ->; cbn in Hlen; lia|intros x Hi; apply Hx, Hi|]. rewrite Ef. cbn [bind].
    apply (find_next_ok N HN) in Ef as (l1 & r & l2 & -> & Hb). destruct (loc_split l1 l2 idx r Hnd) as [-> ->]. cbn [bind].
    destruct (next_position i) as [P1 P2]. rewrite P1, P2.
    match goal with |- context[zen_loop N c kind _ _ n ?nx (l1 ++ l2) _ _] => destruct (IH nx (l1 ++ l2) (S i)) as (ps & ->) end; [lia| | |exact Hone| | |cbn [bind]; eauto].
    - rewrite map_app in *. apply NoDup_remove_1 in Hnd. exact Hnd.
    - rewrite app_length in *. cbn [length] in Hlen. lia.
    - destruct (Hx (idx, r)) as [_ Hr]; [apply in_or_app; right; left; reflexivity|]. cbn [snd] in Hr. destruct b.
      + destruct Hb as [Hj _]. apply joins_iff in Hj. cbn [snd] in Hj. unfold get_second_feature. destruct r as [[x y] v]; cbn [fst snd] in *. destruct Hj as [Hj|Hj]; cbn [fst snd] in Hj; subst.
        * rewrite String.eqb_refl. exact Hr.
        * destruct (String.eqb_spec x (snd pair)) as [->|_]; [exact Hr|]. apply (shown_ok_swap c kind x (snd pair) Hone Hr).
      + exact Hr.
    - intros x Hi. apply Hx. apply in_app_or in Hi. apply in_or_app. destruct Hi; [left|right; right]; assumption.
  Qed.

  Lemma pd_range_total (c : calc C V) : forall rows lo hi, (forall r, In r rows -> exists e, holds c (fst r) e /\ concat (snd e) <> []) -> exists q, pd_range N c rows lo hi = Ok q.
  Proof.
    induction rows as [|r rows IH]; intros lo hi H; [cbn; eauto|]. cbn [pd_range]. destruct (H r (or_introl eq_refl)) as (e & He & Hne). rewrite (proj2 (holds_key c _ e) He). cbn [bind].
    destruct (concat (snd e)); [congruence|]. cbn [np_max np_min bind]. apply IH. intros r' Hr'. apply H. right. exact Hr'.
  Qed.

  Theorem C60_outcome (s : mstate C V G) k kind t c : m_ovo s = Some t -> m_calc s = Some c -> 1 <= k -> kind = "colormesh" \/ kind = "contour" ->
    one_order c ->
    (forall r, In r t -> n_isnan N (snd r) = false /\ shown_ok c kind (fst r)) ->
    (k < length t -> exists z, plot_zenplot s k kind = Ok z) /\ (length t <= k -> plot_zenplot s k kind = Err IndexError).
  Proof.
    intros Et Ec Hk Hkind Hone Hrows.
    assert (HR : exists q, get_pd_dict N c (firstn (k + 1) t) = Ok q).
    { apply pd_range_total. intros r Hr. assert (Hr' : In r t) by (rewrite <- (firstn_skipn (k + 1) t); apply in_or_app; left; exact Hr). destruct (Hrows r Hr') as [_ (e & He & Hf)]. exists e. split; [exact He|apply Hf]. }
    destruct HR as (q & HR). assert (Hkk : known_kind kind = true) by (destruct Hkind as [->| ->]; reflexivity).
    split; intros Hlt; unfold Zenplot.plot_zenplot; rewrite Et, Ec, HR; cbn [bind]; destruct t as [|r0 t]; try (cbn [length] in *; lia).
    - replace (firstn (k + 1) (r0 :: t)) with (r0 :: firstn k t) by (rewrite Nat.add_1_r; reflexivity). cbn [firstn length seq combine snd]. destruct (labelled_nodup (firstn k t) 1) as [Hnd Hsnd]. cbn [length] in Hlt.
      destruct (zen_loop_total c kind k k (fst r0) (combine (seq 1 (length (firstn k t))) (firstn k t)) 0) as (ps & E); auto.
      + rewrite combine_length, seq_length, firstn_length. lia.
      + apply (Hrows r0). left. reflexivity.
      + intros x Hx. assert (Hx' : In (snd x) (firstn k t)) by (rewrite <- Hsnd; apply in_map; exact Hx). apply Hrows. right. rewrite <- (firstn_skipn k t). apply in_or_app. left. exact Hx'.
      + change (0 / 2) with 0 in E. change ((0 + 1) / 2) with 0 in E. rewrite E. cbn [bind]. rewrite Hkk. destruct k; [lia|]. cbn [Nat.eqb negb andb]. eauto.
    - rewrite firstn_nil. reflexivity.
    - cbn [length] in *. rewrite (firstn_all2 (n := k + 1) (r0 :: t)) by (cbn [length]; lia). cbn [length seq combine snd fst].
      destruct (labelled_nodup t 1) as [Hnd Hsnd].
      assert (HE : forall n pair (cand : list lrow) i, i + n = k -> NoDup (map fst cand) -> length cand < n ->
        shown_ok c kind pair -> (forall x, In x cand -> n_isnan N (snd (snd x)) = false /\ shown_ok c kind (fst (snd x))) ->
        zen_loop N c kind ((k + 1) / 2) (k / 2 + 1) n pair cand (i / 2) ((i + 1) / 2) = Err IndexError).
      { induction n as [|n IH]; intros pair cand i Hik Hn Hl Hp Hx; [lia|].
        destruct cand as [|x0 cand'].
        - cbn [zen_loop]. unfold get_pd_pairs_values. destruct Hp as (e & He & Hfit0). rewrite (proj2 (holds_key c pair e) He). cbn [bind].
          destruct (negb _); [reflexivity|].
          match goal with |- context[drawable kind (length (fst (fst ?w))) _] => set (e' := w) end.
          rewrite (drawable_ok kind (length (fst (fst e'))) (length (snd (fst e')))); [reflexivity|]. subst e'. intros Hk'. destruct (proj2 Hfit0 Hk') as [A1 A2]. destruct (String.eqb _ _); cbn [fst snd]; auto.
        - (* one panel, then the shorter list *)
          remember (x0 :: cand') as cand eqn:Ecand.
          cbn [zen_loop]. unfold get_pd_pairs_values. destruct Hp as (e & He & Hfit0). rewrite (proj2 (holds_key c pair e) He). cbn [bind].
          destruct (negb _); [reflexivity|].
          match goal with |- context[drawable kind (length (fst (fst ?w))) _] => set (e' := w) end.
          rewrite (drawable_ok kind (length (fst (fst e'))) (length (snd (fst e')))); [|subst e'; intros Hk'; destruct (proj2 Hfit0 Hk') as [A1 A2]; destruct (String.eqb _ _); cbn [fst snd]; auto]. cbn [bind].
          destruct (find_next_total N cand (snd pair)) as ([idx b] & Ef); [rewrite Ecand; discriminate|intros x Hi; apply Hx, Hi|]. rewrite Ef. cbn [bind].
          clear Ecand. apply (find_next_ok N HN) in Ef as (l1 & r & l2 & -> & Hb). destruct (loc_split l1 l2 idx r Hn) as [-> ->]. cbn [bind].
    destruct (next_position i) as [P1 P2]. rewrite P1, P2. rewrite IH; [reflexivity|lia| | | |].
          + rewrite map_app in *. apply NoDup_remove_1 in Hn. exact Hn.
          + rewrite app_length in *. cbn [length] in Hl. lia.
          + destruct (Hx (idx, r)) as [_ Hr]; [apply in_or_app; right; left; reflexivity|]. cbn [snd] in Hr. destruct b.
            * destruct Hb as [Hj _]. apply joins_iff in Hj. cbn [snd] in Hj. unfold get_second_feature. destruct r as [[x y] v]; cbn [fst snd] in *. destruct Hj as [Hj|Hj]; cbn [fst snd] in Hj; subst.
              -- rewrite String.eqb_refl. exact Hr.
              -- destruct (String.eqb_spec x (snd pair)) as [->|_]; [exact Hr|]. apply (shown_ok_swap c kind x (snd pair) Hone Hr).
            * exact Hr.
          + intros x Hi. apply Hx. apply in_app_or in Hi. apply in_or_app. destruct Hi; [left|right; right]; assumption. }
      specialize (HE k (fst r0) (combine (seq 1 (length t)) t) 0). change (0 / 2) with 0 in HE. change ((0 + 1) / 2) with 0 in HE. rewrite HE; auto.
      + rewrite combine_length, seq_length. lia.
      + apply (Hrows r0). left. reflexivity.
      + intros x Hx. apply Hrows. right. rewrite <- Hsnd. apply in_map. exact Hx.
  Qed.
  (** ** The panels *)

  (** [b]: the first feature goes along y *)
  Definition panel_shows (b : bool) (P : zpanel) (e : list C * list C * list (list V)) : Prop :=
    if b then z_ys P = fst (fst e) /\ z_xs P = snd (fst e) /\ z_mesh P = snd e
    else z_xs P = fst (fst e) /\ z_ys P = snd (fst e) /\ z_mesh P = columns_of (length (snd (fst e))) (snd e).
  Definition first_label (b : bool) (P : zpanel (C := C) (V := V)) := if b then z_ylabel P else z_title P.
  Definition second_label (b : bool) (P : zpanel (C := C) (V := V)) := if b then z_title P else z_ylabel P.

  Lemma zen_loop_panels (c : calc C V) kind nr nc n : forall pair (cand : list lrow) i ps, NoDup (map fst cand) ->
    zen_loop N c kind nr nc n pair cand (i / 2) ((i + 1) / 2) = Ok ps ->
    (forall P, nth_error ps 0 = Some P -> z_pair P = pair)
    /\ forall j P, nth_error ps j = Some P ->
      (exists e, get_pd_pairs_values c (z_pair P) = Ok e /\ panel_shows (Nat.odd (i + j)) P e)
      /\ z_row P = (i + j) / 2 /\ z_col P = (i + j + 1) / 2 /\ z_row P < nr /\ z_col P < nc
      /\ first_label (Nat.odd (i + j)) P = Some (fst (z_pair P))
      /\ (forall P', nth_error ps (S j) = Some P' -> second_label (Nat.odd (i + j)) P = Some (snd (z_pair P))
            \/ (second_label (Nat.odd (i + j)) P = None /\ fst (z_pair P') = snd (z_pair P))).
  Proof.
    induction n as [|n IH]; intros pair cand i ps Hnd E; cbn [zen_loop] in E; [injection E as <-; split; [discriminate|intros [|j]; discriminate]|].
    destruct (get_pd_pairs_values c pair) as [e|] eqn:Ee; [|discriminate]. cbn [bind] in E.
    destruct (negb _) eqn:Ein; [discriminate|]. apply negb_false_iff, andb_true_iff in Ein as [Er Ec]. apply Nat.ltb_lt in Er, Ec.
    destruct (drawable _ _ _); [|discriminate]. cbn [bind] in E.
    destruct (find_next_pair_index N cand (snd pair)) as [[idx b]|] eqn:Ef; [|discriminate]. cbn [bind] in E.
    destruct (loc idx cand) as [r|] eqn:El; [|discriminate]. cbn [bind] in E.
    destruct (next_position i) as [P1 P2]. rewrite P1, P2 in E.
    match type of E with (do rest <- zen_loop N c kind nr nc n ?nx ?cd ?rw ?cl; _) = _ => set (next := nx) in *; destruct (zen_loop N c kind nr nc n next cd rw cl) as [rest|] eqn:Eo; [|discriminate] end.
    cbn [bind] in E. match type of E with Ok ?x = Ok _ => assert (Eps : ps = x) by congruence; clear E; subst ps end.
    apply (find_next_ok N HN) in Ef as (l1 & r' & l2 & -> & Hb). destruct (loc_split l1 l2 idx r' Hnd) as [E1 E2]. rewrite E1 in El. injection El as ->. rewrite E2 in Eo.
    assert (Hz : n = 0 -> rest = []) by (intros ->; cbn in Eo; congruence).
    apply IH in Eo as [Hfst Hrest]; [|rewrite map_app in *; apply NoDup_remove_1 in Hnd; exact Hnd].
    split; [intros P [= <-]; reflexivity|]. intros [|j] P HP.
    - cbn [nth_error] in HP. match type of HP with Some ?x = Some _ => assert (EP : P = x) by congruence; clear HP; subst P end. cbn [z_pair z_row z_col]. rewrite Nat.add_0_r.
      pose proof (across_odd i) as Ha. pose proof (across_odd (S i)) as Ha'.
      assert (Hodd : Nat.odd (S i) = negb (Nat.odd i)) by (rewrite Nat.odd_succ, <- Nat.negb_odd; reflexivity).
      split; [exists e; split; [exact Ee|unfold panel_shows; cbn [z_xs z_ys z_mesh]; rewrite Ha; destruct (Nat.odd i); auto]|]. split; [reflexivity|]. split; [reflexivity|]. split; [exact Er|]. split; [exact Ec|].
      unfold first_label, second_label. cbn [z_ylabel z_title]. rewrite Ha', Hodd, Ha. destruct (Nat.odd i); cbn [negb]; (split; [reflexivity|]);
        intros P' HP'; cbn [nth_error] in HP'; rewrite (Hfst P' HP');
        (assert (Hn0 : n =? 0 = false) by (destruct n; [rewrite Hz in HP' by reflexivity; discriminate|reflexivity])); rewrite Hn0; subst next; destruct b; cbn [fst snd]; auto.
    - cbn [nth_error] in HP. destruct (Hrest j P HP) as (H1 & H2 & H3 & H4). replace (i + S j) with (S i + j) by lia. auto.
  Qed.
  Theorem zen_panels (s : mstate C V G) k kind z c : plot_zenplot s k kind = Ok z -> m_calc s = Some c ->
    z_nrows z = (k + 1) / 2 /\ z_ncols z = k / 2 + 1
    /\ forall j P, nth_error (z_panels z) j = Some P ->
      (exists e, get_pd_pairs_values c (z_pair P) = Ok e /\ panel_shows (Nat.odd j) P e)
      /\ z_row P = j / 2 /\ z_col P = (j + 1) / 2 /\ z_row P < z_nrows z /\ z_col P < z_ncols z
      /\ first_label (Nat.odd j) P = Some (fst (z_pair P))
      /\ (forall P', nth_error (z_panels z) (S j) = Some P' -> second_label (Nat.odd j) P = Some (snd (z_pair P))
            \/ (second_label (Nat.odd j) P = None /\ fst (z_pair P') = snd (z_pair P))).
  Proof.
    unfold Zenplot.plot_zenplot. destruct (m_ovo s) as [t|]; [|discriminate]. intros H Ec. rewrite Ec in H.
    destruct (get_pd_dict _ _ _) as [[lo hi]|]; [|discriminate]. cbn [bind] in H.
    destruct t as [|r0 t]; [destruct k; discriminate|]. replace (firstn (k + 1) (r0 :: t)) with (r0 :: firstn k t) in H by (rewrite Nat.add_1_r; reflexivity). cbn [length seq combine snd] in H.
    destruct (labelled_nodup (firstn k t) 1) as [Hnd _].
    destruct (zen_loop _ _ _ _ _ _ _ _ _ _) as [ps|] eqn:E; [|discriminate]. cbn [bind] in H. destruct (known_kind kind && negb (k =? 0)); [|discriminate].
    match type of H with Ok ?x = Ok _ => assert (Ez : z = x) by congruence; clear H; subst z end. cbn [z_panels z_nrows z_ncols].
    split; [reflexivity|]. split; [reflexivity|].
    apply (zen_loop_panels c kind ((k + 1) / 2) (k / 2 + 1) k (fst r0) _ 0 ps Hnd) in E as [_ E]. exact E.
  Qed.

  (** ** C61 *)
  Lemma pd_range_within (c : calc C V) : forall rows lo hi q, pd_range N c rows lo hi = Ok q -> n_isnan N lo = false -> n_isnan N hi = false ->
    (forall r e x, In r rows -> holds c (fst r) e -> In x (concat (snd e)) -> n_isnan N x = false) ->
    n_isnan N (fst q) = false /\ n_isnan N (snd q) = false /\ n_ltb N lo (fst q) = false /\ n_ltb N (snd q) hi = false
    /\ (forall r e x, In r rows -> holds c (fst r) e -> In x (concat (snd e)) -> within N (fst q) (snd q) x)
    /\ (fst q = lo \/ exists r e, In r rows /\ holds c (fst r) e /\ In (fst q) (concat (snd e)))
    /\ (snd q = hi \/ exists r e, In r rows /\ holds c (fst r) e /\ In (snd q) (concat (snd e))).
  Proof.
    induction rows as [|r rows IH]; intros lo hi q H Hlo Hhi Hx; cbn [pd_range] in H.
    - injection H as <-. cbn [fst snd]. pose proof (no_irrefl N HN lo). pose proof (no_irrefl N HN hi). split; [exact Hlo|]. split; [exact Hhi|]. split; [assumption|]. split; [assumption|]. split; [intros r e x []|auto].
    - destruct (dict_get _ _ _) as [e|] eqn:Ee; [|discriminate]. apply holds_key in Ee. cbn [bind] in H.
      assert (Hv : forall x, In x (concat (snd e)) -> n_isnan N x = false) by (intros x Hx'; apply (Hx r e x (or_introl eq_refl) Ee Hx')).
      destruct (concat (snd e)) as [|x0 l] eqn:El; [discriminate|]. cbn [np_max np_min bind] in H.
      set (mx := fold_left (vmax2 N) l x0) in *. set (mn := fold_left (vmin2 N) l x0) in *.
      assert (Hmx : In mx (x0 :: l)). { subst mx. clear. revert x0. induction l as [|y l IH]; intros x0; [left; reflexivity|]. cbn [fold_left]. destruct (IH (vmax2 N x0 y)) as [E|E]; [|right; right; exact E]. rewrite <- E. unfold vmax2. destruct (n_isnan N x0); [left; reflexivity|]. destruct (n_isnan N y); [right; left; reflexivity|]. destruct (n_ltb N x0 y); [right|]; left; reflexivity. }
      assert (Hmn : In mn (x0 :: l)). { subst mn. clear. revert x0. induction l as [|y l IH]; intros x0; [left; reflexivity|]. cbn [fold_left]. destruct (IH (vmin2 N x0 y)) as [E|E]; [|right; right; exact E]. rewrite <- E. unfold vmin2. destruct (n_isnan N x0); [left; reflexivity|]. destruct (n_isnan N y); [right; left; reflexivity|]. destruct (n_ltb N y x0); [right|]; left; reflexivity. }
      assert (Hge : forall x, In x (x0 :: l) -> n_ltb N mx x = false). { intros x Hi. apply (fold_max_ge N HN). destruct Hi as [->|Hi]; auto. }
      assert (Hle : forall x, In x (x0 :: l) -> n_ltb N x mn = false). { intros x Hi. apply (fold_min_le N HN). destruct Hi as [->|Hi]; auto. }
      set (lo' := if n_ltb N lo mn then lo else mn) in *. set (hi' := if n_ltb N mx hi then hi else mx) in *.
      assert (Hlo' : n_isnan N lo' = false) by (subst lo'; destruct (n_ltb N lo mn); [exact Hlo|apply Hv, Hmn]).
      assert (Hhi' : n_isnan N hi' = false) by (subst hi'; destruct (n_ltb N mx hi); [exact Hhi|apply Hv, Hmx]).
      destruct (IH lo' hi' q H Hlo' Hhi') as (N1 & N2 & L1 & L2 & HW & T1 & T2); [intros r' e' x Hr'; apply Hx; right; exact Hr'|].
      assert (A1 : n_ltb N lo lo' = false) by (subst lo'; destruct (n_ltb N lo mn) eqn:E; [apply (no_irrefl N HN)|exact E]).
      assert (A2 : n_ltb N hi' hi = false) by (subst hi'; destruct (n_ltb N mx hi) eqn:E; [apply (no_irrefl N HN)|exact E]).
      assert (B1 : n_ltb N mn lo' = false).
      { subst lo'; destruct (n_ltb N lo mn) eqn:E; [|apply (no_irrefl N HN)]. destruct (n_ltb N mn lo) eqn:E'; [|reflexivity]. pose proof (no_trans N HN _ _ _ E E') as X. rewrite (no_irrefl N HN) in X. discriminate. }
      assert (B2 : n_ltb N hi' mx = false).
      { subst hi'; destruct (n_ltb N mx hi) eqn:E; [|apply (no_irrefl N HN)]. destruct (n_ltb N hi mx) eqn:E'; [|reflexivity]. pose proof (no_trans N HN _ _ _ E E') as X. rewrite (no_irrefl N HN) in X. discriminate. }
      split; [exact N1|]. split; [exact N2|]. split; [exact (no_negtrans N HN _ _ _ Hlo' A1 L1)|]. split; [exact (no_negtrans N HN _ _ _ Hhi' L2 A2)|]. split; [|split].
      + intros r' e' x [<-|Hr'] He' Hi; [|apply (HW r' e' x Hr' He' Hi)].
        assert (e' = e) by (apply holds_key in He', Ee; congruence). subst e'. rewrite El in Hi. split.
        * refine (no_negtrans N HN _ _ _ Hlo' _ L1). refine (no_negtrans N HN _ _ _ (Hv mn Hmn) (Hle x Hi) B1).
        * refine (no_negtrans N HN _ _ _ Hhi' L2 _). refine (no_negtrans N HN _ _ _ (Hv mx Hmx) B2 (Hge x Hi)).
      + destruct T1 as [T1|(r' & e' & I1 & I2 & I3)]; [|right; exists r', e'; split; [right; exact I1|auto]]. rewrite T1. subst lo'. destruct (n_ltb N lo mn); [left; reflexivity|]. right. exists r, e. rewrite El. split; [left; reflexivity|auto].
      + destruct T2 as [T2|(r' & e' & I1 & I2 & I3)]; [|right; exists r', e'; split; [right; exact I1|auto]]. rewrite T2. subst hi'. destruct (n_ltb N mx hi); [left; reflexivity|]. right. exists r, e. rewrite El. split; [left; reflexivity|auto].
  Qed.

  Lemma zen_range (s : mstate C V G) k kind z c t : plot_zenplot s k kind = Ok z -> m_calc s = Some c -> m_ovo s = Some t ->
    get_pd_dict N c (firstn (k + 1) t) = Ok (z_min z, z_max z).
  Proof.
    unfold Zenplot.plot_zenplot. intros H Ec Et. rewrite Ec, Et in H.
    destruct (get_pd_dict _ _ _) as [[lo hi]|]; [|discriminate]. cbn [bind] in H. destruct (combine _ _); [discriminate|].
    destruct (zen_loop _ _ _ _ _ _ _ _ _ _) as [ps|] eqn:E; [|discriminate]. cbn [bind] in H. destruct (known_kind kind && negb (k =? 0)); [|discriminate].
    match type of H with Ok ?x = Ok _ => assert (Ez : z = x) by congruence; clear H; subst z end. reflexivity.
  Qed.

  Lemma columns_of_In {A} m (M : list (list A)) x : In x (concat (columns_of m M)) -> In x (concat M).
  Proof.
    unfold columns_of. rewrite !in_concat. intros (col & Hc & Hx). apply in_map_iff in Hc as (j & <- & _). unfold col_of in Hx. apply in_flat_map in Hx as (row & Hr & Hx).
    exists row. split; [exact Hr|]. destruct (nth_error row j) eqn:E; [destruct Hx as [->|[]]; apply nth_error_In in E; exact E|destruct Hx].
  Qed.

  Theorem C61_range (s : mstate C V G) k kind z c t : plot_zenplot s k kind = Ok z -> m_calc s = Some c -> m_ovo s = Some t -> one_order c ->
    n_isnan N (n_ofZ N 0) = false -> n_isnan N (n_ofZ N 1) = false ->
    (forall r e x, In r (firstn (k + 1) t) -> holds c (fst r) e -> In x (concat (snd e)) -> n_isnan N x = false) ->
    (forall r e x, In r (firstn (k + 1) t) -> holds c (fst r) e -> In x (concat (snd e)) -> within N (z_min z) (z_max z) x)
    /\ (forall P x, In P (z_panels z) -> In x (concat (z_mesh P)) -> within N (z_min z) (z_max z) x).
  Proof.
    intros H Ec Et Hone H0 H1 Hx. pose proof (zen_range _ _ _ _ _ _ H Ec Et) as HR. apply pd_range_within in HR as (_ & _ & _ & _ & HW & _); auto. cbn [fst snd] in HW.
    split; [exact HW|]. intros P x HP Hi. destruct (zen_panels _ _ _ _ _ H Ec) as (_ & _ & HZ).
    pose proof HP as HP'. apply In_nth_error in HP as (j & Hj). destruct (HZ j P Hj) as ((e & He & Hs) & _). unfold get_pd_pairs_values in He.
    destruct (dict_get _ _ _) as [e0|] eqn:E0; [|discriminate]. apply holds_key in E0. cbn [bind] in He.
    assert (Hin : In x (concat (snd e))). { unfold panel_shows in Hs. destruct (Nat.odd j); destruct Hs as (_ & _ & Em); rewrite Em in Hi; [exact Hi|apply columns_of_In in Hi; exact Hi]. }
    assert (Hin0 : In x (concat (snd e0))). { destruct (String.eqb _ _); injection He as <-; [exact Hin|cbn [snd] in Hin; apply columns_of_In in Hin; exact Hin]. }
    apply C60_path in H as (r0 & u & Eo & Hk & _ & Hw). rewrite Et in Eo. injection Eo as ->.
    assert (Hrow : exists r, In r (firstn (k + 1) (r0 :: u)) /\ same_pair false (z_pair P) (fst r)).
    { replace (firstn (k + 1) (r0 :: u)) with (r0 :: firstn k u) by (rewrite Nat.add_1_r; reflexivity).
      apply (in_map z_pair) in HP'. apply walk_rows in Hw as (qs & used & rest & Eq & HPm & HF). rewrite Eq in HP'. destruct HP' as [<-|HP']; [exists r0; split; [left; reflexivity|left; reflexivity]|].
      assert (HU : exists r, In r used /\ same_pair false (z_pair P) (fst r)).
      { clear -HF HP'. induction HF as [|q r qs used Hq HF IH]; [destruct HP'|]. destruct HP' as [<-|HP']; [exists r; split; [left; reflexivity|exact Hq]|]. destruct (IH HP') as (r' & A & B). exists r'. split; [right; exact A|exact B]. }
      destruct HU as (r & Hr & Hsp). exists r. split; [right; apply (Permutation_in _ (Permutation_sym HPm)), in_or_app; left; exact Hr|exact Hsp]. }
    destruct Hrow as (r & Hr & [Esp|[_ Esp]]).
    - apply (HW r e0 x Hr); [rewrite <- Esp; exact E0|exact Hin0].
    - apply (HW r e0 x Hr); [|exact Hin0]. rewrite Esp in E0. destruct (fst r) as [a b]. unfold holds in *. cbn [fst snd] in *.
      destruct E0 as [E0|[E0 E0']]; [right; split; [apply (Hone b a e0 E0)|exact E0]|left; exact E0'].
  Qed.

  (** the ends of the range are values of the candidates, or 1 and 0 *)
  Theorem C81_tight_partial (s : mstate C V G) k kind z c t : plot_zenplot s k kind = Ok z -> m_calc s = Some c -> m_ovo s = Some t ->
    n_isnan N (n_ofZ N 0) = false -> n_isnan N (n_ofZ N 1) = false ->
    (forall r e x, In r (firstn (k + 1) t) -> holds c (fst r) e -> In x (concat (snd e)) -> n_isnan N x = false) ->
    (z_min z = n_ofZ N 1 \/ exists r e, In r (firstn (k + 1) t) /\ holds c (fst r) e /\ In (z_min z) (concat (snd e)))
    /\ (z_max z = n_ofZ N 0 \/ exists r e, In r (firstn (k + 1) t) /\ holds c (fst r) e /\ In (z_max z) (concat (snd e))).
  Proof.
    intros H Ec Et H0 H1 Hx. pose proof (zen_range _ _ _ _ _ _ H Ec Et) as HR. apply pd_range_within in HR as (_ & _ & _ & _ & _ & HT); auto.
  Qed.
End Zen.

Print Assumptions C60_path.
Print Assumptions C60_distinct.
Print Assumptions C60_outcome.
Print Assumptions C61_range.
Print Assumptions C81_tight_partial.
