(** Facts about the conditional minimal depth of a tree and its summary over a forest. *)
From Verif Require Import Py Num Sorting Frame CondDepth TreeFacts.

(** ** Specification *)

(** depths, relative to the root of [s], of the nodes strictly below it that split on [f] *)
Definition below (f : nat) (s : btree) : list nat := map fst (filter (fun x => splits_on f (snd x)) (tl (subs 0 s))).
(** depth of the rightmost leaf *)
Fixpoint rightmost (s : btree) : nat := match s with Leaf _ => 0 | Split _ _ _ r => S (rightmost r) end.
(** the subtrees hanging from the shallowest nodes splitting on [f] *)
Definition shallowest (f : nat) (t : btree) : list btree :=
  map snd (filter (fun x => forallb (fun y => fst x <=? fst y) (feature_nodes f t)) (feature_nodes f t)).
Definition least (m : Z) (l : list Z) : Prop := In m l /\ forall x, In x l -> (m <= x)%Z.
(** the contribution of one shallowest f1-node *)
Definition contributes (f2 : nat) (s : btree) (v : Z) : Prop :=
  match below f2 s with
  | [] => v = Z.of_nat (rightmost s)
  | ds => least (v + 1) (map Z.of_nat ds)
  end.
(** [v] is the least contribution of a tree in [l] *)
Definition least_contribution (f2 : nat) (l : list btree) (v : Z) : Prop :=
  (exists s, In s l /\ contributes f2 s v) /\ forall s w, In s l -> contributes f2 s w -> (v <= w)%Z.

(** ** One shallowest node *)
Lemma subs_add d k t : subs (d + k) t = map (fun x => (fst x + k, snd x)) (subs d t).
Proof.
  revert d; induction t as [i|i f l IHl r IHr]; intros d; cbn; [reflexivity|].
  rewrite map_app, <- IHl, <- IHr. reflexivity.
Qed.
Lemma subs_at d t : subs d t = map (fun x => (fst x + d, snd x)) (subs 0 t).
Proof. rewrite <- subs_add. reflexivity. Qed.

Lemma subs_last d t : exists pre i, subs d t = pre ++ [(d + rightmost t, Leaf i)].
Proof.
  revert d; induction t as [i|i f l IHl r IHr]; intros d; cbn [subs rightmost].
  - exists [], i. cbn. rewrite Nat.add_0_r. reflexivity.
  - destruct (IHr (S d)) as (pre & j & E). exists ((d, Split i f l r) :: subs (S d) l ++ pre), j. rewrite E.
    cbn [app]. rewrite <- app_assoc. rewrite Nat.add_succ_r. reflexivity.
Qed.

Lemma list_min_spec x l : In (list_min x l) (x :: l) /\ forall y, In y (x :: l) -> list_min x l <= y.
Proof.
  unfold list_min. revert x; induction l as [|y l IH]; intros x; cbn [fold_left].
  - split; [left; reflexivity|intros y [<-|[]]; lia].
  - destruct (IH (Nat.min x y)) as [H1 H2]. split.
    + destruct H1 as [H1|H1]; [|right; right; exact H1]. rewrite <- H1.
      destruct (Nat.min_spec x y) as [[_ ->]|[_ ->]]; [left|right; left]; reflexivity.
    + intros z [<-|[<-|Hz]]; [specialize (H2 _ (or_introl eq_refl)); lia|specialize (H2 _ (or_introl eq_refl)); lia|].
      apply H2. right; exact Hz.
Qed.

Section Tree.
  Context (T : tree) (t : btree) (dep : list nat) (sp : list (Z * list nat)).
  Context (Hst : stored T t) (Hdf : depth_first t) (Hb : bfs_result T t dep sp).

  (** the nodes the id range selects are the ones below *)
  Lemma range_below f d s L : In (d, s) (subs 0 t) -> Permutation L (feature_nodes f t) ->
    forall j, In j (filter (fun j => (root s <? j) && (j <=? max_id dep (root s) d)) (map (fun x => root (snd x)) L))
      <-> exists e, In e (tl (subs d s)) /\ splits_on f (snd e) = true /\ root (snd e) = j.
  Proof.
    intros H HL j. rewrite (max_id_interval T t dep sp Hst Hdf Hb d s H).
    destruct (subtree_interval T t dep sp Hst Hdf Hb d s H) as (Hi & _ & _).
    assert (Hpos : 1 <= length (ids s)) by (destruct s; cbn; lia).
    assert (Hsub : forall e, In e (subs d s) -> In e (subs 0 t)).
    { destruct (subs_split 0 t d s H) as (pre & post & E & _). intros e He. rewrite E. apply in_or_app. right. apply in_or_app. left. exact He. }
    assert (Hhd : subs d s = (d, s) :: tl (subs d s)) by (destruct s; reflexivity).
    rewrite filter_In, in_map_iff, andb_true_iff, Nat.ltb_lt, Nat.leb_le. split.
    - intros [([d' s'] & <- & Hin) Hj]. cbn [snd] in *. apply (Permutation_in _ HL) in Hin. apply filter_In in Hin as [Hin Hf]. cbn [snd] in Hf.
      assert (Hk : In (root s') (ids s)) by (rewrite Hi; apply in_seq; lia).
      rewrite <- (ids_any d s) in Hk. apply in_map_iff in Hk as ([d2 s2] & E2 & Hin2). cbn [snd] in E2.
      destruct (node_id_unique T t Hst d' s' d2 s2 Hin (Hsub _ Hin2) (eq_sym E2)) as [<- <-].
      exists (d', s'). split; [|split; [exact Hf|reflexivity]]. rewrite Hhd in Hin2. destruct Hin2 as [Hin2|Hin2]; [|exact Hin2].
      injection Hin2 as <- <-. lia.
    - intros ([d' s'] & Hin & Hf & <-). cbn [snd] in *. assert (Hin' : In (d', s') (subs d s)) by (rewrite Hhd; right; exact Hin). split.
      + exists (d', s'). split; [reflexivity|]. apply (Permutation_in _ (Permutation_sym HL)). apply filter_In. split; [apply Hsub, Hin'|exact Hf].
      + assert (Hk : In (root s') (ids s)).
        { rewrite <- (ids_any d s). apply in_map_iff. exists (d', s'). auto. }
        rewrite Hi in Hk. apply in_seq in Hk. split; [|lia]. destruct (Nat.eq_dec (root s') (root s)) as [Er|Er]; [|lia]. exfalso.
        destruct (node_id_unique T t Hst d' s' d s (Hsub _ Hin') H Er) as [-> ->]. apply subs_tail_gt in Hin. cbn in Hin. lia.
  Qed.

  Lemma tail_at d s : tl (subs d s) = map (fun x => (fst x + d, snd x)) (tl (subs 0 s)).
  Proof. rewrite (subs_at d s). destruct s; reflexivity. Qed.

  (** one step of the loop over the shallowest nodes *)
  Lemma cmd_step_spec f d s L acc : In (d, s) (subs 0 t) -> Permutation L (feature_nodes f t) ->
    exists v, contributes f s v /\ (forall w, contributes f s w -> w = v)
      /\ cmd_step dep (map (fun x => root (snd x)) L) acc (root s) = (omin (fst acc) v, if below f s then snd acc else true).
  Proof.
    intros H HL. pose proof (range_below f d s L H HL) as HR. unfold cmd_step.
    rewrite (depth_of_node T t dep sp Hb d s H).
    assert (Hsub : forall e, In e (subs d s) -> In e (subs 0 t)).
    { destruct (subs_split 0 t d s H) as (pre & post & E & _). intros e He. rewrite E. apply in_or_app. right. apply in_or_app. left. exact He. }
    assert (Hhd : subs d s = (d, s) :: tl (subs d s)) by (destruct s; reflexivity).
    assert (Hbel : forall k, In k (below f s) <-> exists e, In e (tl (subs d s)) /\ splits_on f (snd e) = true /\ fst e = k + d).
    { intros k. unfold below. rewrite (tail_at d s), in_map_iff. split.
      - intros (e & <- & He). apply filter_In in He as [He Hf]. exists (fst e + d, snd e). cbn [fst snd].
        split; [|auto]. apply in_map_iff. exists e. auto.
      - intros (e & He & Hf & Ek). apply in_map_iff in He as (e0 & <- & He0). cbn [fst snd] in *. exists e0. split; [lia|]. apply filter_In. auto. }
    set (F := filter (fun j => (root s <? j) && (j <=? max_id dep (root s) d)) (map (fun x => root (snd x)) L)) in *.
    destruct F as [|j F'] eqn:EF.
    - assert (Eb : below f s = []).
      { destruct (below f s) as [|k l] eqn:Eb; [reflexivity|]. exfalso. destruct (proj1 (Hbel k) (or_introl eq_refl)) as (e & He & Hf & _).
        apply (proj2 (HR (root (snd e)))). exists e. auto. }
      exists (Z.of_nat (rightmost s)). unfold contributes. rewrite Eb. split; [reflexivity|split; [auto|]]. f_equal. f_equal.
      rewrite (max_id_interval T t dep sp Hst Hdf Hb d s H).
      destruct (subtree_interval T t dep sp Hst Hdf Hb d s H) as (Hi & _ & _).
      destruct (subs_last d s) as (pre & i & El). assert (Hin : In (d + rightmost s, Leaf i) (subs 0 t)).
      { apply Hsub. rewrite El. apply in_or_app. right. left. reflexivity. }
      assert (Er : root (Leaf i) = root s + length (ids s) - 1).
      { rewrite <- (ids_any d s), El in Hi. apply (seq_split_at _ (fun x => root (snd x))) in Hi. cbn [snd] in Hi. rewrite Hi.
        rewrite <- (ids_any d s), map_length, El, app_length. cbn. lia. }
      rewrite <- Er, (depth_of_node T t dep sp Hb _ _ Hin). lia.
    - destruct (list_min_spec (depth_of dep j) (map (depth_of dep) F')) as [M1 M2].
      set (m := list_min (depth_of dep j) (map (depth_of dep) F')) in *.
      assert (M1' : exists e, In e (tl (subs d s)) /\ splits_on f (snd e) = true /\ fst e = m).
      { change (depth_of dep j :: map (depth_of dep) F') with (map (depth_of dep) (j :: F')) in M1. apply in_map_iff in M1 as (j' & E & Hj').
        destruct (proj1 (HR j') Hj') as ([d' s'] & He & Hf & <-). exists (d', s'). split; [exact He|split; [exact Hf|]]. cbn [fst snd] in *.
        rewrite <- E. symmetry. apply (depth_of_node T t dep sp Hb). apply Hsub. rewrite Hhd. right. exact He. }
      assert (M2' : forall e, In e (tl (subs d s)) -> splits_on f (snd e) = true -> m <= fst e).
      { intros [d' s'] He Hf. cbn [fst snd] in *. apply M2. change (depth_of dep j :: map (depth_of dep) F') with (map (depth_of dep) (j :: F')).
        apply in_map_iff. exists (root s'). split; [apply (depth_of_node T t dep sp Hb); apply Hsub; rewrite Hhd; right; exact He|].
        apply (proj2 (HR (root s'))). exists (d', s'). auto. }
      assert (Hm : d < m). { destruct M1' as (e & He & _ & <-). apply subs_tail_gt in He. exact He. }
      assert (Hc : least (Z.of_nat m - Z.of_nat d) (map Z.of_nat (below f s))).
      { split.
        - destruct M1' as (e & He & Hf & Em). apply in_map_iff. exists (m - d). split; [lia|]. apply Hbel. exists e. split; [exact He|split; [exact Hf|lia]].
        - intros x Hx. apply in_map_iff in Hx as (k & <- & Hk). apply Hbel in Hk as (e & He & Hf & Ek). specialize (M2' e He Hf). lia. }
      exists (Z.of_nat m - Z.of_nat d - 1)%Z. unfold contributes. destruct (below f s) as [|k0 ks] eqn:Eb.
      { destruct Hc as [[] _]. }
      split; [rewrite Z.sub_add; exact Hc|]. split; [|reflexivity].
      intros w [W1 W2]. destruct Hc as [C1 C2]. specialize (W2 _ C1). specialize (C2 _ W1). lia.
  Qed.

  Lemma omin_le a b x : omin a b = Some x -> (x <= b)%Z /\ (forall y, a = Some y -> x <= y)%Z /\ (x = b \/ a = Some x).
  Proof.
    destruct a as [a|]; cbn; intros E; injection E as <-; split; [lia| |lia|].
    - split; [intros y [= <-]; lia|]. destruct (Z.min_spec a b) as [[_ ->]|[_ ->]]; auto.
    - split; [discriminate|auto].
  Qed.

  Lemma cmd_fold f L : Permutation L (feature_nodes f t) -> forall (R : list (nat * btree)) v0 o0, (forall e, In e R -> In e (subs 0 t)) ->
    exists v o, fold_left (cmd_step dep (map (fun x => root (snd x)) L)) (map (fun x => root (snd x)) R) (v0, o0) = (v, o)
      /\ (o = true <-> o0 = true \/ exists e, In e R /\ below f (snd e) <> [])
      /\ (R = [] -> v = v0)
      /\ (R <> [] -> exists x, v = Some x /\ (forall y, v0 = Some y -> (x <= y)%Z)
             /\ (forall e w, In e R -> contributes f (snd e) w -> (x <= w)%Z)
             /\ (v0 = Some x \/ exists e, In e R /\ contributes f (snd e) x)).
  Proof.
    intros HL R. induction R as [|[d s] R IH]; intros v0 o0 HR; cbn [map fold_left snd].
    - exists v0, o0. split; [reflexivity|split; [|split; [auto|congruence]]]. split; [auto|intros [H|(e & [] & _)]; exact H].
    - destruct (cmd_step_spec f d s L (v0, o0) (HR _ (or_introl eq_refl)) HL) as (c & Hc & Hu & Ec). rewrite Ec. cbn [fst snd].
      set (o1 := if below f s then o0 else true).
      destruct (IH (omin v0 c) o1) as (v & o & E & Ho & H0 & H1); [intros e He; apply HR; right; exact He|].
      exists v, o. split; [exact E|split; [|split; [discriminate|]]].
      + rewrite Ho. unfold o1. split.
        * intros [H|(e & He & Hbe)].
          -- destruct (below f s) eqn:Eb; [left; exact H|]. right. exists (d, s). split; [left; reflexivity|]. cbn. congruence.
          -- right. exists e. split; [right; exact He|exact Hbe].
        * intros [H|(e & [<-|He] & Hbe)].
          -- left. destruct (below f s); auto.
          -- left. cbn [snd] in Hbe. destruct (below f s); [congruence|reflexivity].
          -- right. exists e. auto.
      + intros _. destruct (list_eq_dec (fun a b : nat * btree => ltac:(decide equality; [decide equality; apply Nat.eq_dec|apply Nat.eq_dec])) R []) as [->|HRn].
        * specialize (H0 eq_refl). assert (exists x, omin v0 c = Some x) as (x & Ex) by (destruct v0; cbn; eauto).
          destruct (omin_le _ _ _ Ex) as (A & B & D). exists x. rewrite H0. split; [exact Ex|split; [exact B|split]].
          -- intros e w [<-|[]] Hw. rewrite (Hu w Hw). exact A.
          -- destruct D as [->|D]; [right; exists (d, s); split; [left; reflexivity|exact Hc]|left; exact D].
        * destruct (H1 HRn) as (x & -> & A & B & D). exists x. split; [reflexivity|].
          assert (exists y, omin v0 c = Some y) as (y & Ey) by (destruct v0; cbn; eauto). destruct (omin_le _ _ _ Ey) as (A' & B' & D').
          specialize (A y Ey). split; [intros z Hz; specialize (B' z Hz); lia|split].
          -- intros e w [<-|He] Hw; [rewrite (Hu w Hw); lia|apply (B e w He Hw)].
          -- destruct D as [D|(e & He & Hw)]; [|right; exists e; split; [right; exact He|exact Hw]].
             rewrite Ey in D. injection D as ->. destruct D' as [->|D']; [right; exists (d, s); split; [left; reflexivity|exact Hc]|left; exact D'].
  Qed.

  (** the shallowest nodes are the entries of the list with the depth of its head *)
  Lemma head_shallowest f h L : Permutation (h :: L) (feature_nodes f t) -> StronglySorted (fun a b => fst a <= fst b) (h :: L) ->
    exists R, filter (fun i => depth_of dep i =? depth_of dep (root (snd h))) (map (fun x => root (snd x)) (h :: L)) = map (fun x => root (snd x)) R
      /\ Permutation (map snd R) (shallowest f t) /\ (forall e, In e R -> In e (subs 0 t)) /\ In h R.
  Proof.
    intros HP HS. assert (Hin : forall e, In e (h :: L) -> In e (subs 0 t)).
    { intros e He. apply (Permutation_in _ HP) in He. apply filter_In in He. tauto. }
    exists (filter (fun x => fst x =? fst h) (h :: L)). split; [|split; [|split]].
    - assert (G : forall M, (forall e, In e M -> In e (subs 0 t)) ->
        filter (fun i => depth_of dep i =? depth_of dep (root (snd h))) (map (fun x => root (snd x)) M) = map (fun x => root (snd x)) (filter (fun x => fst x =? fst h) M)).
      { destruct h as [dh sh]. induction M as [|[d s] M IH]; intros HM; [reflexivity|]. cbn [map filter fst snd].
        rewrite (depth_of_node T t dep sp Hb d s (HM _ (or_introl eq_refl))), (depth_of_node T t dep sp Hb dh sh (Hin _ (or_introl eq_refl))).
        assert (HM' : forall e, In e M -> In e (subs 0 t)) by (intros e He; apply HM; right; exact He). specialize (IH HM').
        cbn [snd] in IH. rewrite (depth_of_node T t dep sp Hb dh sh (Hin _ (or_introl eq_refl))) in IH. cbn [fst] in IH.
        destruct (d =? dh); cbn [map snd]; [f_equal|]; exact IH. }
      apply G, Hin.
    - unfold shallowest. apply Permutation_map. rewrite (filter_ext_in (fun x => forallb (fun y => fst x <=? fst y) (feature_nodes f t)) (fun x => fst x =? fst h) (feature_nodes f t)).
      + apply Permutation_filter, HP.
      + intros x Hx. assert (Hmin : forall y, In y (feature_nodes f t) -> fst h <= fst y).
        { intros y Hy. apply (Permutation_in _ (Permutation_sym HP)) in Hy. inversion HS as [|? ? _ Hf]; subst. destruct Hy as [<-|Hy]; [lia|].
          rewrite Forall_forall in Hf. apply Hf, Hy. }
        apply eq_true_iff_eq. rewrite forallb_forall, Nat.eqb_eq. split.
        * intros Hall. specialize (Hall h (Permutation_in _ HP (or_introl eq_refl))). apply Nat.leb_le in Hall. specialize (Hmin x Hx). lia.
        * intros E y Hy. apply Nat.leb_le. rewrite E. apply Hmin, Hy.
    - intros e He. apply filter_In in He as [He _]. apply Hin, He.
    - apply filter_In. split; [left; reflexivity|apply Nat.eqb_refl].
  Qed.

  Lemma cmd_pair_spec f1 f2 : feature_nodes f1 t <> [] -> feature_nodes f2 t <> [] ->
    exists v o, cmd_pair dep sp f1 f2 = (Some v, o) /\ least_contribution f2 (shallowest f1 t) v
      /\ (o = true <-> exists s, In s (shallowest f1 t) /\ below f2 s <> []).
  Proof.
    intros H1 H2. destruct (br_nodes _ _ _ _ Hb f1 H1) as (L1 & E1 & P1 & S1). destruct (br_nodes _ _ _ _ Hb f2 H2) as (L2 & E2 & P2 & _).
    unfold cmd_pair. rewrite E1, E2. destruct L1 as [|h L1]; [apply Permutation_nil in P1; congruence|]. cbn [map].
    change (root (snd h) :: map (fun x => root (snd x)) L1) with (map (fun x : nat * btree => root (snd x)) (h :: L1)).
    destruct (head_shallowest f1 h L1 P1 S1) as (R & ER & PR & HR & Hh). rewrite ER.
    destruct (cmd_fold f2 L2 P2 R None false HR) as (v & o & E & Ho & _ & Hv). destruct Hv as (x & -> & _ & B & D); [intros ->; destruct Hh|].
    exists x, o. split; [exact E|split; [split|]].
    - destruct D as [D|(e & He & Hc)]; [discriminate|]. exists (snd e). split; [|exact Hc]. apply (Permutation_in _ PR), in_map, He.
    - intros s w Hs Hw. apply (Permutation_in _ (Permutation_sym PR)) in Hs. apply in_map_iff in Hs as (e & <- & He). apply (B e w He Hw).
    - rewrite Ho. split.
      + intros [H|(e & He & Hbe)]; [discriminate|]. exists (snd e). split; [|exact Hbe]. apply (Permutation_in _ PR), in_map, He.
      + intros (s & Hs & Hbe). right. apply (Permutation_in _ (Permutation_sym PR)) in Hs. apply in_map_iff in Hs as (e & <- & He). exists e. auto.
  Qed.
End Tree.

(** missing features; this needs no assumption on the numbering *)
Lemma cmd_pair_missing T t dep sp f1 f2 : bfs_result T t dep sp -> feature_nodes f1 t = [] \/ feature_nodes f2 t = [] ->
  cmd_pair dep sp f1 f2 = (None, false).
Proof.
  intros Hb H. assert (G : forall f, feature_nodes f t = [] -> assoc Z.eqb (Z.of_nat f) sp = None).
  { intros f Hf. destruct (assoc Z.eqb (Z.of_nat f) sp) as [l|] eqn:E; [|reflexivity]. exfalso.
    assert (Hk : In (Z.of_nat f) (map fst sp)) by (apply (assoc_keys Z.eqb zeqb_eq); eauto).
    apply (br_keys _ _ _ _ Hb) in Hk as (f' & Ef & Hne). apply Nat2Z.inj in Ef as <-. congruence. }
  unfold cmd_pair. destruct H as [H|H]; rewrite (G _ H); [reflexivity|]. destruct (assoc _ _ _); reflexivity.
Qed.
