(** The forest method in double precision: its means are correctly rounded and rank exactly (C125). *)
From Verif Require Import Py Num Float FloatRound FloatMono FloatOps FloatErr FloatInt NpSum Sorting Frame TreeFacts CondDepth CondDepthFacts ForestFacts CompareFacts Props_Forest.
From Coq Require Import ZArith SpecFloat QArith Qabs Qpower Lia.
Open Scope string_scope.
Open Scope nat_scope.
Open Scope list_scope.

(** ** Specification *)
(** the number a double stands for *)
Definition number (x : F) : Q := match x with S754_finite s m e => (inject_Z (cond_Zopp s (Z.pos m)) * 2 ^ e)%Q | _ => 0%Q end.
(** [v] is a double and no double is closer to [q] *)
Definition rounded (v : F) (q : Q) : Prop := finite v /\ forall y, finite y -> (Qabs (number v - q) <= Qabs (number y - q))%Q.
(** the mean of whole numbers *)
Definition exact (zs : list Z) : Q := (inject_Z (fold_right Z.add 0%Z zs) / inject_Z (Z.of_nat (length zs)))%Q.

(** the exact mean, over the trees where both features split, of what the trees report *)
Definition mean_report (ts : list btree) (i j : nat) (q : Q) : Prop :=
  exists vals, Forall2 (fun t v => reports t i j v) ts vals /\ somes (map fst vals) <> [] /\ (q == exact (somes (map fst vals)))%Q.
(** the exact mean, over the trees using a feature, of the depth of its first split *)
Definition mean_first_use (ts : list btree) (f : nat) (q : Q) : Prop :=
  somes (map (first_use f) ts) <> [] /\ (q == exact (map Z.of_nat (somes (map (first_use f) ts))))%Q.

(** sizes for which distinct means are far enough apart *)
Definition moderate (ts : list btree) : Prop :=
  exists D, Forall (fun t => height t <= D) ts /\ (2 * Z.of_nat (length ts) * Z.of_nat (length ts) * Z.of_nat D < 2 ^ 52)%Z.

(** ** Numbers *)
Local Open Scope Q_scope.
Lemma number_tiny x : finite x -> number x == inject_Z (tiny x) / inject_Z unit1.
Proof.
  intros Hx. destruct x as [s|s| |s m e]; try contradiction; [reflexivity|]. destruct (bnd_spec m e Hx) as (_ & _ & Hlow & _ & _). unfold number, tiny. cbn [units].
  assert (Hu : ~ inject_Z unit1 == 0) by (pose proof unit1_pos; unfold Qeq; cbn; lia).
  assert (Hp : inject_Z (cond_Zopp s (Z.pos m * 2 ^ (e - -1074))) == inject_Z (cond_Zopp s (Z.pos m)) * inject_Z (2 ^ (e - -1074))).
  { rewrite <- inject_Z_mult. apply inject_Z_injective. destruct s; cbn [cond_Zopp]; ring. }
  rewrite Hp, Zpower_Qpower by lia. assert (Eu : inject_Z unit1 == 2 ^ 1074) by (change unit1 with (2 ^ 1074)%Z; rewrite Zpower_Qpower by lia; reflexivity).
  rewrite Eu in *. apply (Qmult_inj_r _ _ (2 ^ 1074) Hu). unfold Qdiv. rewrite <- !Qmult_assoc. rewrite (Qmult_comm (/ 2 ^ 1074)), Qmult_inv_r by exact Hu.
  rewrite Qmult_1_r, <- Qpower_plus by (intros H; discriminate H). change (inject_Z 2) with 2. replace (e + 1074)%Z with (e - -1074)%Z by lia. reflexivity.
Qed.

Lemma exact_frac K n t : (0 < n)%Z -> Qabs (inject_Z t / inject_Z unit1 - inject_Z K / inject_Z n) == inject_Z (Z.abs (t * n - K * unit1)) / inject_Z (n * unit1).
Proof.
  intros Hn. pose proof unit1_pos as Hu.
  assert (E : inject_Z t / inject_Z unit1 - inject_Z K / inject_Z n == inject_Z (t * n - K * unit1) / inject_Z (n * unit1)).
  { assert (~ inject_Z unit1 == 0) by (unfold Qeq; cbn; lia). assert (~ inject_Z n == 0) by (unfold Qeq; cbn; lia).
    unfold Zminus. rewrite inject_Z_plus, inject_Z_opp, !inject_Z_mult. field. auto. }
  rewrite E. unfold Qdiv. rewrite Qabs_Qmult. apply Qmult_comp.
  - reflexivity.
  - apply Qabs_pos. apply Qinv_le_0_compat. change 0 with (inject_Z 0). rewrite <- Zle_Qle. nia.
Qed.
Lemma nearest_rounded v K n q : (0 < n)%Z -> finite v -> nearest v (K * unit1) n -> q == inject_Z K / inject_Z n -> rounded v q.
Proof.
  intros Hn Hv H Eq0. split; [exact Hv|]. intros y Hy. rewrite Eq0, !number_tiny, !exact_frac by assumption. unfold Qdiv. apply Qmult_le_compat_r.
  - rewrite <- Zle_Qle. apply H, Hy.
  - apply Qinv_le_0_compat. change 0 with (inject_Z 0). rewrite <- Zle_Qle. pose proof unit1_pos. nia.
Qed.

Lemma exact_cross K n K' n' : (0 < n)%Z -> (0 < n')%Z -> (inject_Z K / inject_Z n < inject_Z K' / inject_Z n' <-> (K * n' < K' * n)%Z).
Proof.
  intros Hn Hn'. destruct n as [|n|n]; try lia. destruct n' as [|n'|n']; try lia.
  assert (E : forall k p, inject_Z k / inject_Z (Z.pos p) == (k # p)) by (intros; unfold Qeq; cbn; lia). rewrite !E. unfold Qlt. cbn. reflexivity.
Qed.
Local Close Scope Q_scope.

(** ** Sizes of what the trees report *)
Lemma subs_height t : forall d x, In x (subs d t) -> d <= fst x /\ fst x + height (snd x) <= d + height t.
Proof.
  induction t as [i|i f l IHl r IHr]; intros d x H; cbn [subs] in H.
  - destruct H as [<-|[]]. cbn. lia.
  - destruct H as [<-|H]; [cbn [fst snd]; lia|]. cbn [height]. apply in_app_or in H as [H|H]; [apply IHl in H|apply IHr in H]; lia.
Qed.
Lemma height_pos t : 1 <= height t. Proof. destruct t; cbn; lia. Qed.
Lemma rightmost_height t : rightmost t < height t.
Proof. induction t; cbn; lia. Qed.

Lemma below_range f s d : In d (below f s) -> 1 <= d < height s.
Proof.
  unfold below. intros H. apply in_map_iff in H as (x & <- & H). apply filter_In in H as [H _]. destruct s as [i|i g l r]; cbn [subs tl] in H; [destruct H|].
  cbn [height]. apply in_app_or in H as [H|H]; apply subs_height in H; pose proof (height_pos (snd x)); lia.
Qed.
Lemma contributes_range f s v : contributes f s v -> (0 <= v < Z.of_nat (height s))%Z.
Proof.
  unfold contributes. pose proof (below_range f s) as Hb. destruct (below f s) as [|d ds]; [intros ->; pose proof (rightmost_height s); lia|].
  intros [H _]. apply in_map_iff in H as (k & E & Hk). apply Hb in Hk. lia.
Qed.
Lemma shallowest_height f t s : In s (shallowest f t) -> height s <= height t.
Proof. unfold shallowest. intros H. apply in_map_iff in H as (x & <- & H). apply filter_In in H as [H _]. apply filter_In in H as [H _]. apply subs_height in H. lia. Qed.
Lemma reports_range t i j v b : reports t i j (Some v, b) -> (0 <= v < Z.of_nat (height t))%Z.
Proof.
  intros [H1 H2]. destruct (feature_nodes i t) eqn:E1; [specialize (H1 (or_introl eq_refl)); discriminate|]. destruct (feature_nodes j t) eqn:E2; [specialize (H1 (or_intror eq_refl)); discriminate|].
  destruct H2 as [(w & E & (s & Hs & Hc) & _) _]; try discriminate. injection E as <-. apply contributes_range in Hc. apply shallowest_height in Hs. lia.
Qed.

Lemma somes_In {A} (l : list (option A)) x : In x (somes l) <-> In (Some x) l.
Proof.
  unfold somes. rewrite in_flat_map. split.
  - intros ([y|] & H & Hx); [destruct Hx as [<-|[]]; exact H|destruct Hx].
  - intros H. exists (Some x). split; [exact H|left; reflexivity].
Qed.
Lemma somes_length {A} (l : list (option A)) : length (somes l) <= length l.
Proof. unfold somes. induction l as [|[x|] l IH]; cbn; lia. Qed.

Lemma reports_somes D ts i j vals : Forall2 (fun t v => reports t i j v) ts vals -> Forall (fun t => height t <= D) ts ->
  Forall (fun z => (0 <= z <= Z.of_nat D)%Z) (somes (map fst vals)) /\ length (somes (map fst vals)) <= length ts.
Proof.
  intros HF HD. split.
  - apply Forall_forall. intros z Hz. apply somes_In, in_map_iff in Hz as ([o b] & E & Hv). cbn [fst] in E. subst o.
    induction HF as [|t v ts vals H HF IH]; [destruct Hv|]. inversion HD; subst. destruct Hv as [->|Hv]; [|auto]. apply reports_range in H. lia.
  - etransitivity; [apply somes_length|]. rewrite map_length. clear HD. induction HF; cbn; lia.
Qed.

(** what a tree reports is determined *)
Lemma contributes_fun f s v w : contributes f s v -> contributes f s w -> v = w.
Proof. unfold contributes. destruct (below f s); [congruence|]. intros [A B] [A' B']. specialize (B _ A'). specialize (B' _ A). lia. Qed.
Lemma reports_fun t i j r r' : reports t i j r -> reports t i j r' -> r = r'.
Proof.
  intros [A1 A2] [B1 B2]. destruct (feature_nodes i t) eqn:E1; [rewrite A1, B1 by (left; reflexivity); reflexivity|]. destruct (feature_nodes j t) eqn:E2; [rewrite A1, B1 by (right; reflexivity); reflexivity|].
  destruct A2 as [(v & Ev & (s & Hs & Hc) & Hm) Ao]; try discriminate. destruct B2 as [(w & Ew & (s' & Hs' & Hc') & Hm') Bo]; try discriminate.
  destruct r as [o b], r' as [o' b']. cbn [fst snd] in *. subst. specialize (Hm _ _ Hs' Hc'). specialize (Hm' _ _ Hs Hc). f_equal; [f_equal; lia|].
  apply eq_true_iff_eq. rewrite Ao, Bo. reflexivity.
Qed.
Lemma reports_all_fun ts i j vals vals' : Forall2 (fun t v => reports t i j v) ts vals -> Forall2 (fun t v => reports t i j v) ts vals' -> vals = vals'.
Proof. intros H. revert vals'. induction H; intros vals' H'; inversion H'; subst; [reflexivity|]. f_equal; [eapply reports_fun; eassumption|auto]. Qed.

(** ** Means *)
Section Means.
  Context (sum : list F -> F) (Hsum : forall l, added l (sum l)).
  Notation N := (fl64 sum).

  Definition small (T D : nat) (zs : list Z) : Prop := zs <> [] /\ length zs <= T /\ Forall (fun z => (0 <= z <= Z.of_nat D)%Z) zs.
  Lemma small_facts T D zs : 1 <= D -> (2 * Z.of_nat T * Z.of_nat T * Z.of_nat D < 2 ^ 52)%Z -> small T D zs ->
    counts zs /\ (0 < Z.of_nat (length zs) <= Z.of_nat T)%Z /\ (0 <= zsum zs <= Z.of_nat T * Z.of_nat D)%Z /\ (Z.of_nat T <= 2 ^ 52)%Z /\ (Z.of_nat T * Z.of_nat D <= 2 ^ 52)%Z.
  Proof.
    intros HD HT (Hne & Hl & Hz). assert (Hc : counts zs) by (unfold counts; eapply Forall_impl; [|exact Hz]; cbn; intros; lia).
    assert (Hb : (zsum zs <= Z.of_nat (length zs) * Z.of_nat D)%Z) by (apply zsum_bound; eapply Forall_impl; [|exact Hz]; cbn; intros; lia).
    assert (1 <= length zs) by (destruct zs; [congruence|cbn; lia]). pose proof (zsum_counts _ Hc). split; [exact Hc|]. split; [lia|]. split; [split; [assumption|nia]|]. nia.
  Qed.

  Lemma mean_rounded T D zs : 1 <= D -> (2 * Z.of_nat T * Z.of_nat T * Z.of_nat D < 2 ^ 52)%Z -> small T D zs ->
    forall q, (q == exact zs)%Q -> rounded (np_mean N (map (n_ofZ N) zs)) q.
  Proof.
    intros HD HT Hs q Hq. destruct (small_facts T D zs HD HT Hs) as (Hc & Hl & Hk & B1 & B2). destruct Hs as (Hne & _).
    destruct (zmean_spec sum Hsum zs Hne) as [Hf Hn]; [rewrite zsum_nonneg_abs by exact Hc; lia|lia|]. apply (nearest_rounded _ (zsum zs) (Z.of_nat (length zs))); auto. lia.
  Qed.
  Lemma mean_order T D zs zs' : 1 <= D -> (2 * Z.of_nat T * Z.of_nat T * Z.of_nat D < 2 ^ 52)%Z -> small T D zs -> small T D zs' ->
    SFltb (np_mean N (map (n_ofZ N) zs)) (np_mean N (map (n_ofZ N) zs')) = true <-> (exact zs < exact zs')%Q.
  Proof.
    intros HD HT Hs Hs'. destruct (small_facts T D zs HD HT Hs) as (Hc & Hl & Hk & B1 & B2). destruct (small_facts T D zs' HD HT Hs') as (Hc' & Hl' & Hk' & _).
    unfold exact. fold (zsum zs) (zsum zs'). rewrite exact_cross by lia. destruct Hs as (Hne & _), Hs' as (Hne' & _).
    change (np_mean N (map (n_ofZ N) zs)) with (zmean sum zs). change (np_mean N (map (n_ofZ N) zs')) with (zmean sum zs').
    split.
    - intros L. destruct (Z.lt_ge_cases (zsum zs * Z.of_nat (length zs')) (zsum zs' * Z.of_nat (length zs))) as [|Hge]; [assumption|exfalso].
      destruct (zmean_mono sum Hsum zs' zs) as (_ & _ & L'); auto; try lia. congruence.
    - intros L. assert (Hn : ~ fle (zmean sum zs') (zmean sum zs)).
      { apply (zmean_lt sum Hsum); auto; try lia.
        assert ((zsum zs * Z.of_nat (length zs') <= (Z.of_nat T * Z.of_nat D) * Z.of_nat T)%Z) by (apply Z.mul_le_mono_nonneg; lia).
        assert ((zsum zs' * Z.of_nat (length zs) <= (Z.of_nat T * Z.of_nat D) * Z.of_nat T)%Z) by (apply Z.mul_le_mono_nonneg; lia). lia. }
      destruct (zmean_spec sum Hsum zs Hne) as [Hf _]; [rewrite zsum_nonneg_abs by exact Hc; lia|lia|]. destruct (zmean_spec sum Hsum zs' Hne') as [Hf' _]; [rewrite zsum_nonneg_abs by exact Hc'; lia|lia|].
      apply finite_num in Hf, Hf'. destruct (SFltb (zmean sum zs) (zmean sum zs')) eqn:E; [reflexivity|]. exfalso. apply Hn. split; [exact Hf'|split; [exact Hf|exact E]].
  Qed.
End Means.

(** ** C125 *)
Section Forest.
  Context (sum : list F -> F) (Hsum : forall l, added l (sum l)) (srt : sorter) (Hs : sorter_ok srt).
  Notation N := (fl64 sum).
  Notation before l a b := (exists l1 l2 l3, l = l1 ++ a :: l2 ++ b :: l3).

  Lemma sorted_before {A} (R : A -> A -> Prop) l a b : StronglySorted R l -> before l a b -> R a b.
  Proof.
    intros H (l1 & l2 & l3 & ->). induction l1 as [|x l1 IH]; cbn in H; inversion H as [|? ? H1 H2]; subst; [|auto].
    rewrite Forall_forall in H2. apply H2. apply in_or_app. right. left. reflexivity.
  Qed.

  Lemma row_reports s m names ts ovo r : fo_names m = Some names -> NoDup names -> Forall2 stored (fo_trees m) ts -> Forall depth_first ts -> fo_trees m <> [] ->
    cs_ovo (fst (cmd_fit N srt s m)) = Some ovo -> In r ovo ->
    exists i j vals, i <> j /\ describes N names vals i j r /\ Forall2 (fun t v => reports t i j v) ts vals.
  Proof.
    intros En Hnd HF Hdf Hne Eo Hr. destruct (C38_summary N srt (fl64_ord sum) Hs s m names ts En Hnd HF Hne) as (ovo' & Eo' & _ & HD & _). rewrite Eo in Eo'. injection Eo' as <-.
    destruct (HD r Hr) as (i & j & vals & Hij & Hd & HV). exists i, j, vals. split; [exact Hij|]. split; [exact Hd|].
    clear -HF Hdf HV. revert vals HV. induction HF as [|T t trees ts H HF IH]; intros vals HV; inversion HV as [|? v ? vs (dep & sp & E & ->) HV']; subst; [constructor|].
    inversion Hdf; subst. constructor; [|auto]. apply (C36_conditional_depth T); assumption.
  Qed.

  (** the row of an ordered pair holds the double closest to the exact mean, or is missing *)
  Theorem C125_rounded s m names ts : fo_names m = Some names -> NoDup names -> Forall2 stored (fo_trees m) ts -> Forall depth_first ts -> fo_trees m <> [] -> moderate ts ->
    exists ovo, cs_ovo (fst (cmd_fit N srt s m)) = Some ovo
      /\ forall r i j, In r ovo -> nth_error names i = Some (cr_root r) -> nth_error names j = Some (cr_var r) ->
           (forall q, mean_report ts i j q -> rounded (cr_value r) q) /\ (cr_value r = S754_nan <-> ~ exists q, mean_report ts i j q).
  Proof.
    intros En Hnd HF Hdf Hne (D & HD & HT). destruct (C38_summary N srt (fl64_ord sum) Hs s m names ts En Hnd HF Hne) as (ovo & Eo & _). exists ovo. split; [exact Eo|].
    intros r i j Hr Hi Hj. destruct (row_reports s m names ts ovo r En Hnd HF Hdf Hne Eo Hr) as (i' & j' & vals & Hij & (D1 & D2 & Dn & Dv & _) & HR).
    assert (i' = i) as ->. { apply (proj1 (NoDup_nth_error names) Hnd); [apply nth_error_Some; congruence|congruence]. }
    assert (j' = j) as ->. { apply (proj1 (NoDup_nth_error names) Hnd); [apply nth_error_Some; congruence|congruence]. }
    assert (D0 : 1 <= D). { destruct ts as [|t ts]; [destruct (fo_trees m); [congruence|inversion HF]|]. inversion HD; subst. pose proof (height_pos t). lia. }
    destruct (reports_somes D ts i j vals HR HD) as [Hz Hl].
    assert (Hq : forall q, mean_report ts i j q -> rounded (cr_value r) q).
    { intros q (vals' & HR' & Hne' & Eq0). rewrite <- (reports_all_fun ts i j vals vals' HR HR') in *. rewrite (Dv Hne').
      apply (mean_rounded sum Hsum (length ts) D); auto. split; [exact Hne'|split; [exact Hl|exact Hz]]. }
    split; [exact Hq|]. split.
    - intros E (q & Hm). destruct (Hq q Hm) as [Hf _]. rewrite E in Hf. destruct Hf.
    - intros Hno. destruct (somes (map fst vals)) as [|z zs] eqn:Ez; [exact (Dn eq_refl)|]. exfalso. apply Hno. exists (exact (somes (map fst vals))), vals. rewrite Ez. split; [exact HR|split; [discriminate|reflexivity]].
  Qed.

  (** comparisons of the reported values are comparisons of the exact means, so that the rows are in the exact order *)
  Theorem C125_order s m names ts ovo r r' i j i' j' q q' : fo_names m = Some names -> NoDup names -> Forall2 stored (fo_trees m) ts -> Forall depth_first ts -> fo_trees m <> [] -> moderate ts ->
    cs_ovo (fst (cmd_fit N srt s m)) = Some ovo -> In r ovo -> In r' ovo ->
    nth_error names i = Some (cr_root r) -> nth_error names j = Some (cr_var r) -> nth_error names i' = Some (cr_root r') -> nth_error names j' = Some (cr_var r') ->
    mean_report ts i j q -> mean_report ts i' j' q' ->
    (SFltb (cr_value r) (cr_value r') = true <-> (q < q')%Q)
    /\ (before ovo r r' -> cr_occ r' < cr_occ r \/ cr_occ r = cr_occ r' /\ (q <= q')%Q).
  Proof.
    intros En Hnd HF Hdf Hne (D & HD & HT) Eo Hr Hr' Hi Hj Hi' Hj' Hq Hq'.
    assert (D0 : 1 <= D). { destruct ts as [|t ts]; [destruct (fo_trees m); [congruence|inversion HF]|]. inversion HD; subst. pose proof (height_pos t). lia. }
    assert (G : forall r i j q, In r ovo -> nth_error names i = Some (cr_root r) -> nth_error names j = Some (cr_var r) -> mean_report ts i j q ->
      exists zs, small (length ts) D zs /\ (q == exact zs)%Q /\ cr_value r = np_mean N (map (n_ofZ N) zs)).
    { clear r r' i j i' j' q q' Hr Hr' Hi Hj Hi' Hj' Hq Hq'. intros r i j q Hr Hi Hj (vals' & HR' & Hne' & Eq0).
      destruct (row_reports s m names ts ovo r En Hnd HF Hdf Hne Eo Hr) as (i' & j' & vals & Hij & (D1 & D2 & Dn & Dv & _) & HR).
      assert (i' = i) as ->. { apply (proj1 (NoDup_nth_error names) Hnd); [apply nth_error_Some; congruence|congruence]. }
      assert (j' = j) as ->. { apply (proj1 (NoDup_nth_error names) Hnd); [apply nth_error_Some; congruence|congruence]. }
      rewrite <- (reports_all_fun ts i j vals vals' HR HR') in *. destruct (reports_somes D ts i j vals HR HD) as [Hz Hl].
      exists (somes (map fst vals)). split; [split; [exact Hne'|split; [exact Hl|exact Hz]]|]. split; [exact Eq0|exact (Dv Hne')]. }
    destruct (G r i j q Hr Hi Hj Hq) as (zs & Z1 & Z2 & Z3). destruct (G r' i' j' q' Hr' Hi' Hj' Hq') as (zs' & Z1' & Z2' & Z3').
    assert (O : forall za zb, small (length ts) D za -> small (length ts) D zb -> SFltb (np_mean N (map (n_ofZ N) za)) (np_mean N (map (n_ofZ N) zb)) = true <-> (exact za < exact zb)%Q) by (intros; apply (mean_order sum Hsum (length ts) D); auto).
    split; [rewrite Z3, Z3', Z2, Z2'; apply O; assumption|]. intros Hb.
    destruct (C38_summary N srt (fl64_ord sum) Hs s m names ts En Hnd HF Hne) as (ovo' & Eo' & _ & _ & HS). rewrite Eo in Eo'. injection Eo' as <-.
    destruct (sorted_before _ _ _ _ HS Hb) as [H|[H1 H2]]; [left; exact H|right; split; [exact H1|]].
    rewrite Z2, Z2'. apply Qnot_lt_le. intros L. apply (O zs' zs Z1' Z1) in L. rewrite <- Z3, <- Z3' in L.
    unfold le_dir, le_asc in H2. cbn [n_isnan n_ltb fl64] in H2.
    apply SFltb_rank in L as L'. destruct L' as (N1 & N2 & _). rewrite N1, N2 in H2. change (negb (SFltb (cr_value r') (cr_value r)) = true) in H2. rewrite L in H2. discriminate.
  Qed.

  (** the minimal depth importance *)
  Lemma first_use_small D ts f : Forall (fun t => height t <= D) ts ->
    Forall (fun z => (0 <= z <= Z.of_nat D)%Z) (map Z.of_nat (somes (map (first_use f) ts))) /\ length (map Z.of_nat (somes (map (first_use f) ts))) <= length ts.
  Proof.
    intros HD. split.
    - apply Forall_forall. intros z Hz. apply in_map_iff in Hz as (d & <- & Hd). apply somes_In, in_map_iff in Hd as (t & E & Ht). rewrite Forall_forall in HD. specialize (HD t Ht).
      apply C39_first_use in E as [(s & H & _) _]. apply subs_height in H. cbn [fst snd] in H. pose proof (height_pos s). lia.
    - rewrite map_length. etransitivity; [apply somes_length|]. rewrite map_length. lia.
  Qed.

  Theorem C125_importance s m names ts : fo_names m = Some names -> NoDup names -> Forall2 stored (fo_trees m) ts -> known_features (length names) ts ->
    (exists t f, In t ts /\ feature_nodes f t <> []) -> moderate ts ->
    exists fi, cs_fi (fst (cmd_fit N srt s m)) = Some fi
      /\ (forall f a, nth_error names f = Some a -> (exists q, mean_first_use ts f q) -> exists v, In (a, v) fi)
      /\ (forall f a v q, In (a, v) fi -> nth_error names f = Some a -> mean_first_use ts f q -> rounded v q)
      /\ (forall f a v q f' a' v' q', In (a, v) fi -> nth_error names f = Some a -> mean_first_use ts f q ->
            In (a', v') fi -> nth_error names f' = Some a' -> mean_first_use ts f' q' ->
            (SFltb v v' = true <-> (q < q')%Q) /\ (before fi (a, v) (a', v') -> (q <= q')%Q)).
  Proof.
    intros En Hnd HF Hk Hu (D & HD & HT). destruct (C39_importance N srt (fl64_ord sum) Hs s m names ts En HF Hk Hu) as (fi & _ & Ef & HP & HS). exists fi. split; [exact Ef|].
    assert (D0 : 1 <= D). { destruct Hu as (t & f & Ht & _). rewrite Forall_forall in HD. specialize (HD t Ht). pose proof (height_pos t). lia. }
    assert (G : forall f a v q, In (a, v) fi -> nth_error names f = Some a -> mean_first_use ts f q ->
      exists zs, small (length ts) D zs /\ (q == exact zs)%Q /\ v = np_mean N (map (n_ofZ N) zs)).
    { intros f a v q Hin Ha (Hne & Eq0). apply (Permutation_in _ HP), in_map_iff in Hin as (f' & E & Hf'). unfold importance_row in E. apply filter_In in Hf' as [Hf' _]. apply in_seq in Hf'.
      assert (E1 : nth f' names EmptyString = a) by congruence. assert (E2 : v = np_mean N (map (fun d => n_ofZ N (Z.of_nat d)) (somes (map (first_use f') ts)))) by congruence. clear E.
      assert (f' = f) as ->. { apply (proj1 (NoDup_nth_error names) Hnd); [lia|]. rewrite Ha, <- E1. apply nth_error_nth'. lia. }
      destruct (first_use_small D ts f HD) as [B1 B2]. exists (map Z.of_nat (somes (map (first_use f) ts))). split; [split; [|split; [exact B2|exact B1]]|].
      - intros E. apply map_eq_nil in E. contradiction.
      - split; [exact Eq0|]. rewrite map_map. exact E2. }
    split; [|split].
    - intros f a Ha (q & Hne & _). eexists. apply (Permutation_in _ (Permutation_sym HP)), in_map_iff. exists f. split.
      + unfold importance_row. rewrite (nth_error_nth _ _ _ Ha). reflexivity.
      + apply filter_In. split; [apply in_seq; assert (f < length names) by (apply nth_error_Some; congruence); lia|].
        unfold used_in. apply existsb_exists. destruct (somes (map (first_use f) ts)) as [|d ds] eqn:E; [congruence|].
        assert (Hd : In d (somes (map (first_use f) ts))) by (rewrite E; left; reflexivity). apply somes_In, in_map_iff in Hd as (t & Et & Ht). exists t. rewrite Et. split; [exact Ht|reflexivity].
    - intros f a v q Hin Ha Hq. destruct (G f a v q Hin Ha Hq) as (zs & Z1 & Z2 & ->). apply (mean_rounded sum Hsum (length ts) D); auto.
    - intros f a v q f' a' v' q' Hin Ha Hq Hin' Ha' Hq'. destruct (G f a v q Hin Ha Hq) as (zs & Z1 & Z2 & Z3). destruct (G f' a' v' q' Hin' Ha' Hq') as (zs' & Z1' & Z2' & Z3').
      assert (O : forall za zb, small (length ts) D za -> small (length ts) D zb -> SFltb (np_mean N (map (n_ofZ N) za)) (np_mean N (map (n_ofZ N) zb)) = true <-> (exact za < exact zb)%Q) by (intros; apply (mean_order sum Hsum (length ts) D); auto).
      split; [rewrite Z2, Z2', Z3, Z3'; apply O; assumption|]. intros Hb. pose proof (sorted_before _ _ _ _ HS Hb) as H2. cbn [snd] in H2.
      rewrite Z2, Z2'. apply Qnot_lt_le. intros L. apply (O zs' zs Z1' Z1) in L. rewrite <- Z3, <- Z3' in L.
      unfold le_dir, le_asc in H2. cbn [n_isnan n_ltb fl64] in H2.
      apply SFltb_rank in L as L'. destruct L' as (N1 & N2 & _). rewrite N1, N2 in H2. change (negb (SFltb v' v) = true) in H2. rewrite L in H2. discriminate.
  Qed.
  (** the value of a row is a moderate number *)
  Lemma row_size s m names ts ovo r i j q : fo_names m = Some names -> NoDup names -> Forall2 stored (fo_trees m) ts -> Forall depth_first ts -> fo_trees m <> [] -> moderate ts ->
    cs_ovo (fst (cmd_fit N srt s m)) = Some ovo -> In r ovo -> nth_error names i = Some (cr_root r) -> nth_error names j = Some (cr_var r) -> mean_report ts i j q ->
    finite (cr_value r) /\ (Z.abs (tiny (cr_value r)) <= 2 ^ 2096)%Z.
  Proof.
    intros En Hnd HF Hdf Hne (D & HD & HT) Eo Hr Hi Hj (vals' & HR' & Hne' & Eq0).
    assert (D0 : 1 <= D). { destruct ts as [|t ts]; [destruct (fo_trees m); [congruence|inversion HF]|]. inversion HD; subst. pose proof (height_pos t). lia. }
    destruct (row_reports s m names ts ovo r En Hnd HF Hdf Hne Eo Hr) as (i' & j' & vals & Hij & (D1 & D2 & Dn & Dv & _) & HR).
    assert (i' = i) as ->. { apply (proj1 (NoDup_nth_error names) Hnd); [apply nth_error_Some; congruence|congruence]. }
    assert (j' = j) as ->. { apply (proj1 (NoDup_nth_error names) Hnd); [apply nth_error_Some; congruence|congruence]. }
    rewrite <- (reports_all_fun ts i j vals vals' HR HR') in *. destruct (reports_somes D ts i j vals HR HD) as [Hz Hl]. rewrite (Dv Hne').
    set (zs := somes (map fst vals)) in *. assert (Hsm : small (length ts) D zs) by (split; [exact Hne'|split; [exact Hl|exact Hz]]).
    destruct (small_facts (length ts) D zs D0 HT Hsm) as (Hc & Hl' & Hk & B1 & B2).
    destruct (zmean_spec sum Hsum zs Hne') as [Hf Hn]; [rewrite zsum_nonneg_abs by exact Hc; lia|lia|]. split; [exact Hf|]. specialize (Hn f_zero I).
    change (np_mean N (map (n_ofZ N) zs)) with (zmean sum zs). change (tiny f_zero) with 0%Z in Hn. set (v := tiny (zmean sum zs)) in *. pose proof unit1_pos as Hu.
    assert (U : (2 * (2 ^ 52 * unit1) <= 2 ^ 2096)%Z) by (vm_compute; discriminate).
    assert (Hk2 : (0 <= zsum zs * unit1 <= 2 ^ 52 * unit1)%Z) by (split; [nia|apply Z.mul_le_mono_nonneg_r; lia]).
    revert U Hk2 Hn. generalize (2 ^ 2096)%Z (zsum zs * unit1)%Z (2 ^ 52 * unit1)%Z. intros B K M U Hk2 Hn. set (n := Z.of_nat (length zs)) in *. clearbody v n. clear - U Hk2 Hn Hl'.
    rewrite Z.mul_0_l in Hn. assert (Z.abs (v * n) <= 2 * M)%Z by lia. rewrite Z.abs_mul, (Z.abs_eq n) in H by lia. nia.
  Qed.

  (** the comparison table gives a pair a value between those of its two directions *)
  Theorem C125_compare s m names ts ovo tab r1 r2 i j q1 q2 a b v : fo_names m = Some names -> NoDup names -> Forall2 stored (fo_trees m) ts -> Forall depth_first ts -> fo_trees m <> [] -> moderate ts ->
    cs_ovo (fst (cmd_fit N srt s m)) = Some ovo -> CompareFacts.no_collisions ovo -> cmd_compare_ovo N srt (fst (cmd_fit N srt s m)) = Ok tab ->
    In r1 ovo -> In r2 ovo -> cr_root r1 = cr_var r2 -> cr_var r1 = cr_root r2 -> nth_error names i = Some (cr_root r1) -> nth_error names j = Some (cr_var r1) ->
    mean_report ts i j q1 -> mean_report ts j i q2 -> fle (cr_value r1) (cr_value r2) ->
    In (a, b, v) tab -> (a = cr_root r1 /\ b = cr_var r1 \/ a = cr_root r2 /\ b = cr_var r2) ->
    finite v /\ fle (cr_value r1) v /\ fle v (cr_value r2).
  Proof.
    intros En Hnd HF Hdf Hne Hmod Eo Hcol Et H1 H2 E1 E2 Hi Hj Hq1 Hq2 Hle Hv Hab.
    destruct (row_size s m names ts ovo r1 i j q1) as [F1 B1]; auto. destruct (row_size s m names ts ovo r2 j i q2) as [F2 B2]; auto; try congruence.
    destruct (C38_summary N srt (fl64_ord sum) Hs s m names ts En Hnd HF Hne) as (ovo' & Eo' & HP & _ & _). rewrite Eo in Eo'. injection Eo' as <-.
    destruct (CompareFacts.compare_spec N srt _ ovo Eo Hcol Hs (fl64_ord sum)) as (tab' & Et' & _ & HR & _). rewrite Et in Et'. injection Et' as <-.
    destruct (HR _ _ _ Hv) as [_ ->].
    assert (Hn1 : NoDup (map (fun r => (cr_root r, cr_var r)) ovo)).
    { apply (Permutation_NoDup (Permutation_sym HP)). apply NoDup_filter, list_prod_NoDup; assumption. }
    assert (Hne1 : cr_root r1 <> cr_var r1).
    { assert (Hin : In (cr_root r1, cr_var r1) (map (fun r => (cr_root r, cr_var r)) ovo)) by (apply (in_map (fun r => (cr_root r, cr_var r)) ovo r1 H1)).
      apply (Permutation_in _ HP) in Hin. apply filter_In in Hin as [_ Hin]. cbn [fst snd] in Hin. apply negb_true_iff, String.eqb_neq in Hin. exact Hin. }
    assert (HQ : Permutation (filter (CompareFacts.about a b) ovo) [r1; r2]).
    { destruct Hab as [[-> ->]|[-> ->]]; [apply CompareFacts.about_two; assumption|]. etransitivity; [apply (CompareFacts.about_two ovo r2 r1); auto; try congruence; intros X; apply Hne1; congruence|]. apply perm_swap. }
    assert (Hnn : forall x, finite x -> negb (n_isnan N x) = true) by (intros x Hx; apply finite_num in Hx; cbn [n_isnan fl64]; rewrite Hx; reflexivity).
    apply (Permutation_map cr_value) in HQ. cbn [map] in HQ. apply Permutation_sym, Permutation_length_2_inv in HQ. destruct HQ as [E|E]; rewrite E; unfold mean_skip; cbn [filter]; rewrite !Hnn by assumption.
    - apply (mean_two_between sum Hsum); assumption.
    - apply (mean_two_comm sum Hsum); assumption.
  Qed.
End Forest.

Definition float_forest : forest := {| fo_names := Some ["x"; "y"; "z"; "w"]; fo_trees := [ex_arrays; ex_arrays; ex_arrays_two] |}.
(** the hypotheses hold for a forest whose second row has the mean 1 / 3 *)
Example C125_example : let ts := [ex_tree; ex_tree; ex_tree_two] in
  Forall2 stored (fo_trees float_forest) ts /\ Forall depth_first ts /\ moderate ts
  /\ option_map (map (fun r => (cr_root r, cr_var r, cr_value r))) (option_map (firstn 2) (cs_ovo (fst (cmd_fit (fl64 seq_sum) isort cs_init float_forest))))
     = Some [("x", "y", S754_zero false); ("y", "x", S754_finite false 6004799503160661 (-54))]
  /\ cs_fi (fst (cmd_fit (fl64 seq_sum) isort cs_init float_forest))
     = Some [("x", f_ofZ 0); ("y", f_ofZ 1); ("w", f_ofZ 2); ("z", f_ofZ 4)].
Proof.
  split; [repeat (apply Forall2_cons; [first [exact ex_stored|exact ex_stored_two]|]); apply Forall2_nil|].
  split; [repeat constructor|]. split; [exists 6; split; [repeat constructor|vm_compute; reflexivity]|]. split; vm_compute; reflexivity.
Qed.

Print Assumptions C125_rounded.
Print Assumptions C125_order.
Print Assumptions C125_importance.
Print Assumptions C125_compare.
