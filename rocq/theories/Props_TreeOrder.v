(** C128, C129: the order of the trees in a model does not matter. *)
From Verif Require Import Py Num NumR Float FloatRound FloatMono FloatOps FloatErr FloatInt NpSum Sorting Frame CondDepth TreeFacts ForestFacts SplitScore SplitFacts SplitTables SplitImp
  Props_Forest Props_ForestFloat Props_Split Props_SplitFloat.
From Verif Require Import Props_Split2.
From Coq Require Import Reals Lra ZArith SpecFloat QArith Qabs Qpower Lia.
Open Scope string_scope.
Open Scope nat_scope.
Open Scope list_scope.

(** ** Lists *)
Lemma perm_Forall2_fun {A B} (P : A -> B -> Prop) (HP : forall a b b', P a b -> P a b' -> b = b') l1 l2 v1 v2 :
  Permutation l1 l2 -> Forall2 P l1 v1 -> Forall2 P l2 v2 -> Permutation v1 v2.
Proof.
  intros H H1 H2. destruct (Permutation_Forall2 H H1) as (v & Hv & HF). replace v2 with v; [exact Hv|]. clear -HP HF H2. revert v2 H2. induction HF; intros v2 H2; inversion H2; subst; [reflexivity|]. f_equal; eauto.
Qed.
Lemma somes_perm {A} (l l' : list (option A)) : Permutation l l' -> Permutation (somes l) (somes l').
Proof. intros H. unfold somes. apply Permutation_flat_map, H. Qed.
Lemma filter_perm {A} (p : A -> bool) l l' : Permutation l l' -> Permutation (filter p l) (filter p l').
Proof. induction 1; cbn; repeat match goal with |- context [if ?b then _ else _] => destruct b end; eauto using Permutation. Qed.
Lemma dedup_perm l l' : Permutation l l' -> Permutation (dedup_by String.eqb l) (dedup_by String.eqb l').
Proof.
  intros H. apply NoDup_Permutation; [apply (dedup_string l)|apply (dedup_string l')|]. intros x. rewrite (proj2 (dedup_string l)), (proj2 (dedup_string l')). split; apply Permutation_in; [exact H|symmetry; exact H].
Qed.
(** tables with the same keys and the same value for each key *)
Lemma tables_perm {A B} (key : A -> B) (t1 t2 : list A) : NoDup (map key t1) -> NoDup (map key t2) -> (forall k, In k (map key t1) <-> In k (map key t2)) ->
  (forall a b, In a t1 -> In b t2 -> key a = key b -> a = b) -> Permutation t1 t2.
Proof.
  intros N1 N2 HK HV. apply NoDup_Permutation; [exact (NoDup_map_inv _ _ N1)|exact (NoDup_map_inv _ _ N2)|]. intros x. split; intros H.
  - assert (Hk : In (key x) (map key t2)) by (apply HK, in_map, H). apply in_map_iff in Hk as (y & E & Hy). rewrite (HV x y H Hy (eq_sym E)). exact Hy.
  - assert (Hk : In (key x) (map key t1)) by (apply HK, in_map, H). apply in_map_iff in Hk as (y & E & Hy). rewrite <- (HV y x Hy H E). exact Hy.
Qed.

(** ** Forests *)
Section Forest.
  Context {V : Type} (N1 N2 : num_ops V) (srt : sorter) (Hs : sorter_ok srt) (Ho1 : num_ord_ok N1) (Ho2 : num_ord_ok N2) (Hnan : n_nan N1 = n_nan N2).
  Notation reported i j := (fun T v => exists dep sp, bfs T = Ok (dep, sp) /\ v = cmd_pair dep sp i j).

  Lemma forest_pairs s1 s2 m1 m2 names ts : fo_names m1 = Some names -> fo_names m2 = Some names -> NoDup names -> Permutation (fo_trees m1) (fo_trees m2) ->
    Forall2 stored (fo_trees m1) ts -> fo_trees m1 <> [] ->
    (forall i j vals vals', Forall2 (reported i j) (fo_trees m1) vals -> Permutation vals vals' -> somes (map fst vals) <> [] ->
       np_mean N1 (map (n_ofZ N1) (somes (map fst vals))) = np_mean N2 (map (n_ofZ N2) (somes (map fst vals')))) ->
    exists ovo1 ovo2, cs_ovo (fst (cmd_fit N1 srt s1 m1)) = Some ovo1 /\ cs_ovo (fst (cmd_fit N2 srt s2 m2)) = Some ovo2 /\ Permutation ovo1 ovo2.
  Proof.
    intros E1 E2 Hnd HP HF Hne HM. destruct (Permutation_Forall2 HP HF) as (ts2 & _ & HF2).
    assert (Hne2 : fo_trees m2 <> []) by (intros E; rewrite E in HP; apply Permutation_sym, Permutation_nil in HP; contradiction).
    destruct (C38_summary N1 srt Ho1 Hs s1 m1 names ts E1 Hnd HF Hne) as (o1 & EO1 & K1 & D1 & _). destruct (C38_summary N2 srt Ho2 Hs s2 m2 names ts2 E2 Hnd HF2 Hne2) as (o2 & EO2 & K2 & D2 & _).
    exists o1, o2. split; [exact EO1|]. split; [exact EO2|].
    assert (Hpair : NoDup (filter (fun p => negb (String.eqb (fst p) (snd p))) (list_prod names names))) by (apply NoDup_filter, list_prod_NoDup; assumption).
    apply (tables_perm (fun r => (cr_root r, cr_var r))).
    - apply (Permutation_NoDup (Permutation_sym K1) Hpair).
    - apply (Permutation_NoDup (Permutation_sym K2) Hpair).
    - intros k. split; intros H; [apply (Permutation_in _ (Permutation_sym K2)), (Permutation_in _ K1), H|apply (Permutation_in _ (Permutation_sym K1)), (Permutation_in _ K2), H].
    - intros a b Ha Hb E. destruct (D1 a Ha) as (i & j & vals & _ & (A1 & A2 & A3 & A4 & A5) & HV). destruct (D2 b Hb) as (i' & j' & vals' & _ & (B1 & B2 & B3 & B4 & B5) & HV').
      assert (E' : cr_root a = cr_root b /\ cr_var a = cr_var b) by (split; congruence). destruct E' as [Er Ev].
      assert (i' = i) as ->. { apply (proj1 (NoDup_nth_error names) Hnd); [apply nth_error_Some; congruence|congruence]. }
      assert (j' = j) as ->. { apply (proj1 (NoDup_nth_error names) Hnd); [apply nth_error_Some; congruence|congruence]. }
      assert (Hvv : Permutation vals vals').
      { refine (perm_Forall2_fun _ _ _ _ _ _ HP HV HV'). intros T v v' (dep & sp & Eb & ->) (dep' & sp' & Eb' & ->). rewrite Eb in Eb'. assert (dep' = dep) by congruence. assert (sp' = sp) by congruence. subst. reflexivity. }
      assert (Hss : Permutation (somes (map fst vals)) (somes (map fst vals'))) by (apply somes_perm, Permutation_map, Hvv).
      assert (Eocc : cr_occ a = cr_occ b) by (rewrite A5, B5; apply Permutation_length, filter_perm, Hvv).
      assert (Eval : cr_value a = cr_value b).
      { destruct (somes (map fst vals)) as [|z zs] eqn:Ez.
        - apply Permutation_nil in Hss. rewrite (A3 eq_refl), (B3 Hss). exact Hnan.
        - rewrite <- Ez in *. assert (Hz : somes (map fst vals) <> []) by (rewrite Ez; discriminate). rewrite (A4 Hz), B4; [apply (HM i j vals vals' HV Hvv Hz)|].
          intros E0. rewrite E0 in Hss. apply Permutation_sym, Permutation_nil in Hss. contradiction. }
      destruct a, b. cbn in *. congruence.
  Qed.

  Lemma forest_importance s1 s2 m1 m2 names ts : fo_names m1 = Some names -> fo_names m2 = Some names -> Permutation (fo_trees m1) (fo_trees m2) ->
    Forall2 stored (fo_trees m1) ts -> known_features (length names) ts -> (exists t f, In t ts /\ feature_nodes f t <> []) ->
    (forall f ts', Permutation ts ts' -> used_in ts f = true ->
       np_mean N1 (map (fun d => n_ofZ N1 (Z.of_nat d)) (somes (map (first_use f) ts))) = np_mean N2 (map (fun d => n_ofZ N2 (Z.of_nat d)) (somes (map (first_use f) ts')))) ->
    exists fi1 fi2, snd (cmd_fit N1 srt s1 m1) = Ok tt /\ snd (cmd_fit N2 srt s2 m2) = Ok tt
      /\ cs_fi (fst (cmd_fit N1 srt s1 m1)) = Some fi1 /\ cs_fi (fst (cmd_fit N2 srt s2 m2)) = Some fi2 /\ Permutation fi1 fi2.
  Proof.
    intros E1 E2 HP HF Hk Hu HM. destruct (Permutation_Forall2 HP HF) as (ts2 & Hts & HF2).
    assert (Hk2 : known_features (length names) ts2) by (intros f t Ht; apply (Hk f t), (Permutation_in _ (Permutation_sym Hts)), Ht).
    assert (Hu2 : exists t f, In t ts2 /\ feature_nodes f t <> []) by (destruct Hu as (t & f & Ht & Hf); exists t, f; split; [apply (Permutation_in _ Hts), Ht|exact Hf]).
    destruct (C39_importance N1 srt Ho1 Hs s1 m1 names ts E1 HF Hk Hu) as (fi1 & O1 & F1 & P1 & _). destruct (C39_importance N2 srt Ho2 Hs s2 m2 names ts2 E2 HF2 Hk2 Hu2) as (fi2 & O2 & F2 & P2 & _).
    exists fi1, fi2. split; [exact O1|]. split; [exact O2|]. split; [exact F1|]. split; [exact F2|]. rewrite P1, P2.
    assert (EU : forall f, used_in ts2 f = used_in ts f).
    { intros f. apply Bool.eq_iff_eq_true. rewrite !used_in_iff. split; intros (t & Ht & H); exists t; (split; [|exact H]); [apply (Permutation_in _ (Permutation_sym Hts)), Ht|apply (Permutation_in _ Hts), Ht]. }
    rewrite (filter_ext _ _ EU). rewrite (map_ext_in (importance_row N1 names ts) (importance_row N2 names ts2)); [reflexivity|].
    intros f Hf. apply filter_In in Hf as [_ Hf]. unfold importance_row. f_equal. apply (HM f ts2 Hts Hf).
  Qed.
End Forest.

(** equal doubles *)
Lemma nonneg_equal x y : finite x -> finite y -> fge0 x -> fge0 y -> tiny x = tiny y -> x = y.
Proof.
  assert (G : forall m e m' e', finite (S754_finite false m e) -> finite (S754_finite false m' e') -> (e < e')%Z -> (Z.pos m * 2 ^ (e - -1074) <> Z.pos m' * 2 ^ (e' - -1074))%Z).
  { intros m e m' e' H H' L E. destruct (bnd_spec m e H) as (_ & B1 & B2 & B3 & _). destruct (bnd_spec m' e' H') as (_ & C1 & C2 & C3 & C4). specialize (C4 ltac:(lia)).
    replace (e' - -1074)%Z with ((e' - e - 1) + 1 + (e - -1074))%Z in E by lia. rewrite !Z.pow_add_r in E by lia. assert (0 < 2 ^ (e - -1074))%Z by (apply Z.pow_pos_nonneg; lia).
    assert (1 <= 2 ^ (e' - e - 1))%Z by (change 1%Z with (2 ^ 0)%Z at 1; apply Z.pow_le_mono_r; lia). change (2 ^ 1)%Z with 2%Z in E.
    assert (E' : (Z.pos m = Z.pos m' * (2 ^ (e' - e - 1) * 2))%Z) by nia. change (2 ^ 53)%Z with (2 * 2 ^ 52)%Z in B3. nia. }
  intros Hx Hy Gx Gy E. destruct x as [s|s| |s m e], y as [s'|s'| |s' m' e']; try contradiction; cbn in Gx, Gy; subst; unfold tiny in E; cbn [units cond_Zopp] in E.
  - reflexivity.
  - exfalso. destruct (bnd_spec m' e' Hy) as (_ & _ & B & _). assert (0 < 2 ^ (e' - -1074))%Z by (apply Z.pow_pos_nonneg; lia). nia.
  - exfalso. destruct (bnd_spec m e Hx) as (_ & _ & B & _). assert (0 < 2 ^ (e - -1074))%Z by (apply Z.pow_pos_nonneg; lia). nia.
  - destruct (Z.lt_trichotomy e e') as [L|[->|L]].
    + exfalso. apply (G m e m' e' Hx Hy L E).
    + destruct (bnd_spec m e' Hx) as (_ & _ & B & _). assert (0 < 2 ^ (e' - -1074))%Z by (apply Z.pow_pos_nonneg; lia). assert (Z.pos m = Z.pos m') by nia. congruence.
    + exfalso. apply (G m' e' m e Hy Hx L (eq_sym E)).
Qed.

Section Doubles.
  Context (sum1 sum2 : list F -> F) (H1 : forall l, added l (sum1 l)) (H2 : forall l, added l (sum2 l)).
  Lemma mean_perm T D zs zs' : 1 <= D -> (2 * Z.of_nat T * Z.of_nat T * Z.of_nat D < 2 ^ 52)%Z -> small T D zs -> Permutation zs zs' ->
    np_mean (fl64 sum1) (map f_ofZ zs) = np_mean (fl64 sum2) (map f_ofZ zs').
  Proof.
    intros HD HT Hsm HP. destruct (small_facts T D zs HD HT Hsm) as (Hc & Hl & Hk & B1 & B2).
    assert (Hc' : counts zs') by (unfold counts in *; rewrite Forall_forall in *; intros z Hz; apply Hc, (Permutation_in _ (Permutation_sym HP)), Hz).
    change (np_mean (fl64 sum1) (map f_ofZ zs)) with (zmean sum1 zs). change (np_mean (fl64 sum2) (map f_ofZ zs')) with (zmean sum2 zs'). rewrite !zmean_eq, <- (Permutation_length HP). f_equal.
    destruct (sum_exact _ _ (H1 (map f_ofZ zs)) zs eq_refl) as [F1 T1]; [rewrite zsum_nonneg_abs by exact Hc; lia|].
    destruct (sum_exact _ _ (H2 (map f_ofZ zs')) zs' eq_refl) as [F2 T2]; [rewrite zsum_nonneg_abs by exact Hc'; rewrite <- (zsum_perm _ _ HP); lia|].
    assert (GG : forall l, counts l -> Forall fge0 (map f_ofZ l)) by (intros l Hl'; apply Forall_map; eapply Forall_impl; [|exact Hl']; intros z Hz; apply f_ofZ_nonneg, Hz).
    apply nonneg_equal; [exact F1|exact F2|apply (added_nonneg _ _ (H1 _)), GG, Hc|apply (added_nonneg _ _ (H2 _)), GG, Hc'|]. rewrite T1, T2, (zsum_perm _ _ HP). reflexivity.
  Qed.
End Doubles.

(** ** C128 *)
Section C128.
  Context (srt : sorter) (Hs : sorter_ok srt).

  (** exact arithmetic: forests of any size *)
  Lemma xR_mean_perm {A} (f : A -> R) (l l' : list A) : Permutation l l' -> l <> [] -> np_mean xR (map (fun a => Fin (f a)) l) = np_mean xR (map (fun a => Fin (f a)) l').
  Proof.
    intros HP Hne. assert (l' <> []) by (intros E; rewrite E in HP; apply Permutation_sym, Permutation_nil in HP; contradiction).
    rewrite <- !(map_map f Fin), !xR_mean_fin by (intros E; apply map_eq_nil in E; contradiction). f_equal. apply Rmean_perm, Permutation_map, HP.
  Qed.

  Theorem C128_exact s1 s2 m1 m2 names ts : fo_names m1 = Some names -> fo_names m2 = Some names -> NoDup names -> Permutation (fo_trees m1) (fo_trees m2) ->
    Forall2 stored (fo_trees m1) ts -> fo_trees m1 <> [] ->
    (exists ovo1 ovo2, cs_ovo (fst (cmd_fit xR srt s1 m1)) = Some ovo1 /\ cs_ovo (fst (cmd_fit xR srt s2 m2)) = Some ovo2 /\ Permutation ovo1 ovo2)
    /\ (known_features (length names) ts -> (exists t f, In t ts /\ feature_nodes f t <> []) ->
        exists fi1 fi2, snd (cmd_fit xR srt s1 m1) = Ok tt /\ snd (cmd_fit xR srt s2 m2) = Ok tt
          /\ cs_fi (fst (cmd_fit xR srt s1 m1)) = Some fi1 /\ cs_fi (fst (cmd_fit xR srt s2 m2)) = Some fi2 /\ Permutation fi1 fi2).
  Proof.
    intros E1 E2 Hnd HP HF Hne. split.
    - apply (forest_pairs xR xR srt Hs xR_ord xR_ord eq_refl s1 s2 m1 m2 names ts); auto. intros i j vals vals' _ Hv Hz.
      apply (xR_mean_perm IZR); [apply somes_perm, Permutation_map, Hv|exact Hz].
    - intros Hk Hu. apply (forest_importance xR xR srt Hs xR_ord xR_ord s1 s2 m1 m2 names ts); auto. intros f ts' Ht Hf.
      apply (xR_mean_perm (fun d => IZR (Z.of_nat d))); [apply somes_perm, Permutation_map, Ht|]. unfold used_in in Hf. apply existsb_exists in Hf as (t & Ht' & Hf). destruct (first_use f t) as [d|] eqn:Ed; [|discriminate].
      intros E0. assert (Hin : In d (somes (map (first_use f) ts))) by (apply Props_ForestFloat.somes_In; rewrite <- Ed; apply in_map, Ht'). rewrite E0 in Hin. destruct Hin.
  Qed.

  (** double precision: the same bits for forests of moderate size, also when the additions are
      grouped differently *)
  Theorem C128_doubles sum1 sum2 s1 s2 m1 m2 names ts : (forall l, added l (sum1 l)) -> (forall l, added l (sum2 l)) ->
    fo_names m1 = Some names -> fo_names m2 = Some names -> NoDup names -> Permutation (fo_trees m1) (fo_trees m2) ->
    Forall2 stored (fo_trees m1) ts -> Forall depth_first ts -> fo_trees m1 <> [] -> moderate ts ->
    (exists ovo1 ovo2, cs_ovo (fst (cmd_fit (fl64 sum1) srt s1 m1)) = Some ovo1 /\ cs_ovo (fst (cmd_fit (fl64 sum2) srt s2 m2)) = Some ovo2 /\ Permutation ovo1 ovo2)
    /\ (known_features (length names) ts -> (exists t f, In t ts /\ feature_nodes f t <> []) ->
        exists fi1 fi2, snd (cmd_fit (fl64 sum1) srt s1 m1) = Ok tt /\ snd (cmd_fit (fl64 sum2) srt s2 m2) = Ok tt
          /\ cs_fi (fst (cmd_fit (fl64 sum1) srt s1 m1)) = Some fi1 /\ cs_fi (fst (cmd_fit (fl64 sum2) srt s2 m2)) = Some fi2 /\ Permutation fi1 fi2).
  Proof.
    intros Hs1 Hs2 E1 E2 Hnd HP HF Hdf Hne (D & HD & HT).
    assert (D0 : 1 <= D). { destruct ts as [|t ts]; [destruct (fo_trees m1); [congruence|inversion HF]|]. inversion HD; subst. pose proof (height_pos t). lia. }
    split.
    - apply (forest_pairs (fl64 sum1) (fl64 sum2) srt Hs (fl64_ord sum1) (fl64_ord sum2) eq_refl s1 s2 m1 m2 names ts); auto. intros i j vals vals' HV Hv Hz.
      assert (HR : Forall2 (fun t v => reports t i j v) ts vals).
      { clear -HF Hdf HV. revert vals HV. induction HF as [|T t trees ts H HF IH]; intros vals HV; inversion HV as [|? v ? vs (dep & sp & E & ->) HV']; subst; [constructor|].
        inversion Hdf; subst. constructor; [|auto]. apply (C36_conditional_depth T); assumption. }
      destruct (reports_somes D ts i j vals HR HD) as [Hb Hl].
      apply (mean_perm sum1 sum2 Hs1 Hs2 (length ts) D); auto; [split; [exact Hz|split; [exact Hl|exact Hb]]|]. apply somes_perm, Permutation_map, Hv.
    - intros Hk Hu. apply (forest_importance (fl64 sum1) (fl64 sum2) srt Hs (fl64_ord sum1) (fl64_ord sum2) s1 s2 m1 m2 names ts); auto. intros f ts' Ht Hf.
      destruct (first_use_small D ts f HD) as [Hb Hl].
      rewrite <- (map_map Z.of_nat (n_ofZ (fl64 sum1)) (somes (map (first_use f) ts))), <- (map_map Z.of_nat (n_ofZ (fl64 sum2)) (somes (map (first_use f) ts'))).
      apply (mean_perm sum1 sum2 Hs1 Hs2 (length ts) D); auto; [|apply Permutation_map, somes_perm, Permutation_map, Ht]. split; [|split; [exact Hl|exact Hb]].
      unfold used_in in Hf. apply existsb_exists in Hf as (t & Ht' & Hf). destruct (first_use f t) as [d|] eqn:Ed; [|discriminate].
      intros E0. apply map_eq_nil in E0. assert (Hin : In d (somes (map (first_use f) ts))) by (apply Props_ForestFloat.somes_In; rewrite <- Ed; apply in_map, Ht'). rewrite E0 in Hin. destruct Hin.
  Qed.
End C128.

(** ** Boosted ensembles *)
Lemma nodes_perm {V} (ts1 ts2 : list (gtree V)) Ls1 Ls2 : Permutation ts1 ts2 -> Forall2 listing ts1 Ls1 -> Forall2 listing ts2 Ls2 -> Permutation (concat Ls1) (concat Ls2).
Proof.
  intros HP H1 H2.
  assert (G : forall (ts : list (gtree V)) Ls, Forall2 listing ts Ls -> Permutation (concat Ls) (flat_map (entries None 0) ts)).
  { clear. induction 1 as [|t L ts Ls H HF IH]; [reflexivity|]. cbn. apply Permutation_app; [apply (ls_perm t L H)|exact IH]. }
  rewrite (G _ _ H1), (G _ _ H2). apply Permutation_flat_map, HP.
Qed.
Lemma fitted_listing {V} (arg : fit_arg V) pk ts Ls : fitted_on arg pk ts Ls -> Forall2 listing ts Ls.
Proof. intros (m & (zs & _ & _ & HF & _) & _). exact HF. Qed.
Lemma deep_perm {V} (E E' : list (entry V)) : Permutation E E' -> deep E -> deep E'.
Proof. intros HP (e & He & H). exists e. split; [apply (Permutation_in _ HP), He|exact H]. Qed.
Lemma no_leaf_perm {V} (ts1 ts2 : list (gtree V)) : Permutation ts1 ts2 -> no_leaf_name ts1 -> no_leaf_name ts2.
Proof. intros HP H t e Ht. apply H. apply (Permutation_in _ (Permutation_sym HP)), Ht. Qed.

Section Boosted.
  Context {V X : Type} (N1 N2 : num_ops V) (srt : sorter) (Hs : sorter_ok srt) (Ho1 : num_ord_ok N1) (Ho2 : num_ord_ok N2).
  Context (same_choice : forall od (e : entry V), chosen N1 od e = chosen N2 od e).
  Context (s1 s2 : sstate V) (arg1 arg2 : fit_arg V) (pk : package) (ts1 ts2 : list (gtree V)) (Ls1 Ls2 : list (list (entry V))) (im fm : string) (od : bool).
  Context (Hf1 : fitted_on arg1 pk ts1 Ls1) (Hf2 : fitted_on arg2 pk ts2 Ls2) (HP : Permutation ts1 ts2) (Hn : no_leaf_name ts1).
  Context (Ha1 : metric_allowed pk im) (Ha2 : metric_allowed pk fm).

  Lemma boosted_pairs v1 v2 (p : orow -> X) : pair_column N1 im v1 -> pair_column N2 im v2 -> deep (concat Ls1) ->
    (forall k g g', incl g (concat Ls1) -> length g <= length (concat Ls1) -> g <> [] -> Permutation g g' -> p (pair_of_nodes N1 k g) = p (pair_of_nodes N2 k g')) ->
    exists fo1 fo2, ss_full_ovo (fst (ss_fit N1 srt s1 arg1 im fm od)) = Some fo1 /\ ss_full_ovo (fst (ss_fit N2 srt s2 arg2 im fm od)) = Some fo2
      /\ Permutation (map (fun r => (okey r, p r)) fo1) (map (fun r => (okey r, p r)) fo2).
  Proof.
    intros Hc1 Hc2 Hd Hp. pose proof (nodes_perm ts1 ts2 Ls1 Ls2 HP (fitted_listing _ _ _ _ Hf1) (fitted_listing _ _ _ _ Hf2)) as HE.
    destruct (C43_tables N1 srt Hs Ho1 s1 arg1 pk ts1 Ls1 im fm od v1 Hf1 (fun _ => Hn) Hc1 Ha1 Ha2 Hd) as (fo1 & E1 & D1 & K1 & R1 & _).
    destruct (C43_tables N2 srt Hs Ho2 s2 arg2 pk ts2 Ls2 im fm od v2 Hf2 (fun _ => no_leaf_perm _ _ HP Hn) Hc2 Ha1 Ha2 (deep_perm _ _ HE Hd)) as (fo2 & E2 & D2 & K2 & R2 & _).
    exists fo1, fo2. split; [exact E1|]. split; [exact E2|].
    assert (HK : forall k, In k (map okey fo1) <-> In k (map okey fo2)).
    { intros k. rewrite K1, K2. split; intros (e & He & H1 & H2); exists e.
      - split; [apply (Permutation_in _ HE), He|]. rewrite <- same_choice. split; assumption.
      - split; [apply (Permutation_in _ (Permutation_sym HE)), He|]. rewrite same_choice. split; assumption. }
    apply (tables_perm fst); rewrite ?map_map; cbn [fst]; try assumption.
    intros a b Ha Hb Eab. apply in_map_iff in Ha as (ra & <- & Ha). apply in_map_iff in Hb as (rb & <- & Hb). cbn [fst] in Eab. f_equal; [exact Eab|].
    set (k := okey ra) in *. pose proof (R1 ra Ha) as Xa. pose proof (R2 rb Hb) as Xb. rewrite <- Eab in Xb. fold k in Xa.
    rewrite Xa, Xb. apply Hp; [apply filter_incl|apply filter_le| |].
    - destruct (proj1 (K1 k) (in_map _ _ _ Ha)) as (e & He & H1 & H2). intros E0. assert (Hin : In e (filter (fun e => chosen N1 od e && epairb k e) (concat Ls1))).
      { apply filter_In. split; [exact He|]. rewrite H1. unfold epairb. rewrite H2. apply Props_Split.pair_eqb_eq. reflexivity. }
      rewrite E0 in Hin. destruct Hin.
    - rewrite (filter_ext (fun e => chosen N2 od e && epairb k e) (fun e => chosen N1 od e && epairb k e)) by (intros e; rewrite same_choice; reflexivity). apply filter_perm, HE.
  Qed.

  Lemma boosted_features v1 v2 w : pair_column N1 im v1 -> pair_column N2 im v2 -> feature_column fm w ->
    snd (ss_fit N1 srt s1 arg1 im fm od) = Ok tt -> snd (ss_fit N2 srt s2 arg2 im fm od) = Ok tt ->
    (forall f E E', incl E (concat Ls1) -> length E <= length (concat Ls1) -> filter (splits_onb f) E <> [] -> Permutation E E' -> w (irow_of_nodes N1 E f) = w (irow_of_nodes N2 E' f)) ->
    exists fi1 fi2, ss_fi (fst (ss_fit N1 srt s1 arg1 im fm od)) = Some fi1 /\ ss_fi (fst (ss_fit N2 srt s2 arg2 im fm od)) = Some fi2 /\ Permutation fi1 fi2.
  Proof.
    intros Hc1 Hc2 Hw O1 O2 Hp. pose proof (nodes_perm ts1 ts2 Ls1 Ls2 HP (fitted_listing _ _ _ _ Hf1) (fitted_listing _ _ _ _ Hf2)) as HE. pose proof (no_leaf_perm _ _ HP Hn) as Hn2.
    destruct (C48_fit N1 srt s1 arg1 pk ts1 Ls1 im fm od v1 Hf1 Hn Hc1 Ha1 Ha2 O1) as (rows1 & fi1 & U1 & I1 & E1).
    destruct (C48_fit N2 srt s2 arg2 pk ts2 Ls2 im fm od v2 Hf2 Hn2 Hc2 Ha1 Ha2 O2) as (rows2 & fi2 & U2 & I2 & E2).
    exists fi1, fi2. split; [exact E1|]. split; [exact E2|].
    destruct (C48_rows N1 srt Hs Ho1 pk ts1 Ls1 rows1 None fm w fi1 U1 Hn ltac:(discriminate) Hw I1) as (D1 & K1 & R1 & _).
    destruct (C48_rows N2 srt Hs Ho2 pk ts2 Ls2 rows2 None fm w fi2 U2 Hn2 ltac:(discriminate) Hw I2) as (D2 & K2 & R2 & _). cbv zeta in *.
    apply (tables_perm fst); try assumption.
    - intros f. rewrite K1, K2. split; intros ((e & He & H) & _); (split; [|exact I]); exists e; (split; [|exact H]); [apply (Permutation_in _ HE), He|apply (Permutation_in _ (Permutation_sym HE)), He].
    - intros [f x] [g y] Ha Hb Eab. cbn [fst] in Eab. subst g. f_equal. rewrite (R1 f x Ha), (R2 f y Hb). apply Hp; [apply filter_incl|apply filter_le| |apply filter_perm, HE].
      destruct (proj1 (K1 f) (in_map fst _ _ Ha)) as ((e & He & H) & _). intros E0. assert (Hin : In e (filter (splits_onb f) (filter (considered None) (concat Ls1)))).
      { apply filter_In. split; [apply filter_In; split; [exact He|unfold considered; rewrite H; reflexivity]|unfold splits_onb; rewrite H; apply String.eqb_refl]. }
      rewrite E0 in Hin. destruct Hin.
  Qed.
End Boosted.

(** ** C129 *)
(** real numbers extended by infinities and NaN: sums do not depend on the order *)
Lemma x_sum_perm l l' : Permutation l l' -> n_sum xR l = n_sum xR l'.
Proof.
  intros H. change (x_sum baseR l = x_sum baseR l'). unfold x_sum. induction H as [|x l l' H IH|x y l|l k m _ IH1 _ IH2]; cbn [fold_right]; [reflexivity|rewrite IH; reflexivity| |congruence].
  generalize (fold_right (x_add baseR) (Fin (f0 baseR)) l). intros z. destruct x, y, z; cbn; try reflexivity. f_equal. ring.
Qed.

Section C129.
  Context (srt : sorter) (Hs : sorter_ok srt).
  Context {V : Type} (N : num_ops V) (Ho : num_ord_ok N) (Hsum : forall l l', Permutation l l' -> n_sum N l = n_sum N l').

  Lemma sum_skip_perm l l' : Permutation l l' -> sum_skip N l = sum_skip N l'.
  Proof. intros H. apply Hsum, filter_perm, H. Qed.
  Lemma mean_skip_perm l l' : Permutation l l' -> mean_skip N l = mean_skip N l'.
  Proof.
    intros H. unfold mean_skip. pose proof (filter_perm (fun x => negb (n_isnan N x)) _ _ H) as HF.
    destruct (filter (fun x => negb (n_isnan N x)) l) as [|x k] eqn:E1; destruct (filter (fun x => negb (n_isnan N x)) l') as [|y k'] eqn:E2; try reflexivity.
    - apply Permutation_nil in HF. discriminate.
    - apply Permutation_sym, Permutation_nil in HF. discriminate.
    - unfold np_mean. rewrite (Hsum _ _ HF), (Permutation_length HF). reflexivity.
  Qed.
  Lemma pair_of_nodes_perm k g g' : Permutation g g' -> pair_of_nodes N k g = pair_of_nodes N k g'.
  Proof.
    intros H. unfold pair_of_nodes.
    rewrite (mean_skip_perm (map (egain N) g) (map (egain N) g')), (sum_skip_perm (map (egain N) g) (map (egain N) g')), (mean_skip_perm (somes (map ecover g)) (somes (map ecover g'))),
      (sum_skip_perm (somes (map ecover g)) (somes (map ecover g'))), (mean_skip_perm (map (edepth N) g) (map (edepth N) g')), (Permutation_length H); try reflexivity; try apply somes_perm; apply Permutation_map, H.
  Qed.
  Lemma root_sum_perm (E E' : list (entry V)) f : Permutation E E' -> root_sum N E f = root_sum N E' f.
  Proof. intros H. apply sum_skip_perm, Permutation_map, filter_perm, H. Qed.
  Lemma irow_perm f (E E' : list (entry V)) : Permutation E E' -> irow_of_nodes N E f = irow_of_nodes N E' f.
  Proof.
    intros H. unfold irow_of_nodes, weighted_depth. set (g := filter (splits_onb f) E). set (g' := filter (splits_onb f) E'). assert (Hg : Permutation g g') by apply filter_perm, H. cbv zeta.
    rewrite (Permutation_length (filter_perm root_node _ _ Hg)), (root_sum_perm _ _ f H).
    rewrite (mean_skip_perm (map (egain N) g) (map (egain N) g')), (sum_skip_perm (map (egain N) g) (map (egain N) g')), (mean_skip_perm (somes (map ecover g)) (somes (map ecover g'))),
      (sum_skip_perm (somes (map ecover g)) (somes (map ecover g'))), (mean_skip_perm (map (edepth N) g) (map (edepth N) g')); try apply somes_perm; try (apply Permutation_map, Hg).
    rewrite (Hsum (map (fun e => n_mul N (edepth N e) (egain N e)) g) (map (fun e => n_mul N (edepth N e) (egain N e)) g')), (Hsum (map (egain N) g) (map (egain N) g')) by apply Permutation_map, Hg.
    rewrite (map_ext_in (root_sum N E) (root_sum N E')) by (intros; apply root_sum_perm, H).
    rewrite (Hsum (map (root_sum N E') (root_features E)) (map (root_sum N E') (root_features E'))); [reflexivity|]. apply Permutation_map. unfold root_features. apply dedup_perm, somes_perm, Permutation_map, filter_perm, H.
  Qed.
End C129.

(** the method on an ensemble and on the same trees in another order *)
Theorem C129_exact_partial (srt : sorter) : sorter_ok srt -> forall s1 s2 arg1 arg2 pk ts1 ts2 Ls1 Ls2 im fm od v w,
  fitted_on arg1 pk ts1 Ls1 -> fitted_on arg2 pk ts2 Ls2 -> Permutation ts1 ts2 -> no_leaf_name ts1 ->
  pair_column xR im v -> feature_column (V := ext R) fm w -> metric_allowed pk im -> metric_allowed pk fm ->
  let r1 := ss_fit xR srt s1 arg1 im fm od in let r2 := ss_fit xR srt s2 arg2 im fm od in
  (* the same outcome *)
  snd r1 = snd r2
  (* and the same tables up to the order of tied rows *)
  /\ (deep (concat Ls1) -> exists fo1 fo2 ovo1 ovo2, ss_full_ovo (fst r1) = Some fo1 /\ ss_full_ovo (fst r2) = Some fo2 /\ Permutation fo1 fo2
        /\ ss_ovo (fst r1) = Some ovo1 /\ ss_ovo (fst r2) = Some ovo2 /\ Permutation ovo1 ovo2)
  /\ (snd r1 = Ok tt -> exists fi1 fi2, ss_fi (fst r1) = Some fi1 /\ ss_fi (fst r2) = Some fi2 /\ Permutation fi1 fi2).
Proof.
  intros Hs s1 s2 arg1 arg2 pk ts1 ts2 Ls1 Ls2 im fm od v w Hf1 Hf2 HP Hn Hc Hw Ha1 Ha2 r1 r2.
  pose proof (nodes_perm ts1 ts2 Ls1 Ls2 HP (fitted_listing _ _ _ _ Hf1) (fitted_listing _ _ _ _ Hf2)) as HE. pose proof (no_leaf_perm _ _ HP Hn) as Hn2.
  assert (EO : snd r1 = snd r2).
  { assert (G : forall E E' : list (entry (ext R)), Permutation E E' -> forall f, (exists e, In e E /\ efeat e = Some f) -> exists e, In e E' /\ efeat e = Some f)
      by (intros E E' H f (e & He & Hfe); exists e; split; [apply (Permutation_in _ H), He|exact Hfe]).
    assert (Gs : forall f, n_sum xR (map (egain xR) (filter (splits_onb f) (concat Ls1))) = n_sum xR (map (egain xR) (filter (splits_onb f) (concat Ls2)))) by (intros f; apply x_sum_perm, Permutation_map, filter_perm, HE).
    destruct (C45_fit_partial xR srt s1 arg1 pk ts1 Ls1 im fm od v w Hf1 Hn Hc Hw Ha1 Ha2) as [(A1 & A2 & A3)|[(A1 & A2)|(A1 & A2 & f & A3 & A4)]];
    destruct (C45_fit_partial xR srt s2 arg2 pk ts2 Ls2 im fm od v w Hf2 Hn2 Hc Hw Ha1 Ha2) as [(B1 & B2 & B3)|[(B1 & B2)|(B1 & B2 & g & B3 & B4)]]; unfold r1, r2; rewrite A1, B1; try reflexivity; exfalso.
    - apply B2, (deep_perm _ _ HE A2).
    - rewrite <- Gs, A3 in B4; [discriminate|]. apply (G _ _ (Permutation_sym HE) g B3).
    - apply A2, (deep_perm _ _ (Permutation_sym HE) B2).
    - apply A2, (deep_perm _ _ (Permutation_sym HE) B2).
    - rewrite Gs, B3 in A4; [discriminate|]. apply (G _ _ HE f A3).
    - apply B2, (deep_perm _ _ HE A2). }
  split; [exact EO|]. split.
  - intros Hd. destruct (boosted_pairs xR xR srt Hs xR_ord xR_ord (fun _ _ => eq_refl) s1 s2 arg1 arg2 pk ts1 ts2 Ls1 Ls2 im fm od Hf1 Hf2 HP Hn Ha1 Ha2 v v (fun r => r) Hc Hc Hd) as (fo1 & fo2 & E1 & E2 & HT).
    { intros k g g' _ _ _ Hg. apply pair_of_nodes_perm; [exact x_sum_perm|exact Hg]. }
    apply (Permutation_map snd) in HT. rewrite !map_map in HT. cbn [snd] in HT. rewrite !map_id in HT.
    destruct (C44_order xR srt Hs xR_ord s1 arg1 pk ts1 Ls1 im fm od v Hf1 (fun _ => Hn) Hc Ha1 Ha2 Hd) as (fa & ovo1 & Ea & O1 & P1 & _).
    destruct (C44_order xR srt Hs xR_ord s2 arg2 pk ts2 Ls2 im fm od v Hf2 (fun _ => Hn2) Hc Ha1 Ha2 (deep_perm _ _ HE Hd)) as (fb & ovo2 & Eb & O2 & P2 & _).
    assert (fa = fo1) by congruence. assert (fb = fo2) by congruence. subst fa fb.
    exists fo1, fo2, ovo1, ovo2. do 3 (split; [assumption|]). do 2 (split; [assumption|]). rewrite P1, P2. apply Permutation_map, HT.
  - intros H. refine (boosted_features xR xR srt Hs xR_ord xR_ord s1 s2 arg1 arg2 pk ts1 ts2 Ls1 Ls2 im fm od Hf1 Hf2 HP Hn Ha1 Ha2 v v w Hc Hc Hw H _ _); [unfold r1, r2 in *; congruence|].
    intros f E E' _ _ _ HE'. f_equal. apply irow_perm; [exact x_sum_perm|exact HE'].
Qed.

(** double precision: depths and counts to the last bit, also when the additions are grouped
    differently *)
Section Doubles2.
  Context (srt : sorter) (Hs : sorter_ok srt) (sum1 sum2 : list F -> F) (H1 : forall l, added l (sum1 l)) (H2 : forall l, added l (sum2 l)).
  Notation N1 := (fl64 sum1).
  Notation N2 := (fl64 sum2).

  Lemma depth_mean_perm E g g' : modest E -> incl g E -> length g <= length E -> g <> [] -> Permutation g g' -> mean_skip N1 (map (edepth N1) g) = mean_skip N2 (map (edepth N2) g').
  Proof.
    intros (D & D1 & HD & HT) Hi Hl Hne HP. assert (Hne' : g' <> []) by (intros E0; rewrite E0 in HP; apply Permutation_sym, Permutation_nil in HP; contradiction).
    destruct (modest_mean sum1 D E g D1 HD HT Hi Hl Hne) as [Hsm ->].
    destruct (modest_mean sum2 D E g' D1 HD HT) as [_ ->]; [intros e He; apply Hi, (Permutation_in _ (Permutation_sym HP)), He|rewrite <- (Permutation_length HP); exact Hl|exact Hne'|].
    apply (mean_perm sum1 sum2 H1 H2 (length E) D); auto. apply Permutation_map, HP.
  Qed.

  Context (s1 s2 : sstate F) (arg1 arg2 : fit_arg F) (pk : package) (ts1 ts2 : list (gtree F)) (Ls1 Ls2 : list (list (entry F))) (im fm : string) (od : bool).
  Context (Hf1 : fitted_on arg1 pk ts1 Ls1) (Hf2 : fitted_on arg2 pk ts2 Ls2) (HP : Permutation ts1 ts2) (Hn : no_leaf_name ts1).
  Context (Ha1 : metric_allowed pk im) (Ha2 : metric_allowed pk fm) (Hm : modest (concat Ls1)).
  Notation r1 := (ss_fit N1 srt s1 arg1 im fm od).
  Notation r2 := (ss_fit N2 srt s2 arg2 im fm od).

  Theorem C129_pair_depths_partial v1 v2 : pair_column N1 im v1 -> pair_column N2 im v2 -> deep (concat Ls1) ->
    exists fo1 fo2, ss_full_ovo (fst r1) = Some fo1 /\ ss_full_ovo (fst r2) = Some fo2
      /\ Permutation (map (fun r => (o_parent r, o_child r, o_mean_depth r, o_frequency r)) fo1) (map (fun r => (o_parent r, o_child r, o_mean_depth r, o_frequency r)) fo2).
  Proof.
    intros Hc1 Hc2 Hd.
    destruct (boosted_pairs N1 N2 srt Hs (fl64_ord sum1) (fl64_ord sum2) (fun _ _ => eq_refl) s1 s2 arg1 arg2 pk ts1 ts2 Ls1 Ls2 im fm od Hf1 Hf2 HP Hn Ha1 Ha2 v1 v2
                (fun r => (o_mean_depth r, o_frequency r)) Hc1 Hc2 Hd) as (fo1 & fo2 & E1 & E2 & HT).
    { intros k g g' Hi Hl Hne Hg. cbn [o_mean_depth o_frequency pair_of_nodes]. rewrite (Permutation_length Hg), (depth_mean_perm (concat Ls1) g g' Hm Hi Hl Hne Hg). reflexivity. }
    exists fo1, fo2. split; [exact E1|]. split; [exact E2|].
    apply (Permutation_map (fun x => (fst (fst x), snd (fst x), fst (snd x), snd (snd x)))) in HT. rewrite !map_map in HT. exact HT.
  Qed.

  Theorem C129_feature_depths_partial v1 v2 : pair_column N1 im v1 -> pair_column N2 im v2 -> fm = "mean_depth" \/ fm = "root_frequency" ->
    snd r1 = Ok tt -> snd r2 = Ok tt ->
    exists fi1 fi2, ss_fi (fst r1) = Some fi1 /\ ss_fi (fst r2) = Some fi2 /\ Permutation fi1 fi2.
  Proof.
    intros Hc1 Hc2 Hfm O1 O2. assert (Hw : exists w, feature_column (V:=F) fm w /\ forall f E E', incl E (concat Ls1) -> length E <= length (concat Ls1) -> filter (splits_onb f) E <> [] -> Permutation E E' ->
              w (irow_of_nodes N1 E f) = w (irow_of_nodes N2 E' f)).
    { destruct Hfm as [->| ->]; eexists; (split; [constructor|]); intros f E E' Hi Hl Hne HE; unfold irow_of_nodes; cbn [i_mean_depth i_root].
      - apply (depth_mean_perm (concat Ls1)); auto; [intros e He; apply Hi, (filter_incl _ _ _ He)|pose proof (filter_le (splits_onb f) E); lia|apply filter_perm, HE].
      - rewrite (Permutation_length (filter_perm root_node _ _ (filter_perm (splits_onb f) _ _ HE))). reflexivity. }
    destruct Hw as (w & Hw & Hp).
    exact (boosted_features N1 N2 srt Hs (fl64_ord sum1) (fl64_ord sum2) s1 s2 arg1 arg2 pk ts1 ts2 Ls1 Ls2 im fm od Hf1 Hf2 HP Hn Ha1 Ha2 v1 v2 w Hc1 Hc2 Hw O1 O2 Hp).
  Qed.
End Doubles2.

(** ** Examples *)
(** a model listing its trees from the root down *)
Lemma entries_parents {V} (t : gtree V) : forall p d l1 e l2 r, entries p d t = l1 ++ e :: l2 -> e_parent e = Some r -> (l1 = [] /\ p = Some r) \/ p = Some r \/ In (gid r) (map eid l1).
Proof.
  induction t as [i|i f g c l IHl r IHr]; intros p d l1 e l2 x E He.
  - destruct l1 as [|y l1]; [left; split; [reflexivity|]; cbn in E; injection E as <- _; exact He|destruct l1; discriminate].
  - cbn [entries] in E. destruct l1 as [|y l1]; [left; split; [reflexivity|]; cbn in E; injection E as <- _; exact He|]. cbn [app] in E. injection E as <- E. right. right. cbn [map].
    assert (HX : (exists k2, entries (Some (GSplit i f g c l r)) (S d) l = l1 ++ e :: k2) \/ exists k1 k2, l1 = entries (Some (GSplit i f g c l r)) (S d) l ++ k1 /\ entries (Some (GSplit i f g c l r)) (S d) r = k1 ++ e :: k2).
    { revert l1 E. generalize (entries (Some (GSplit i f g c l r)) (S d) l) as A. generalize (entries (Some (GSplit i f g c l r)) (S d) r) as B. clear. intros B A. induction A as [|a A IH]; intros l1 E.
      - right. exists l1, l2. split; [reflexivity|exact E].
      - destruct l1 as [|b l1]; cbn [app] in E; injection E as -> E; [left; exists A; reflexivity|]. destruct (IH l1 E) as [(k2 & ->)|(k1 & k2 & -> & ->)]; [left; exists k2; reflexivity|right; exists k1, k2; split; reflexivity]. }
    destruct HX as [(k2 & E')|(k1 & k2 & -> & E')].
    + destruct (IHl _ _ _ _ _ x E' He) as [[_ H]|[H|H]]; [left; injection H as <-; reflexivity|left; injection H as <-; reflexivity|right; exact H].
    + destruct (IHr _ _ _ _ _ x E' He) as [[_ H]|[H|H]]; [left; injection H as <-; reflexivity|left; injection H as <-; reflexivity|right; rewrite map_app; apply in_or_app; right; exact H].
Qed.
Lemma entries_listing {V} (t : gtree V) : NoDup (map eid (entries None 0 t)) -> listing t (entries None 0 t).
Proof.
  intros H. split; [reflexivity|exact H|]. intros l1 e l2 r E He. destruct (entries_parents t None 0 l1 e l2 r E He) as [[_ K]|[K|K]]; [discriminate K|discriminate K|exact K].
Qed.
Definition listed_row {V} (zero : V) (z : Z) (e : entry V) : xgb_row V :=
  match e_node e with
  | GLeaf i => {| x_tree := z; x_node := i; x_feature := "Leaf"; x_yes := None; x_no := None; x_gain := zero; x_cover := zero |}
  | GSplit i f g c l r => {| x_tree := z; x_node := i; x_feature := f; x_yes := Some (gid l); x_no := Some (gid r); x_gain := g; x_cover := match c with Some x => x | None => zero end |}
  end.
Definition model_of {V} (zero : V) (ts : list (gtree V)) : gb_model V :=
  {| gm_class := "xgboost.sklearn.XGBClassifier"; gm_dump := XDump (map (fun ze => listed_row zero (fst ze) (snd ze)) (tagged (map Z.of_nat (seq 0 (length ts))) (map (entries None 0) ts))) |}.
Lemma model_of_trained {V} (zero : V) ts : (forall t, In t ts -> gid t = 0 /\ NoDup (map eid (entries None 0 t)) /\ (forall e, In e (entries None 0 t) -> gsplit (e_node e) = true -> ecover e <> None)) ->
  fitted_on (Model (model_of zero ts)) Xgboost ts (map (entries None 0) ts).
Proof.
  intros H. exists (model_of zero ts). split; [|left; reflexivity]. exists (map Z.of_nat (seq 0 (length ts))). split; [apply zs_sorted|]. split; [rewrite !map_length, seq_length; reflexivity|]. split.
  - apply Forall2_map_self. intros t Ht. apply entries_listing, H, Ht.
  - exists "sklearn.XGBClassifier". eexists. split; [reflexivity|]. split; [reflexivity|]. split; [intros t Ht; apply H, Ht|].
    apply Forall2_map_self. intros [z e] He. unfold tagged in He. apply in_concat in He as (l & Hl & He). apply in_map_iff in Hl as ([z' L] & <- & HzL). apply in_map_iff in He as (e' & Ee & He). cbn [fst snd] in *.
    apply in_combine_r in HzL. apply in_map_iff in HzL as (t & <- & Ht). injection Ee as -> ->. destruct (H t Ht) as (_ & _ & Hc). specialize (Hc e He).
    unfold xgb_lists, listed_row, eid, ecover in *. destruct (e_node e) as [|i f g c lt rt]; cbn in *; [auto|]. destruct c; [repeat split|exfalso; apply Hc; reflexivity].
Qed.
(** two trees: b below a, and b below c below a *)
Definition or_t1 {V} (u : Z -> V) (g : Z) : gtree V := GSplit 0 "a" (u 4%Z) (Some (u 9%Z)) (GSplit 1 "b" (u g) (Some (u 6%Z)) (GLeaf 2) (GLeaf 3)) (GLeaf 4).
Definition or_t2 {V} (u : Z -> V) : gtree V := GSplit 0 "a" (u 3%Z) (Some (u 9%Z)) (GSplit 1 "c" (u 2%Z) (Some (u 6%Z)) (GSplit 2 "b" (u 1%Z) (Some (u 3%Z)) (GLeaf 3) (GLeaf 4)) (GLeaf 5)) (GLeaf 6).
Lemma or_fitted {V} (u : Z -> V) g ts : (forall t, In t ts -> t = or_t1 u g \/ t = or_t2 u) -> fitted_on (Model (model_of (u 0%Z) ts)) Xgboost ts (map (entries None 0) ts) /\ no_leaf_name ts.
Proof.
  intros H. split.
  - apply model_of_trained. intros t Ht. destruct (H t Ht) as [->| ->]; (split; [reflexivity|]); (split; [cbn; repeat constructor; cbn; intuition discriminate|]);
      intros e He; cbn in He; repeat (destruct He as [<-|He]; [cbn; discriminate|]); destruct He.
  - intros t e Ht He. destruct (H t Ht) as [->| ->]; cbn in He; repeat (destruct He as [<-|He]; [cbn; try exact I; discriminate|]); destruct He.
Qed.

Example C129_example (u := fun z => Fin (IZR z)) (ts1 := [or_t1 u 5; or_t2 u; or_t2 u]) (ts2 := [or_t2 u; or_t2 u; or_t1 u 5]) :
  fitted_on (Model (model_of (u 0%Z) ts1)) Xgboost ts1 (map (entries None 0) ts1) /\ fitted_on (Model (model_of (u 0%Z) ts2)) Xgboost ts2 (map (entries None 0) ts2)
  /\ Permutation ts1 ts2 /\ ts1 <> ts2 /\ no_leaf_name ts1 /\ deep (concat (map (entries None 0) ts1)).
Proof.
  split; [apply (or_fitted u 5); unfold ts1; cbn; intuition|]. split; [apply (or_fitted u 5); unfold ts2; cbn; intuition|]. split; [apply (Permutation_app_comm [or_t1 u 5] [or_t2 u; or_t2 u])|]. split; [unfold ts1, ts2; cbn; intros H; inversion H|].
  split; [apply (or_fitted u 5); unfold ts1; cbn; intuition|]. eexists. split; [right; left; reflexivity|discriminate].
Qed.

(** np.average of the depths weighted by the gains depends on the order of the trees *)
Theorem C129_refuted : exists (ts1 ts2 : list (gtree F)) m1 m2, Permutation ts1 ts2
  /\ fitted_on (Model m1) Xgboost ts1 (map (entries None 0) ts1) /\ fitted_on (Model m2) Xgboost ts2 (map (entries None 0) ts2) /\ no_leaf_name ts1
  /\ snd (ss_fit (fl64 seq_sum) isort ss_init (Model m1) "mean_gain" "mean_weighted_depth" false) = Ok tt
  /\ snd (ss_fit (fl64 seq_sum) isort ss_init (Model m2) "mean_gain" "mean_weighted_depth" false) = Ok tt
  /\ exists fi1 fi2, ss_fi (fst (ss_fit (fl64 seq_sum) isort ss_init (Model m1) "mean_gain" "mean_weighted_depth" false)) = Some fi1
     /\ ss_fi (fst (ss_fit (fl64 seq_sum) isort ss_init (Model m2) "mean_gain" "mean_weighted_depth" false)) = Some fi2 /\ ~ Permutation fi1 fi2.
Proof.
  set (ts1 := [or_t1 fq (2 ^ 53); or_t2 fq; or_t2 fq]). set (ts2 := [or_t2 fq; or_t2 fq; or_t1 fq (2 ^ 53)]).
  exists ts1, ts2, (model_of (fq 0) ts1), (model_of (fq 0) ts2). split; [apply (Permutation_app_comm [or_t1 fq (2 ^ 53)] [or_t2 fq; or_t2 fq])|].
  split; [apply (or_fitted fq (2 ^ 53)); unfold ts1; cbn; intuition|]. split; [apply (or_fitted fq (2 ^ 53)); unfold ts2; cbn; intuition|]. split; [apply (or_fitted fq (2 ^ 53)); unfold ts1; cbn; intuition|].
  split; [vm_compute; reflexivity|]. split; [vm_compute; reflexivity|]. eexists _, _. split; [vm_compute; reflexivity|]. split; [vm_compute; reflexivity|].
  intros H. match type of H with Permutation (?x :: _) _ => pose proof (Permutation_in x H (or_introl eq_refl)) as K end. cbn in K. repeat (destruct K as [K|K]; [discriminate K|]). exact K.
Qed.

(** a forest and the same trees in another order *)
Definition float_forest2 : forest := {| fo_names := Some ["x"; "y"; "z"; "w"]; fo_trees := [ex_arrays_two; ex_arrays; ex_arrays] |}.
Example C128_example : let ts := [ex_tree; ex_tree; ex_tree_two] in
  Permutation (fo_trees float_forest) (fo_trees float_forest2) /\ fo_trees float_forest <> fo_trees float_forest2
  /\ Forall2 stored (fo_trees float_forest) ts /\ Forall depth_first ts /\ moderate ts /\ NoDup ["x"; "y"; "z"; "w"] /\ known_features 4 ts /\ (exists t f, In t ts /\ feature_nodes f t <> [])
  /\ cs_ovo (fst (cmd_fit (fl64 seq_sum) isort cs_init float_forest)) <> None.
Proof.
  split; [symmetry; apply (Permutation_app_comm [ex_arrays_two] [ex_arrays; ex_arrays])|]. split; [intros H; vm_compute in H; discriminate H|].
  split; [repeat (apply Forall2_cons; [first [exact ex_stored|exact ex_stored_two]|]); apply Forall2_nil|].
  split; [repeat constructor|]. split; [exists 6; split; [repeat constructor|vm_compute; reflexivity]|]. split; [repeat constructor; cbn; intuition discriminate|].
  split; [|split; [exists ex_tree, 0; split; [left; reflexivity|vm_compute; discriminate]|vm_compute; discriminate]].
  intros f t Ht Hf. do 4 (destruct f as [|f]; [lia|]). exfalso. apply Hf. repeat (destruct Ht as [<-|Ht]; [reflexivity|]). destruct Ht.
Qed.

Print Assumptions C128_exact.
Print Assumptions C128_doubles.
Print Assumptions C129_exact_partial.
Print Assumptions C129_pair_depths_partial.
Print Assumptions C129_feature_depths_partial.
Print Assumptions C129_refuted.
