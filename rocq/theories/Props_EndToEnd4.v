(** C118: from a boosted ensemble to what the user sees: values and charts of the split score
    method after fit. *)
From Verif Require Import Py Num NumR Sorting Frame Rng CondDepth ForestFacts SplitScore SplitFacts SplitTables SplitImp Comparator Props_Split Props_Split2 Props_Compare
  Visual VisualFacts Props_Visual Props_Visual2 Props_Visual3 Props_Visual5 Compared PdMethodReal Props_EndToEnd.
From Coq Require Import Reals Lra.
Open Scope string_scope.
Open Scope nat_scope.
Open Scope list_scope.
Notation entry := SplitFacts.entry.
Notation entry_at := Props_Visual.entry.

(** ** Specification *)
Notation rtree := (gtree (ext R)).
Definition nodes (ts : list rtree) : list (entry (ext R)) := concat (map (entries None 0) ts).
Definition finite_or_0 (v : ext R) : R := match v with Fin x => x | _ => 0%R end.
Definition gain_of (e : entry (ext R)) : R := finite_or_0 (egain xR e).
Definition cover_of (e : entry (ext R)) : R := match ecover e with Some v => finite_or_0 v | None => 0%R end.

(** the nodes splitting on [b] directly below a split on [a]; of these, on request, those with
    another feature and more gain than their parent *)
Definition pair_nodes (od : bool) (ts : list rtree) (a b : string) : list (entry (ext R)) :=
  filter (fun e => chosen xR od e && epairb (a, b) e) (nodes ts).
Definition split_nodes (ts : list rtree) (f : string) : list (entry (ext R)) := filter (splits_onb f) (nodes ts).

Inductive strength := TotalGain | MeanGain | TotalCover | MeanCover | MeanDepth | Count.
Definition strength_name (st : strength) : string :=
  match st with TotalGain => "sum_gain" | MeanGain => "mean_gain" | TotalCover => "sum_cover" | MeanCover => "mean_cover" | MeanDepth => "mean_depth" | Count => "frequency" end.
Definition strength_of (st : strength) (g : list (entry (ext R))) : R :=
  match st with
  | TotalGain => Rsum (map gain_of g) | MeanGain => Rmean (map gain_of g) | TotalCover => Rsum (map cover_of g) | MeanCover => Rmean (map cover_of g)
  | MeanDepth => Rmean (map rdepth g) | Count => INR (length g)
  end.
(** depth: small values are strong *)
Definition stronger (st : strength) (x y : R) : Prop := match st with MeanDepth => (x <= y)%R | _ => (y <= x)%R end.

Inductive weight := WTotalGain | WMeanGain | WTotalCover | WMeanCover | WMeanDepth | WWeightedDepth.
Definition weight_name (w : weight) : string :=
  match w with WTotalGain => "sum_gain" | WMeanGain => "mean_gain" | WTotalCover => "sum_cover" | WMeanCover => "mean_cover" | WMeanDepth => "mean_depth" | WWeightedDepth => "mean_weighted_depth" end.
Definition weight_of (w : weight) (g : list (entry (ext R))) : R :=
  match w with
  | WTotalGain => Rsum (map gain_of g) | WMeanGain => Rmean (map gain_of g) | WTotalCover => Rsum (map cover_of g) | WMeanCover => Rmean (map cover_of g)
  | WMeanDepth => Rmean (map rdepth g) | WWeightedDepth => (Rsum (map (fun e => rdepth e * gain_of e) g) / Rsum (map gain_of g))%R
  end.
Definition uses_cover (st : strength) (w : weight) : Prop := st = TotalCover \/ st = MeanCover \/ w = WTotalCover \/ w = WMeanCover.

(** a trained model with finite gains; covers are needed only if asked for, XGBoost has them *)
Record split_input (arg : fit_arg (ext R)) (pk : package) (ts : list rtree) (st : strength) (w : weight) : Prop := {
  si_model : exists Ls, fitted_on arg pk ts Ls;
  si_names : no_leaf_name ts;
  si_gains : forall e, In e (nodes ts) -> efeat e <> None -> exists x, egain xR e = Fin x;
  si_covers : uses_cover st w -> pk = Xgboost /\ forall e, In e (nodes ts) -> efeat e <> None -> exists x, ecover e = Some (Fin x);
  (* some node below a root splits, and no feature has total gain 0 (see C45) *)
  si_deep : exists e, In e (nodes ts) /\ epair e <> None;
  si_nonzero : forall f, split_nodes ts f <> [] -> Rsum (map gain_of (split_nodes ts f)) <> 0%R }.

(** ** Facts *)
Lemma filter_perm {A} (p : A -> bool) l k : Permutation l k -> Permutation (filter p l) (filter p k).
Proof.
  induction 1 as [|x l k H IH|x y l|l k m H1 IH1 H2 IH2]; cbn; [constructor| | |etransitivity; eassumption].
  - destruct (p x); [constructor|]; assumption.
  - destruct (p x), (p y); try apply Permutation_refl. apply perm_swap.
Qed.
Lemma listed_nodes (ts : list rtree) Ls : Forall2 listing ts Ls -> Permutation (concat Ls) (nodes ts).
Proof. induction 1 as [|t L ts Ls H HF IH]; [constructor|]. unfold nodes. cbn [map concat]. apply Permutation_app; [exact (ls_perm t L H)|exact IH]. Qed.
Lemma fitted_listing (arg : fit_arg (ext R)) pk ts Ls : fitted_on arg pk ts Ls -> Forall2 listing ts Ls.
Proof. intros (m & (zs & _ & _ & H & _) & _). exact H. Qed.
Lemma epair_feat (e : entry (ext R)) k : epair e = Some k -> efeat e <> None.
Proof. unfold epair, efeat. destruct (e_parent e) as [[|]|]; try discriminate. destruct (e_node e); discriminate. Qed.
Lemma perm_nil {A} (l k : list A) : Permutation l k -> (l = [] <-> k = []).
Proof. intros H. split; intros ->; [apply Permutation_nil; exact H|apply Permutation_nil; symmetry; exact H]. Qed.
Lemma strength_perm st g g' : Permutation g g' -> strength_of st g = strength_of st g'.
Proof. intros H. destruct st; cbn [strength_of]; try (apply Rsum_perm, Permutation_map, H); try (apply Rmean_perm, Permutation_map, H). rewrite (Permutation_length H). reflexivity. Qed.
Lemma weight_perm w g g' : Permutation g g' -> weight_of w g = weight_of w g'.
Proof.
  intros H. destruct w; cbn [weight_of]; try (apply Rsum_perm, Permutation_map, H); try (apply Rmean_perm, Permutation_map, H).
  rewrite (Rsum_perm _ _ (Permutation_map gain_of H)), (Rsum_perm _ _ (Permutation_map (fun e => (rdepth e * gain_of e)%R) H)). reflexivity.
Qed.
Lemma nonempty_In {A} (l : list A) : l <> [] <-> exists x, In x l.
Proof. destruct l as [|x l]; [split; [congruence|intros (x & [])]|]. split; [intros _; exists x; left; reflexivity|discriminate]. Qed.

Definition strength_col (st : strength) (r : @orow (ext R)) : ext R :=
  match st with TotalGain => o_sum_gain r | MeanGain => o_mean_gain r | TotalCover => o_sum_cover r | MeanCover => o_mean_cover r | MeanDepth => o_mean_depth r | Count => n_ofZ xR (Z.of_nat (o_frequency r)) end.
Lemma strength_column st : pair_column xR (strength_name st) (strength_col st).
Proof. destruct st; constructor. Qed.
Definition weight_col (w : weight) (r : @irow (ext R)) : ext R :=
  match w with WTotalGain => i_sum_gain r | WMeanGain => i_mean_gain r | WTotalCover => i_sum_cover r | WMeanCover => i_mean_cover r | WMeanDepth => i_mean_depth r | WWeightedDepth => i_wdepth r end.
Lemma weight_column w : feature_column (weight_name w) (weight_col w).
Proof. destruct w; constructor. Qed.

Lemma strength_value st w ts k g : (forall e, In e g -> In e (nodes ts) /\ efeat e <> None) -> g <> [] ->
  (forall e, In e (nodes ts) -> efeat e <> None -> exists x, egain xR e = Fin x) ->
  (uses_cover st w -> forall e, In e (nodes ts) -> efeat e <> None -> exists x, ecover e = Some (Fin x)) ->
  strength_col st (pair_of_nodes xR k g) = Fin (strength_of st g).
Proof.
  intros Hin Hne Hg Hc. assert (Hf : finite_gains gain_of g).
  { intros e He. destruct (Hin e He) as [H1 H2]. destruct (Hg e H1 H2) as (x & E). unfold gain_of. rewrite E. reflexivity. }
  destruct (C43_values_real gain_of k g Hne Hf) as (E1 & E2 & E3 & E4).
  assert (Hcov : st = TotalCover \/ st = MeanCover -> map ecover g = map (fun c => Some (Fin c)) (map cover_of g)).
  { intros Hst. rewrite map_map. apply map_ext_in. intros e He. destruct (Hin e He) as [H1 H2]. destruct (Hc ltac:(unfold uses_cover; tauto) e H1 H2) as (x & E). unfold cover_of. rewrite E. reflexivity. }
  destruct st; cbn [strength_col strength_of]; try assumption; try (apply (E4 _ (Hcov ltac:(auto)))). cbn. rewrite INR_IZR. reflexivity.
Qed.
Lemma weight_value st w ts (K : list (entry (ext R))) f : (forall e, In e (filter (splits_onb f) K) -> In e (nodes ts) /\ efeat e <> None) -> filter (splits_onb f) K <> [] ->
  Rsum (map gain_of (filter (splits_onb f) K)) <> 0%R ->
  (forall e, In e (nodes ts) -> efeat e <> None -> exists x, egain xR e = Fin x) ->
  (uses_cover st w -> forall e, In e (nodes ts) -> efeat e <> None -> exists x, ecover e = Some (Fin x)) ->
  weight_col w (irow_of_nodes xR K f) = Fin (weight_of w (filter (splits_onb f) K)).
Proof.
  intros Hin Hne Hz Hg Hc. assert (Hf : finite_gains gain_of (filter (splits_onb f) K)).
  { intros e He. destruct (Hin e He) as [H1 H2]. destruct (Hg e H1 H2) as (x & E). unfold gain_of. rewrite E. reflexivity. }
  destruct (C43_values_real gain_of ("", "") _ Hne Hf) as (E1 & E2 & E3 & E4).
  assert (Hcov : w = WTotalCover \/ w = WMeanCover -> map ecover (filter (splits_onb f) K) = map (fun c => Some (Fin c)) (map cover_of (filter (splits_onb f) K))).
  { intros Hst. rewrite map_map. apply map_ext_in. intros e He. destruct (Hin e He) as [H1 H2]. destruct (Hc ltac:(unfold uses_cover; tauto) e H1 H2) as (x & E). unfold cover_of. rewrite E. reflexivity. }
  destruct w; cbn [weight_col weight_of]; try assumption; try (apply (E4 _ (Hcov ltac:(auto)))).
  unfold irow_of_nodes. cbn [i_wdepth]. set (g := filter (splits_onb f) K) in *. unfold weighted_depth. rewrite (gains_fin gain_of g Hf), xR_sum_fin.
  assert (Em : map (fun e => n_mul xR (edepth xR e) (egain xR e)) g = map (fun e => Fin (rdepth e * gain_of e)%R) g).
  { apply map_ext_in. intros e He. rewrite (Hf e He). unfold edepth, rdepth. cbn. rewrite INR_IZR. reflexivity. }
  rewrite Em, xR_sum_fin_map. apply xR_div_fin, Hz.
Qed.

Section Split.
  Context (srt : sorter) (Hs : sorter_ok srt).
  Notation fit := (ss_fit xR srt).

  Lemma split_output s arg pk ts st w od : split_input arg pk ts st w ->
    exists t fi, snd (fit s arg (strength_name st) (weight_name w) od) = Ok tt
      /\ ss_ovo (fst (fit s arg (strength_name st) (weight_name w) od)) = Some t /\ ss_fi (fst (fit s arg (strength_name st) (weight_name w) od)) = Some fi
      /\ ss_ascending (fst (fit s arg (strength_name st) (weight_name w) od)) = String.eqb (strength_name st) "mean_depth"
      /\ NoDup (map fst t)
      /\ (forall a b v, In (a, b, v) t <-> pair_nodes od ts a b <> [] /\ v = Fin (strength_of st (pair_nodes od ts a b)))
      /\ StronglySorted (fun a b => le_dir xR (String.eqb (strength_name st) "mean_depth") (snd a) (snd b) = true) t
      /\ NoDup (map fst fi)
      /\ (forall f v, In (f, v) fi <-> split_nodes ts f <> [] /\ v = Fin (weight_of w (split_nodes ts f))).
  Proof.
    intros [(Ls & Hf) Hn Hg Hc (e0 & He0 & Hp0) Hz]. pose proof (listed_nodes ts Ls (fitted_listing _ _ _ _ Hf)) as HP.
    assert (Ha : metric_allowed pk (strength_name st) /\ metric_allowed pk (weight_name w)).
    { unfold metric_allowed, is_cover. split; intros ->; intros Hco.
      - destruct (Hc ltac:(destruct st; cbn in Hco; destruct Hco; try discriminate; unfold uses_cover; auto)) as [H _]. discriminate.
      - destruct (Hc ltac:(destruct w; cbn in Hco; destruct Hco; try discriminate; unfold uses_cover; auto)) as [H _]. discriminate. }
    destruct Ha as [Ha1 Ha2].
    assert (Hd : deep (concat Ls)) by (exists e0; split; [apply (Permutation_in _ (Permutation_sym HP)), He0|exact Hp0]).
    assert (Hfe : forall f e, In e (concat Ls) -> efeat e = Some f -> split_nodes ts f <> []).
    { intros f e He Ef. apply nonempty_In. exists e. apply filter_In. split; [apply (Permutation_in _ HP), He|]. unfold splits_onb. rewrite Ef. apply String.eqb_refl. }
    assert (Hok : snd (fit s arg (strength_name st) (weight_name w) od) = Ok tt).
    { destruct (C45_fit_partial xR srt s arg pk ts Ls _ _ od _ _ Hf Hn (strength_column st) (weight_column w) Ha1 Ha2) as [(H & _)|[(_ & H)|(_ & _ & f & (e & He & Ef) & Hzero)]]; [exact H|contradiction|]. exfalso.
      apply (Hz f (Hfe f e He Ef)). unfold split_nodes. rewrite <- (Rsum_perm _ _ (Permutation_map gain_of (filter_perm (splits_onb f) _ _ HP))).
      assert (Hfin : finite_gains gain_of (filter (splits_onb f) (concat Ls))).
      { intros e1 He1. apply filter_In in He1 as [He1 Hb]. destruct (Hg e1 (Permutation_in _ HP He1)) as (x & E); [|unfold gain_of; rewrite E; reflexivity]. unfold splits_onb in Hb. destruct (efeat e1); [discriminate|discriminate]. }
      rewrite (gains_fin gain_of _ Hfin), xR_sum_fin in Hzero. rewrite (no_eqb xR xR_ord) in Hzero by reflexivity. apply andb_true_iff in Hzero as [H1 H2]. apply negb_true_iff in H1, H2.
      set (S0 := Rsum (map gain_of (filter (splits_onb f) (concat Ls)))) in *. assert (G1 : Rltb S0 0 = false) by exact H1. assert (G2 : Rltb 0 S0 = false) by exact H2.
      apply Rltb_false in G1, G2. lra. }
    destruct (C44_order xR srt Hs xR_ord s arg pk ts Ls _ _ od _ Hf (fun _ => Hn) (strength_column st) Ha1 Ha2 Hd) as (fo & t & Efo & Et & HPt & Hsort & Hasc).
    destruct (C43_tables xR srt Hs xR_ord s arg pk ts Ls _ _ od _ Hf (fun _ => Hn) (strength_column st) Ha1 Ha2 Hd) as (fo' & Efo' & Hnd & Hkeys & Hrows & _). assert (fo' = fo) by congruence. subst fo'.
    destruct (C48_fit xR srt s arg pk ts Ls _ _ od _ Hf Hn (strength_column st) Ha1 Ha2 Hok) as (rows & fi & Hun & Efi & Esfi).
    destruct (C48_rows xR srt Hs xR_ord pk ts Ls rows None _ _ fi Hun Hn ltac:(discriminate) (weight_column w) Efi) as (Hndf & Hfk & Hfv & _).
    exists t, fi. split; [exact Hok|]. split; [exact Et|]. split; [exact Esfi|]. split; [exact Hasc|].
    assert (Hpn : forall a b, Permutation (filter (fun e => chosen xR od e && epairb (a, b) e) (concat Ls)) (pair_nodes od ts a b)) by (intros a b; apply filter_perm, HP).
    assert (Hrow : forall r, In r fo -> pair_nodes od ts (o_parent r) (o_child r) <> [] /\ strength_col st r = Fin (strength_of st (pair_nodes od ts (o_parent r) (o_child r)))).
    { intros r Hr. assert (Hne : filter (fun e => chosen xR od e && epairb (okey r) e) (concat Ls) <> []).
      { destruct (proj1 (Hkeys (okey r)) (in_map okey _ _ Hr)) as (e & He & Hch & Ep). apply nonempty_In. exists e. apply filter_In. split; [exact He|]. rewrite Hch. unfold epairb. rewrite Ep. apply pair_eqb_eq. reflexivity. }
      split; [intros E; apply Hne; apply (perm_nil _ _ (Hpn (o_parent r) (o_child r))); exact E|].
      rewrite (Hrows r Hr) at 1. rewrite <- (strength_perm st _ _ (Hpn (o_parent r) (o_child r))). apply (strength_value st w ts); [|exact Hne|exact Hg|intros Hu; apply (Hc Hu)].
      intros e He. apply filter_In in He as [He Hb]. split; [apply (Permutation_in _ HP), He|]. apply andb_true_iff in Hb as [_ Hb]. unfold epairb in Hb. destruct (epair e) as [k'|] eqn:Ep; [|discriminate]. exact (epair_feat e k' Ep). }
    split; [|split; [|split; [exact Hsort|split; [exact Hndf|]]]].
    - apply (Permutation_NoDup (Permutation_map fst (Permutation_sym HPt))). rewrite map_map. cbn [fst]. exact Hnd.
    - intros a b v. split.
      + intros H. apply (Permutation_in _ HPt), in_map_iff in H as (r & Er & Hr). injection Er as <- <- <-. apply Hrow, Hr.
      + intros [Hne ->]. assert (Hk : In (a, b) (map okey fo)).
        { apply Hkeys. apply (nonempty_In (pair_nodes od ts a b)) in Hne as (e & He). apply filter_In in He as [He Hb]. apply andb_true_iff in Hb as [Hb1 Hb2]. exists e.
          split; [apply (Permutation_in _ (Permutation_sym HP)), He|]. split; [exact Hb1|]. unfold epairb in Hb2. destruct (epair e) as [k'|]; [|discriminate]. apply pair_eqb_eq in Hb2. congruence. }
        apply in_map_iff in Hk as (r & Ek & Hr). injection Ek as <- <-. rewrite <- (proj2 (Hrow r Hr)). apply (Permutation_in _ (Permutation_sym HPt)), in_map_iff. exists r. split; [reflexivity|exact Hr].
    - assert (HK : forall f, Permutation (filter (splits_onb f) (filter (considered None) (concat Ls))) (split_nodes ts f)) by (intros f; rewrite (C48_all_nodes (concat Ls) None f I); apply filter_perm, HP).
      assert (Hw : forall f, split_nodes ts f <> [] -> weight_col w (irow_of_nodes xR (filter (considered None) (concat Ls)) f) = Fin (weight_of w (split_nodes ts f))).
      { intros f Hne. rewrite <- (weight_perm w _ _ (HK f)). apply (weight_value st w ts).
        - intros e He. apply (Permutation_in _ (HK f)), filter_In in He as [He Hb]. split; [exact He|]. unfold splits_onb in Hb. destruct (efeat e); [discriminate|discriminate].
        - intros E. apply Hne. apply (perm_nil _ _ (HK f)), E.
        - rewrite (Rsum_perm _ _ (Permutation_map gain_of (HK f))). exact (Hz f Hne).
        - exact Hg.
        - intros Hu. apply (Hc Hu). }
      intros f v. split.
      + intros H. rewrite (Hfv f v H). assert (Hne : split_nodes ts f <> []) by (destruct (proj1 (Hfk f) (in_map fst _ _ H)) as [(e & He & Ef) _]; exact (Hfe f e He Ef)). split; [exact Hne|exact (Hw f Hne)].
      + intros [Hne ->]. assert (Hk : In f (map fst fi)).
        { apply Hfk. split; [|exact I]. pose proof Hne as Hne'. apply (nonempty_In (split_nodes ts f)) in Hne' as (e & He). apply filter_In in He as [He Hb]. exists e. split; [apply (Permutation_in _ (Permutation_sym HP)), He|].
          unfold splits_onb in Hb. destruct (efeat e) as [g|]; [|discriminate]. apply String.eqb_eq in Hb. congruence. }
        apply in_map_iff in Hk as ([f' v'] & E & Hin). cbn [fst] in E. subst f'. rewrite <- (Hw f Hne), <- (Hfv f v' Hin). exact Hin.
  Qed.

  (** ** C118 *)
  Theorem C118_value s arg pk ts st w od f1 f2 : split_input arg pk ts st w ->
    let s' := fst (fit s arg (strength_name st) (weight_name w) od) in
    snd (fit s arg (strength_name st) (weight_name w) od) = Ok tt
    /\ match interaction_value (mv_compare (ss_compared xR srt s')) f1 f2 with
       | Ok v => exists a b, ((a = f1 /\ b = f2) \/ (a = f2 /\ b = f1)) /\ pair_nodes od ts a b <> [] /\ v = Fin (strength_of st (pair_nodes od ts a b))
                 (* the stronger of the two directions *)
                 /\ (pair_nodes od ts b a <> [] -> stronger st (strength_of st (pair_nodes od ts a b)) (strength_of st (pair_nodes od ts b a)))
       | Err e => e = IndexError /\ pair_nodes od ts f1 f2 = [] /\ pair_nodes od ts f2 f1 = []
       end.
  Proof.
    intros Hin s'. destruct (split_output s arg pk ts st w od Hin) as (t & fi & Eok & Et & _ & Easc & _ & Ht & _). split; [exact Eok|]. subst s'. set (s' := fst (fit _ _ _ _ _)) in *.
    cbn [mv_compare ss_compared]. unfold ss_compare_ovo. rewrite Et, Easc. set (asc := String.eqb (strength_name st) "mean_depth").
    pose proof (C41_value xR srt Hs xR_ord asc t f1 f2) as H. destruct (interaction_value _ f1 f2) as [v|e].
    - destruct H as ([[a b] v0] & Hr & Hab & Ev & Hmax). cbn [snd] in Ev. subst v0. exists a, b. unfold about in Hab. cbn [fst snd] in Hab. split; [destruct Hab as [[]|[]]; subst; auto|].
      apply Ht in Hr as [Hne ->]. split; [exact Hne|]. split; [reflexivity|]. intros Hne'.
      destruct (Hmax (b, a, Fin (strength_of st (pair_nodes od ts b a)))) as [E|Hle].
      + apply Ht. split; [exact Hne'|reflexivity].
      + unfold about. cbn [fst snd]. tauto.
      + assert (Eab : b = a) by congruence. rewrite Eab. destruct st; cbn [stronger]; lra.
      + cbn [snd] in Hle. assert (Hle' : (if asc then Rltb (strength_of st (pair_nodes od ts b a)) (strength_of st (pair_nodes od ts a b)) else Rltb (strength_of st (pair_nodes od ts a b)) (strength_of st (pair_nodes od ts b a))) = false).
        { unfold le_dir in Hle. cbn in Hle. destruct asc; [|]; apply negb_true_iff in Hle; exact Hle. }
        destruct st; cbn [stronger]; unfold asc in Hle'; cbn in Hle'; apply Rltb_false in Hle'; exact Hle'.
    - destruct H as [-> H]. split; [reflexivity|].
      assert (Hnil : forall a b, (a = f1 /\ b = f2) \/ (a = f2 /\ b = f1) -> pair_nodes od ts a b = []).
      { intros a b Hab. destruct (pair_nodes od ts a b) as [|x l] eqn:E; [reflexivity|]. exfalso. apply (H (a, b, Fin (strength_of st (pair_nodes od ts a b)))); [apply Ht; rewrite E; split; [discriminate|reflexivity]|]. unfold about. cbn [fst snd]. tauto. }
      split; apply Hnil; auto.
  Qed.

  Context (lower : string -> string).
  (** the strongest pairs, parent first *)
  Theorem C118_bars s arg pk ts st w od title kw : split_input arg pk ts st w -> (exists a b, pair_nodes od ts a b <> []) -> k_top (k_own kw) <> Some 0 ->
    let n := match k_top (k_own kw) with Some n => n | None => 10 end in
    exists bars rest, ss_plot xR srt lower (fst (fit s arg (strength_name st) (weight_name w) od)) "bar_chart" title kw
        = Ok (None, [PBars (if String.eqb title "default" then "Pair interactions" else title) (method_name SplitScoreM)
                       (map (fun r => (fst (fst r) ++ ":" ++ snd (fst r), Fin (snd r))%string) bars)])
      /\ NoDup (map fst (bars ++ rest)) /\ length bars = Nat.min n (length (bars ++ rest))
      /\ (forall a b x, In (a, b, x) (bars ++ rest) <-> pair_nodes od ts a b <> [] /\ x = strength_of st (pair_nodes od ts a b))
      /\ StronglySorted (fun x y => stronger st (snd x) (snd y)) (bars ++ rest).
  Proof.
    intros Hin (a0 & b0 & Hne0) Htop n. destruct (split_output s arg pk ts st w od Hin) as (t & fi & Eok & Et & Efi & Easc & Hnd & Ht & Hsort & _).
    set (u := map (fun r => (fst r, finite_or_0 (snd r))) t).
    assert (Etu : t = map (fun r => (fst r, Fin (snd r))) u).
    { unfold u. rewrite map_map. etransitivity; [symmetry; apply map_id|]. apply map_ext_in. intros [[a b] v] Hr. cbn [fst snd]. apply Ht in Hr as [_ ->]. reflexivity. }
    exists (firstn n u), (skipn n u). rewrite firstn_skipn.
    assert (Hu0 : In (a0, b0, Fin (strength_of st (pair_nodes od ts a0 b0))) t) by (apply Ht; split; [exact Hne0|reflexivity]).
    split; [|split; [|split; [apply firstn_length|split]]].
    - unfold ss_plot. rewrite Et, Efi, Easc. match goal with |- visualize _ _ _ _ ?d0 _ _ _ = _ => set (d := d0) end.
      assert (Ep : visualize xR srt lower SplitScoreM d "bar_chart" title kw = do p <- plot_bars_ovo (method_name SplitScoreM) t title (k_own kw); Ok (None, [p])) by reflexivity.
      rewrite Ep. unfold plot_bars_ovo, barh. rewrite firstn_map. change (pop (k_top (k_own kw)) 10) with n.
      assert (Hn : firstn n t = map (fun r => (fst r, Fin (snd r))) (firstn n u)) by (rewrite Etu at 1; apply firstn_map).
      assert (Hnn : firstn n t <> []). { assert (n <> 0) by (unfold n; destruct (k_top (k_own kw)); congruence). destruct t; [destruct Hu0|]. destruct n; [congruence|discriminate]. }
      rewrite Hn in *. destruct (firstn n u) as [|r0 rs]; [destruct (Hnn eq_refl)|]. cbn [map bind]. rewrite map_map. reflexivity.
    - unfold u. rewrite map_map. cbn [fst]. exact Hnd.
    - intros a b x. split.
      + intros H. apply (in_map (fun r => (fst r, Fin (snd r)))) in H. rewrite <- Etu in H. cbn [fst snd] in H. apply Ht in H as [H E]. split; [exact H|congruence].
      + intros [H ->]. unfold u. apply in_map_iff. exists (a, b, Fin (strength_of st (pair_nodes od ts a b))). split; [reflexivity|]. apply Ht. auto.
    - rewrite Etu in Hsort. clear -Hsort. induction u as [|r u IH]; [constructor|]. cbn [map] in Hsort. inversion Hsort as [|? ? H1 H2]; subst. constructor; [exact (IH H1)|].
      rewrite Forall_forall in *. intros r' Hr'. specialize (H2 _ (in_map (fun r => (fst r, Fin (snd r))) _ _ Hr')). cbn [snd] in H2. unfold le_dir in H2.
      destruct st; cbn in *; apply negb_true_iff in H2; apply Rltb_false in H2; exact H2.
  Qed.

  (** *** Heatmap of a table without repeated pairs *)
  Lemma heatmap_cells (ovo : list (string * string * ext R)) fi title ia fa directed k t ic fc labels imp int :
    plot_heatmap xR srt lower ovo (Some fi) title ia fa directed k = Ok (PHeatmap t ic fc labels imp int) ->
    exists rows, all_pairs ovo (Some fi) directed = Ok rows
      /\ NoDup labels /\ (forall f, In f labels -> occurs f ovo) /\ ((forall f v, In (f, v) fi -> n_isnan xR v = false) -> forall f, occurs f ovo -> In f labels)
      /\ (forall i j r c, nth_error labels i = Some r -> nth_error labels j = Some c ->
            entry_at imp i j = Some (if String.eqb r c then show xR (cell xR rows r c) else None) /\ entry_at int i j = Some (if String.eqb r c then None else show xR (cell xR rows r c))).
  Proof.
    unfold plot_heatmap. destruct (all_pairs ovo (Some fi) directed) as [rows|] eqn:E; [|discriminate]. cbn [bind].
    destruct (order_heatmap _ _ _ _ _ _ _) as [ind|] eqn:Eo; [|discriminate]. cbn [bind]. intros H. exists rows. split; [reflexivity|].
    assert (Hp : Permutation ind (pivot_index xR rows)) by (apply (order_heatmap_perm xR srt lower Hs xR_ord _ _ _ _ _ Eo)).
    assert (Hl : labels = ind /\ imp = map (fun r => map (fun c => if String.eqb r c then show xR (cell xR rows r c) else None) ind) ind
                 /\ int = map (fun r => map (fun c => if String.eqb r c then None else show xR (cell xR rows r c)) ind) ind).
    { destruct ind as [|i0 ind0]; [discriminate|]. set (I := i0 :: ind0) in *. injection H as _ _ _ <- <- <-. auto. }
    destruct Hl as (-> & -> & ->). clear H.
    split; [apply (Permutation_NoDup (Permutation_sym Hp)); apply (np_unique_NoDup Scell Scell_ok)|]. split; [|split].
    - intros f Hf. apply (Permutation_in f Hp) in Hf. apply pivot_index_In in Hf as (c & v & Hf & _). apply (sub_features _ _ _ _ _ _ _ E Hf).
    - intros Hfi f Hf. apply (Permutation_in f (Permutation_sym Hp)). apply pivot_index_In.
      assert (Hv : exists v, has_importance fi f v).
      { unfold all_pairs in E. destruct (importance_diag ovo fi) as [d|] eqn:Ed; [|discriminate].
        destruct (in_dec string_dec f (map fst fi)) as [Hin|Hin]; [apply (has_importance_ex fi f Hin)|]. rewrite (diag_missing ovo fi f Hf Hin) in Ed. discriminate. }
      destruct Hv as (v & Hv). exists f, v. split; [|apply (Hfi f v), has_importance_In, Hv]. apply (all_pairs_In ovo fi directed rows E). auto.
    - intros i j r c Hi Hj. split.
      + apply (entry_map (fun r c => if String.eqb r c then show xR (cell xR rows r c) else None) ind i j r c Hi Hj).
      + apply (entry_map (fun r c => if String.eqb r c then None else show xR (cell xR rows r c)) ind i j r c Hi Hj).
  Qed.

  (** with distinct pairs of distinct features an undirected chart prefers the given direction *)
  Lemma undirected_cell (ovo : list (string * string * ext R)) fi rows r c : all_pairs ovo (Some fi) false = Ok rows -> NoDup (map fst ovo) ->
    (forall x, In x ovo -> n_isnan xR (snd x) = false) -> r <> c ->
    (forall v, In (r, c, v) ovo -> show xR (cell xR rows r c) = Some v)
    /\ ((forall v, ~ In (r, c, v) ovo) -> forall v, In (c, r, v) ovo -> show xR (cell xR rows r c) = Some v)
    /\ ((forall v, ~ In (r, c, v) ovo) -> (forall v, ~ In (c, r, v) ovo) -> show xR (cell xR rows r c) = None).
  Proof.
    intros E Hnd Hnn Hrc. unfold all_pairs in E. destruct (importance_diag ovo fi) as [d|] eqn:Ed; [|discriminate]. cbn [bind] in E.
    assert (Er : rows = (ovo ++ map (fun x => (Visual.f2 x, Visual.f1 x, value x)) ovo) ++ d) by congruence. clear E.
    set (p := fun x : string * string * ext R => String.eqb (Visual.f1 x) r && String.eqb (Visual.f2 x) c).
    assert (Hdef : forall l : list (string * string * ext R), (forall x, In x l -> n_isnan xR (snd x) = false) -> defined xR l = l).
    { intros l Hl. unfold defined. apply filter_id_all. intros x Hx. unfold value. rewrite (Hl x Hx). reflexivity. }
    assert (Hd0 : filter p (defined xR d) = []).
    { apply filter_none_all. intros x Hx. apply filter_In in Hx as [Hx _]. assert (Hxx : Visual.f1 x = Visual.f2 x).
      { clear -Ed Hx. unfold importance_diag in Ed. revert d Ed Hx. induction (Visual.all_features ovo) as [|f l IH]; intros d Ed Hx; cbn [mapM] in Ed; [injection Ed as <-; destruct Hx|].
        destruct (importance_of fi f) as [v|]; [|discriminate]. cbn [bind] in Ed. destruct (mapM _ l) as [d'|]; [|discriminate]. cbn [bind] in Ed. injection Ed as <-. destruct Hx as [<-|Hx]; [reflexivity|exact (IH _ eq_refl Hx)]. }
      unfold p. apply andb_false_iff. rewrite Hxx. destruct (String.eqb_spec (Visual.f2 x) r) as [->|]; [right; apply String.eqb_neq; exact Hrc|left; reflexivity]. }
    assert (Hcell : cell xR rows r c = match filter p ovo ++ filter p (map (fun x => (Visual.f2 x, Visual.f1 x, value x)) ovo) with x :: _ => value x | [] => n_nan xR end).
    { unfold cell. fold p. rewrite Er. unfold defined at 1. rewrite !filter_app. fold (defined xR ovo). fold (defined xR (map (fun x => (Visual.f2 x, Visual.f1 x, value x)) ovo)). fold (defined xR d).
      rewrite Hd0, app_nil_r, (Hdef ovo Hnn), (Hdef (map _ ovo)); [reflexivity|]. intros x Hx. apply in_map_iff in Hx as (y & <- & Hy). exact (Hnn y Hy). }
    assert (Hpu : forall v, In (r, c, v) ovo -> exists l, filter p ovo = (r, c, v) :: l).
    { intros v Hin. assert (Hf : In (r, c, v) (filter p ovo)) by (apply filter_In; split; [exact Hin|unfold p; cbn; rewrite !String.eqb_refl; reflexivity]).
      destruct (filter p ovo) as [|y l] eqn:Ef; [destruct Hf|]. exists l. f_equal. assert (Hy : In y (filter p ovo)) by (rewrite Ef; left; reflexivity). apply filter_In in Hy as [Hy Hb].
      unfold p in Hb. apply andb_true_iff in Hb as [B1 B2]. apply String.eqb_eq in B1, B2. destruct y as [[a b] w]. cbn in B1, B2. subst a b.
      apply In_nth_error in Hin as (n1 & N1). apply In_nth_error in Hy as (n2 & N2).
      assert (n2 = n1) by (apply (nth_once (map fst ovo) n2 n1 (r, c) Hnd); rewrite nth_error_map, ?N1, ?N2; reflexivity). congruence. }
    assert (Hpn : (forall v, ~ In (r, c, v) ovo) -> filter p ovo = []).
    { intros Hno. apply filter_none_all. intros [[a b] w] Hx. unfold p. cbn. destruct (String.eqb_spec a r) as [->|]; [|reflexivity]. destruct (String.eqb_spec b c) as [->|]; [|reflexivity]. destruct (Hno w Hx). }
    assert (Hqu : forall v, In (c, r, v) ovo -> exists l, filter p (map (fun x => (Visual.f2 x, Visual.f1 x, value x)) ovo) = (r, c, v) :: l).
    { intros v Hin. assert (Hin' : In (r, c, v) (map (fun x => (Visual.f2 x, Visual.f1 x, value x)) ovo)) by (apply in_map_iff; exists (c, r, v); split; [reflexivity|exact Hin]).
      assert (Hf : In (r, c, v) (filter p (map (fun x => (Visual.f2 x, Visual.f1 x, value x)) ovo))) by (apply filter_In; split; [exact Hin'|unfold p; cbn; rewrite !String.eqb_refl; reflexivity]).
      destruct (filter p (map _ ovo)) as [|y l] eqn:Ef; [destruct Hf|]. exists l. f_equal. assert (Hy : In y (filter p (map (fun x => (Visual.f2 x, Visual.f1 x, value x)) ovo))) by (rewrite Ef; left; reflexivity). apply filter_In in Hy as [Hy Hb].
      apply in_map_iff in Hy as ([[a b] w] & <- & Hy). unfold p in Hb. cbn in Hb. apply andb_true_iff in Hb as [B1 B2]. apply String.eqb_eq in B1, B2. subst a b. cbn.
      apply In_nth_error in Hin as (n1 & N1). apply In_nth_error in Hy as (n2 & N2).
      assert (n2 = n1) by (apply (nth_once (map fst ovo) n2 n1 (c, r) Hnd); rewrite nth_error_map, ?N1, ?N2; reflexivity). congruence. }
    split; [|split].
    - intros v Hin. destruct (Hpu v Hin) as (l & El). rewrite Hcell, El. cbn [app]. unfold show, value. cbn [snd]. specialize (Hnn _ Hin). cbn [snd] in Hnn. rewrite Hnn. reflexivity.
    - intros Hno v Hin. destruct (Hqu v Hin) as (l & El). rewrite Hcell, (Hpn Hno), El. cbn [app]. unfold show, value. cbn [snd]. specialize (Hnn _ Hin). cbn [snd] in Hnn. rewrite Hnn. reflexivity.
    - intros Hno Hno'. rewrite Hcell, (Hpn Hno). assert (Hq : filter p (map (fun x => (Visual.f2 x, Visual.f1 x, value x)) ovo) = []).
      { apply filter_none_all. intros y Hy. apply in_map_iff in Hy as ([[a b] w] & <- & Hx). unfold p. cbn. destruct (String.eqb_spec b r) as [->|]; [|reflexivity]. destruct (String.eqb_spec a c) as [->|]; [|reflexivity]. destruct (Hno' w Hx). }
      rewrite Hq. reflexivity.
  Qed.

  (** heatmap with [only_def_interactions]: parents on the rows; a direction that does not occur
      is filled with the other one *)
  Theorem C118_heatmap s arg pk ts st w title kw : split_input arg pk ts st w -> usable kw ->
    (* every feature takes part in an interaction (see C56) *)
    (forall f, split_nodes ts f <> [] -> exists g, pair_nodes true ts f g <> [] \/ pair_nodes true ts g f <> []) ->
    exists t c1 c2 labels importance interaction,
      ss_plot xR srt lower (fst (fit s arg (strength_name st) (weight_name w) true)) "heatmap" title kw = Ok (None, [PHeatmap t c1 c2 labels importance interaction])
      /\ NoDup labels /\ (forall f, In f labels <-> split_nodes ts f <> [])
      /\ (forall i f, nth_error labels i = Some f -> entry_at interaction i i = Some None /\ entry_at importance i i = Some (Some (Fin (weight_of w (split_nodes ts f)))))
      /\ (forall i j f1 f2, i <> j -> nth_error labels i = Some f1 -> nth_error labels j = Some f2 ->
            entry_at importance i j = Some None
            /\ entry_at interaction i j = Some (match pair_nodes true ts f1 f2, pair_nodes true ts f2 f1 with
                                               | [], [] => None
                                               | [], g => Some (Fin (strength_of st g))
                                               | g, _ => Some (Fin (strength_of st g))
                                               end)).
  Proof.
    intros Hin Hu Hcov. destruct (split_output s arg pk ts st w true Hin) as (t & fi & Eok & Et & Efi & Easc & Hnd & Ht & _ & Hndf & Hfi).
    destruct Hin as [(Ls & Hf) Hn Hg Hc (e0 & He0 & Hp0) Hz]. pose proof (listed_nodes ts Ls (fitted_listing _ _ _ _ Hf)) as HP.
    assert (Ha : metric_allowed pk (strength_name st) /\ metric_allowed pk (weight_name w)).
    { unfold metric_allowed, is_cover. split; intros ->; intros Hco.
      - destruct (Hc ltac:(destruct st; cbn in Hco; destruct Hco; try discriminate; unfold uses_cover; auto)) as [H _]. discriminate.
      - destruct (Hc ltac:(destruct w; cbn in Hco; destruct Hco; try discriminate; unfold uses_cover; auto)) as [H _]. discriminate. }
    destruct Ha as [Ha1 Ha2].
    assert (Hnn : forall f v, In (f, v) fi -> n_isnan xR v = false) by (intros f v Hv; apply Hfi in Hv as [_ ->]; reflexivity).
    assert (Hnt : forall x, In x t -> n_isnan xR (snd x) = false) by (intros [[a b] v] Hv; apply Ht in Hv as [_ ->]; reflexivity).
    assert (Hab : forall a b v, In (a, b, v) t -> a <> b).
    { intros a b v Hv. apply Ht in Hv as [Hne _]. apply (nonempty_In (pair_nodes true ts a b)) in Hne as (e & He). apply filter_In in He as [_ Hb]. apply andb_true_iff in Hb as [B1 B2].
      unfold chosen, epairb, better, epair in *. destruct (e_parent e) as [[|]|]; try discriminate. destruct (e_node e); try discriminate. apply pair_eqb_eq in B2. injection B2 as <- <-. apply andb_true_iff in B1 as [_ B1].
      apply negb_true_iff, String.eqb_neq in B1. congruence. }
    assert (Hft : exists f0, split_nodes ts f0 <> []).
    { destruct (efeat e0) as [f0|] eqn:Ef0; [|destruct (epair e0) eqn:Ep0; [destruct (epair_feat e0 _ Ep0 Ef0)|congruence]]. exists f0. apply nonempty_In. exists e0. apply filter_In. split; [exact He0|]. unfold splits_onb. rewrite Ef0. apply String.eqb_refl. }
    destruct (C56_split_partial xR srt lower Hs xR_ord s arg pk ts Ls _ _ true _ _ "heatmap" title kw Hf Hn (strength_column st) (weight_column w) Ha1 Ha2 Eok) as (f & Ep & _).
    { intros e f He Ef. destruct (Hcov f) as (g & Hg').
      - apply nonempty_In. exists e. apply filter_In. split; [apply (Permutation_in _ HP), He|]. unfold splits_onb. rewrite Ef. apply String.eqb_refl.
      - assert (Hx : exists a b, (a = f \/ b = f) /\ pair_nodes true ts a b <> []) by (destruct Hg' as [H|H]; eauto 6). destruct Hx as (a & b & Hor & Hne). apply (nonempty_In (pair_nodes true ts a b)) in Hne as (e' & He').
        apply filter_In in He' as [He' Hb]. apply andb_true_iff in Hb as [B1 B2]. exists e', (a, b). split; [apply (Permutation_in _ (Permutation_sym HP)), He'|]. split; [exact B1|]. split; [|exact Hor].
        unfold epairb in B2. destruct (epair e') as [k'|]; [|discriminate]. apply pair_eqb_eq in B2. congruence. }
    { intros t' fi' Et' Efi'. rewrite Et in Et'. rewrite Efi in Efi'. injection Et' as <-. injection Efi' as <-. destruct Hft as (f0 & Hf0). destruct (Hcov f0 Hf0) as (g & Hg').
      assert (Hx : exists a b, pair_nodes true ts a b <> []) by (destruct Hg'; eauto). destruct Hx as (a & b & Hne).
      exists a, b, (Fin (strength_of st (pair_nodes true ts a b))). assert (Hv : In (a, b, Fin (strength_of st (pair_nodes true ts a b))) t) by (apply Ht; auto). split; [exact Hv|]. split; [exact (Hab _ _ _ Hv)|]. left. exact Hnn. }
    { exact Hu. }
    { cbn. tauto. }
    pose proof Ep as Ep0. unfold ss_plot in Ep0. rewrite Et, Efi in Ep0.
    match type of Ep0 with visualize _ _ _ _ ?d0 _ _ _ = _ => set (d := d0) in Ep0 end.
    assert (Ep' : (do p <- plot_heatmap xR srt lower t (Some fi) title (pd_int_asc d) (pd_imp_asc d) false (k_own kw); Ok (None, [p])) = Ok f) by (rewrite <- Ep0; reflexivity).
    destruct (plot_heatmap xR srt lower t (Some fi) title _ _ false (k_own kw)) as [p|] eqn:Eh; [|discriminate]. cbn [bind] in Ep'. injection Ep' as <-.
    assert (Hp : exists ti c1 c2 labels imp int, p = PHeatmap ti c1 c2 labels imp int).
    { clear -Eh. unfold plot_heatmap in Eh. destruct (all_pairs _ _ _) as [rows|]; [|discriminate]. cbn [bind] in Eh. destruct (order_heatmap _ _ _ _ _ _) as [[|x l]|]; try discriminate. cbn [bind] in Eh. injection Eh as <-. eauto 10. }
    destruct Hp as (ti & c1 & c2 & labels & imp & int & ->). exists ti, c1, c2, labels, imp, int. split; [exact Ep|].
    destruct (heatmap_cells _ _ _ _ _ _ _ _ _ _ _ _ _ Eh) as (rows & Er & Hndl & Hocc & Hall & Hent).
    assert (Himp : forall g, occurs g t -> exists v, has_importance fi g v).
    { intros g Ho. unfold all_pairs in Er. destruct (importance_diag t fi) as [dd|] eqn:Ed; [|discriminate].
      destruct (in_dec string_dec g (map fst fi)) as [Hin|Hin]; [apply (has_importance_ex fi g Hin)|]. rewrite (diag_missing t fi g Ho Hin) in Ed. discriminate. }
    split; [exact Hndl|]. split; [|split].
    - intros g. split.
      + intros Hgl. destruct (Himp g (Hocc g Hgl)) as (v & Hv). apply has_importance_In, Hfi in Hv. tauto.
      + intros Hne. apply (Hall Hnn). destruct (Hcov g Hne) as (g' & [H|H]); eexists; (split; [apply Ht; split; [exact H|reflexivity]|]); cbn [fst snd]; auto.
    - intros i g Hi. destruct (Hent i i g g Hi Hi) as [E1 E2]. rewrite String.eqb_refl in E1, E2. split; [exact E2|]. rewrite E1. f_equal.
      pose proof (Hocc g (nth_error_In _ _ Hi)) as Ho. destruct (Himp g Ho) as (v & Hv). assert (Ev : v = Fin (weight_of w (split_nodes ts g))) by (pose proof (has_importance_In _ _ _ Hv) as H; apply Hfi in H; tauto).
      assert (HA : forall x, In (g, g, x) rows <-> x = v).
      { intros x. rewrite (all_pairs_In t fi false rows Er). split; [|intros ->; auto]. intros [H|[[_ H]|(_ & _ & H)]]; [destruct (Hab _ _ _ H eq_refl)|destruct (Hab _ _ _ H eq_refl)|]. apply (has_importance_fun fi g x v H Hv). }
      unfold show. destruct (cell_spec xR rows g g) as [([[a b] x] & Hx & Ek & Hnx & ->)|[Hno ->]].
      + cbn [fst snd] in *. injection Ek as -> ->. apply HA in Hx as ->. rewrite Ev. reflexivity.
      + exfalso. pose proof (Hno (g, g, v) (proj2 (HA v) eq_refl) eq_refl) as Hnv. cbn [snd] in Hnv. rewrite Ev in Hnv. discriminate.
    - intros i j g1 g2 Hij Hi Hj. assert (Hg12 : g1 <> g2) by (intros E; apply Hij; rewrite <- E in Hj; exact (nth_once _ _ _ _ Hndl Hi Hj)).
      destruct (Hent i j g1 g2 Hi Hj) as [E1 E2]. pose proof (proj2 (String.eqb_neq _ _) Hg12) as Hb. rewrite Hb in E1, E2. split; [exact E1|]. rewrite E2. f_equal.
      destruct (undirected_cell t fi rows g1 g2 Er Hnd Hnt Hg12) as (U1 & U2 & U3).
      destruct (pair_nodes true ts g1 g2) as [|x l] eqn:P1.
      + assert (Hno : forall v, ~ In (g1, g2, v) t) by (intros v Hv; apply Ht in Hv as [Hne _]; congruence).
        destruct (pair_nodes true ts g2 g1) as [|y l'] eqn:P2.
        * apply (U3 Hno). intros v Hv. apply Ht in Hv as [Hne _]. congruence.
        * rewrite <- P2. apply (U2 Hno). apply Ht. split; [congruence|reflexivity].
      + rewrite <- P1. apply U1. apply Ht. split; [congruence|reflexivity].
  Qed.
End Split.

(** ** Example *)
Definition boost1 (x1 x2 x3 : R) : rtree :=
  GSplit 0 "a" (Fin x1) (Some (Fin 10%R)) (GSplit 1 "b" (Fin x2) (Some (Fin 6%R)) (GLeaf 3) (GLeaf 4)) (GSplit 2 "a" (Fin x3) (Some (Fin 4%R)) (GLeaf 5) (GLeaf 6)).
Definition boost2 (x4 x5 : R) : rtree := GSplit 0 "b" (Fin x4) (Some (Fin 10%R)) (GSplit 1 "a" (Fin x5) (Some (Fin 7%R)) (GLeaf 3) (GLeaf 4)) (GLeaf 2).
Definition level_order (t : rtree) : list (entry (ext R)) :=
  fold_right (fun e acc => filter (fun x => eid x <? eid e) acc ++ e :: filter (fun x => negb (eid x <? eid e)) acc) [] (entries None 0 t).
Definition dump_row (z : Z) (e : entry (ext R)) : xgb_row (ext R) :=
  match e_node e with
  | GLeaf i => {| x_tree := z; x_node := i; x_feature := "Leaf"; x_yes := None; x_no := None; x_gain := Fin 0%R; x_cover := Fin 1%R |}
  | GSplit i f g c l r => {| x_tree := z; x_node := i; x_feature := f; x_yes := Some (gid l); x_no := Some (gid r); x_gain := g; x_cover := match c with Some x => x | None => Fin 0%R end |}
  end.
Definition boosted (ts : list rtree) : gb_model (ext R) :=
  {| gm_class := "xgboost.sklearn.XGBClassifier";
     gm_dump := XDump (map (fun ze => dump_row (fst ze) (snd ze)) (tagged (map Z.of_nat (seq 0 (length ts))) (map level_order ts))) |}.
Lemma boost1_listing x1 x2 x3 : listing (boost1 x1 x2 x3) (level_order (boost1 x1 x2 x3)).
Proof. unfold boost1. generalize (Fin 10%R) (Fin 6%R) (Fin 4%R) (Fin x1) (Fin x2) (Fin x3). intros v1 v2 v3 v4 v5 v6. listing_tac. Qed.
Lemma boost2_listing x4 x5 : listing (boost2 x4 x5) (level_order (boost2 x4 x5)).
Proof. unfold boost2. generalize (Fin 10%R) (Fin 7%R) (Fin x4) (Fin x5). intros v1 v2 v3 v4. listing_tac. Qed.
Lemma boosted_trained ts : (forall t, In t ts -> gid t = 0 /\ listing t (level_order t)) -> (forall t e, In t ts -> In e (level_order t) -> gsplit (e_node e) = true -> ecover e <> None) ->
  trained (boosted ts) Xgboost ts (map level_order ts).
Proof.
  intros H Hc. exists (map Z.of_nat (seq 0 (length ts))). split; [apply zs_sorted|]. split; [rewrite !map_length, seq_length; reflexivity|]. split.
  - apply Forall2_map_self. intros t Ht. apply H, Ht.
  - exists "sklearn.XGBClassifier". eexists. split; [reflexivity|]. split; [reflexivity|]. split; [intros t Ht; apply H, Ht|].
    apply Forall2_map_self. intros [z e] He. unfold tagged in He. apply in_concat in He as (l & Hl & He). apply in_map_iff in Hl as ([z' L] & <- & HzL). apply in_map_iff in He as (e' & Ee & He). cbn [fst snd] in *.
    apply in_combine_r in HzL. apply in_map_iff in HzL as (t & <- & Ht). injection Ee as -> ->. specialize (Hc t e Ht He).
    unfold xgb_lists, dump_row, eid, ecover in *. destruct (e_node e) as [|i f g c lt rt]; cbn in *; [auto|]. destruct c; [repeat split|exfalso; apply Hc; reflexivity].
Qed.
Definition boost_trees : list rtree := [boost1 4 5 2; boost2 3 7].
Ltac node_cases H := cbn [nodes boost_trees boost1 boost2 map concat entries app] in H; repeat (destruct H as [<-|H]); [..|destruct H].
Lemma boost_nodes_a : map gain_of (split_nodes boost_trees "a") = [4; 2; 7]%R. Proof. reflexivity. Qed.
Lemma boost_nodes_b : map gain_of (split_nodes boost_trees "b") = [5; 3]%R. Proof. reflexivity. Qed.
Lemma boost_input st w : split_input (Model (boosted boost_trees)) Xgboost boost_trees st w.
Proof.
  split.
  - exists (map level_order boost_trees). exists (boosted boost_trees). split; [|left; reflexivity]. apply boosted_trained.
    + intros t [<-|[<-|[]]]; (split; [reflexivity|]); [apply boost1_listing|apply boost2_listing].
    + intros t e Ht He Hs. assert (He' : In e (nodes boost_trees)).
      { unfold nodes, boost_trees. destruct Ht as [<-|[<-|[]]]; cbn [map concat]; apply in_or_app; [left|right; apply in_or_app; left]; eapply Permutation_in; try exact He; [apply (ls_perm _ _ (boost1_listing _ _ _))|apply (ls_perm _ _ (boost2_listing _ _))]. }
      clear He Ht. node_cases He'; cbn in *; congruence.
  - intros t e Ht He. assert (He' : In e (nodes boost_trees)) by (unfold nodes; apply in_concat; exists (entries None 0 t); split; [apply in_map, Ht|exact He]). node_cases He'; cbn; first [exact I|discriminate].
  - intros e He Hf. node_cases He; cbn in *; first [congruence|eauto].
  - intros _. split; [reflexivity|]. intros e He Hf. node_cases He; cbn in *; first [congruence|eauto].
  - eexists {| e_parent := Some (boost1 4 5 2); e_depth := 1; e_node := GSplit 1 "b" (Fin 5%R) (Some (Fin 6%R)) (GLeaf 3) (GLeaf 4) |}. split; [|discriminate]. right. left. reflexivity.
  - intros f Hne. apply (nonempty_In (split_nodes boost_trees f)) in Hne as (e & He). apply filter_In in He as [He Hb].
    assert (Hf : f = "a" \/ f = "b") by (node_cases He; unfold splits_onb in Hb; cbn [efeat e_node] in Hb; try discriminate; apply String.eqb_eq in Hb; auto).
    destruct Hf as [->| ->]; [rewrite boost_nodes_a|rewrite boost_nodes_b]; rewrite ?Rsum_cons, ?Rsum_nil; lra.
Qed.

Lemma boost_better : Rltb 4 5 = true /\ Rltb 4 2 = false /\ Rltb 3 7 = true.
Proof. rewrite !Rltb_spec, Rltb_false. lra. Qed.
Lemma boost_ab : map gain_of (pair_nodes true boost_trees "a" "b") = [5]%R /\ map gain_of (pair_nodes true boost_trees "b" "a") = [7]%R.
Proof.
  destruct boost_better as (E1 & E2 & E3). unfold pair_nodes, nodes, boost_trees. cbn [map concat entries boost1 boost2 app filter]. unfold chosen, epairb, better. cbn. rewrite E1, E2, E3. split; reflexivity.
Qed.
(* the value of the pair is the stronger direction; the heatmap shows each direction by itself *)
Example C118_example :
  interaction_value (mv_compare (ss_compared xR isort (fst (ss_fit xR isort ss_init (Model (boosted boost_trees)) "sum_gain" "mean_gain" true)))) "a" "b" = Ok (Fin 7%R)
  /\ strength_of TotalGain (pair_nodes true boost_trees "a" "b") = 5%R /\ strength_of TotalGain (pair_nodes true boost_trees "b" "a") = 7%R
  /\ weight_of WMeanGain (split_nodes boost_trees "a") = (13 / 3)%R
  /\ (forall f, split_nodes boost_trees f <> [] -> exists g, pair_nodes true boost_trees f g <> [] \/ pair_nodes true boost_trees g f <> []).
Proof.
  destruct boost_ab as [Eab Eba]. assert (Sab : strength_of TotalGain (pair_nodes true boost_trees "a" "b") = 5%R) by (cbn [strength_of]; rewrite Eab, Rsum_cons, Rsum_nil; lra).
  assert (Sba : strength_of TotalGain (pair_nodes true boost_trees "b" "a") = 7%R) by (cbn [strength_of]; rewrite Eba, Rsum_cons, Rsum_nil; lra).
  assert (Nab : pair_nodes true boost_trees "a" "b" <> []) by (intros E; rewrite E in Eab; discriminate). assert (Nba : pair_nodes true boost_trees "b" "a" <> []) by (intros E; rewrite E in Eba; discriminate).
  split; [|split; [exact Sab|split; [exact Sba|split]]].
  - destruct (C118_value isort isort_ok ss_init _ _ _ TotalGain WMeanGain true "a" "b" (boost_input TotalGain WMeanGain)) as [_ H]. cbn [strength_name weight_name] in H.
    destruct (interaction_value _ "a" "b") as [v|e]; [|destruct H as (_ & H & _); contradiction]. destruct H as (x & y & Hxy & Hne & -> & Hmax). destruct Hxy as [[-> ->]|[-> ->]]; [|rewrite Sba; reflexivity].
    exfalso. specialize (Hmax Nba). rewrite Sab, Sba in Hmax. cbn in Hmax. lra.
  - cbn [weight_of]. rewrite boost_nodes_a. unfold Rmean. rewrite !Rsum_cons, Rsum_nil. cbn. lra.
  - intros f Hne. apply (nonempty_In (split_nodes boost_trees f)) in Hne as (e & He). apply filter_In in He as [He Hb].
    assert (Hf : f = "a" \/ f = "b") by (node_cases He; unfold splits_onb in Hb; cbn [efeat e_node] in Hb; try discriminate; apply String.eqb_eq in Hb; auto).
    destruct Hf as [->| ->]; [exists "b"|exists "a"]; auto.
Qed.

Print Assumptions C118_value.
Print Assumptions C118_bars.
Print Assumptions C118_heatmap.
