(** Tables of the split score method in terms of the nodes of the ensemble. *)
From Verif Require Import Py Num Sorting Frame CondDepth TreeFacts ForestFacts SplitScore SplitFacts.
Open Scope string_scope.
Open Scope nat_scope.
Open Scope list_scope.

(** ** Specification: what a trained model lists *)
Section Spec.
  Context {V : Type} (N : num_ops V).

  (** rows of the two packages for a node of tree [z] *)
  Definition xgb_lists (z : Z) (e : entry V) (x : xgb_row V) : Prop :=
    x_tree x = z /\ x_node x = eid e /\
    match e_node e with
    | GLeaf _ => x_feature x = "Leaf"
    | GSplit _ f g c l r => x_feature x = f /\ x_gain x = g /\ Some (x_cover x) = c /\ x_yes x = Some (gid l) /\ x_no x = Some (gid r)
    end.
  Definition lgb_lists (z : Z) (e : entry V) (x : lgb_row V) : Prop :=
    l_tree x = z /\ l_index x = eid e /\ l_depth x = S (e_depth e) /\
    match e_node e with
    | GLeaf _ => l_feature x = None
    | GSplit _ f g c l r => l_feature x = Some f /\ l_gain x = g /\ c = None /\ l_left x = Some (gid l) /\ l_right x = Some (gid r)
    end.

  (** the nodes of all trees with their tree numbers *)
  Definition tagged (zs : list Z) (Ls : list (list (entry V))) : list (Z * entry V) :=
    concat (map (fun p => map (pair (fst p)) (snd p)) (combine zs Ls)).

  (** a trained ensemble of the trees [ts], numbered [zs] and listed as [Ls] *)
  Definition trained_at (zs : list Z) (m : gb_model V) (pk : package) (ts : list (gtree V)) (Ls : list (list (entry V))) : Prop :=
    StronglySorted Z.lt zs /\ length zs = length Ls /\ Forall2 listing ts Ls /\
    match pk with
    | Xgboost => exists cls rows, gm_class m = String.append "xgboost." cls /\ gm_dump m = XDump rows
                 /\ (forall t, In t ts -> gid t = 0) /\ Forall2 (fun ze x => xgb_lists (fst ze) (snd ze) x) (tagged zs Ls) rows
    | Lightgbm => exists cls rows, gm_class m = String.append "lightgbm." cls /\ gm_dump m = LDump rows
                 /\ Forall2 (fun ze x => lgb_lists (fst ze) (snd ze) x) (tagged zs Ls) rows
    end.
  Definition trained (m : gb_model V) (pk : package) (ts : list (gtree V)) (Ls : list (list (entry V))) : Prop := exists zs, trained_at zs m pk ts Ls.

  (** no feature is called "Leaf" *)
  Definition no_leaf_name (ts : list (gtree V)) : Prop :=
    forall t e, In t ts -> In e (entries None 0 t) -> match e_node e with GSplit _ f _ _ _ _ => f <> "Leaf" | GLeaf _ => True end.

  Definition efeat (e : entry V) : option string := match e_node e with GSplit _ f _ _ _ _ => Some f | GLeaf _ => None end.
  Definition egain (e : entry V) : V := match e_node e with GSplit _ _ g _ _ _ => g | GLeaf _ => n_nan N end.
  Definition ecover (e : entry V) : option V := match e_node e with GSplit _ _ _ c _ _ => c | GLeaf _ => None end.
  (** parent feature and feature of an internal node below the root *)
  Definition epair (e : entry V) : option (string * string) :=
    match e_parent e, e_node e with Some (GSplit _ p _ _ _ _), GSplit _ f _ _ _ _ => Some (p, f) | _, _ => None end.
  (** a better split than its parent's, on another feature *)
  Definition better (e : entry V) : bool :=
    match e_parent e, e_node e with Some (GSplit _ p pg _ _ _), GSplit _ f g _ _ _ => n_ltb N pg g && negb (String.eqb f p) | _, _ => false end.
  Definition chosen (only_def : bool) (e : entry V) : bool := match epair e with None => false | Some _ => if only_def then better e else true end.
  Definition epairb (k : string * string) (e : entry V) : bool := match epair e with Some k' => pair_eqb k' k | None => false end.

  Definition edepth (e : entry V) : V := n_ofZ N (Z.of_nat (e_depth e)).
  Definition pair_of_nodes (k : string * string) (g : list (entry V)) : orow := {|
    o_parent := fst k; o_child := snd k;
    o_mean_gain := mean_skip N (map egain g); o_sum_gain := sum_skip N (map egain g);
    o_mean_cover := mean_skip N (somes (map ecover g)); o_sum_cover := sum_skip N (somes (map ecover g));
    o_mean_depth := mean_skip N (map edepth g); o_frequency := length g |}.

  (** nodes splitting on a feature *)
  Definition splits_onb (f : string) (e : entry V) : bool := match efeat e with Some g => String.eqb g f | None => false end.
  Definition considered (features : option (list string)) (e : entry V) : bool :=
    match efeat e with Some f => match features with Some fs => existsb (String.eqb f) fs | None => true end | None => false end.
End Spec.

(** ** From dumps to unified tables *)
Section Facts.
  Context {V : Type} (N : num_ops V) (srt : sorter).
  Notation entry := (entry V).

  Lemma before_dot_app p s : (forall c, In c (list_ascii_of_string p) -> Ascii.eqb c "."%char = false) -> before_dot (String.append p (String "."%char s)) = p.
  Proof.
    induction p as [|c p IH]; intros H; [reflexivity|]. cbn. rewrite (H c (or_introl eq_refl)). f_equal. apply IH. intros x Hx. apply H. right. exact Hx.
  Qed.

  Lemma sorted_unique (l k : list Z) : StronglySorted Z.lt l -> StronglySorted Z.lt k -> (forall z, In z l <-> In z k) -> l = k.
  Proof.
    intros Hl. revert k. induction Hl as [|x l Hl IH Hx]; intros k Hk H.
    - destruct k as [|y k]; [reflexivity|]. exfalso. apply (H y). left. reflexivity.
    - destruct Hk as [|y k Hk Hy]; [exfalso; apply (H x); left; reflexivity|].
      rewrite Forall_forall in Hx, Hy. assert (x = y) as <-.
      { destruct (proj1 (H x) (or_introl eq_refl)) as [->|Hin]; [reflexivity|]. destruct (proj2 (H y) (or_introl eq_refl)) as [->|Hin']; [reflexivity|].
        specialize (Hy _ Hin). specialize (Hx _ Hin'). lia. }
      f_equal. apply IH; [exact Hk|]. intros z. split; intros Hz.
      + destruct (proj1 (H z) (or_intror Hz)) as [<-|]; [|assumption]. specialize (Hx _ Hz). lia.
      + destruct (proj2 (H z) (or_intror Hz)) as [<-|]; [|assumption]. specialize (Hy _ Hz). lia.
  Qed.

  Lemma filter_chunk zs (cs : list (list (urow V))) : StronglySorted Z.lt zs ->
    Forall2 (fun z c => c <> [] /\ forall r, In r c -> u_tree r = z) zs cs ->
    map (fun z => filter (fun r => Z.eqb (u_tree r) z) (concat cs)) zs = cs.
  Proof.
    intros Hs HF. induction HF as [|z c zs cs [Hne Hc] HF IH]; [reflexivity|]. inversion Hs as [|? ? Hs' Hz]; subst. cbn [map concat]. rewrite Forall_forall in Hz. f_equal.
    - rewrite filter_app, filter_id_all, filter_none_all; [apply app_nil_r| |].
      + intros r Hr. apply Z.eqb_neq. apply in_concat in Hr as (c' & Hc' & Hr).
        destruct (Forall2_In_r _ _ _ _ HF Hc') as (z' & Hz' & _ & Hrz). rewrite (Hrz r Hr). apply in_combine_l in Hz'. specialize (Hz _ Hz'). lia.
      + intros r Hr. apply Z.eqb_eq. auto.
    - specialize (IH Hs'). etransitivity; [|exact IH]. apply map_ext_in. intros z' Hz'. rewrite filter_app, filter_none_all; [reflexivity|].
      intros r Hr. rewrite (Hc r Hr). apply Z.eqb_neq. specialize (Hz _ Hz'). lia.
  Qed.

  Lemma by_tree_chunks zs (cs : list (list (urow V))) : StronglySorted Z.lt zs ->
    Forall2 (fun z c => c <> [] /\ forall r, In r c -> u_tree r = z) zs cs -> by_tree (concat cs) = cs.
  Proof.
    intros Hs HF. unfold by_tree. etransitivity; [|exact (filter_chunk zs cs Hs HF)]. f_equal.
    apply sorted_unique; [|exact Hs|].
    - eapply StronglySorted_impl; [|apply (np_unique_sorted Zcell Zcell_ok); intros; apply Znan]. intros a b _ _ H. cbn in H. apply Z.ltb_lt. exact H.
    - intros z. rewrite (np_unique_In Zcell Zcell_ok _ z (Znan z)), in_map_iff. split.
      + intros (r & <- & Hr). apply in_concat in Hr as (c & Hc & Hr). destruct (Forall2_In_r _ _ _ _ HF Hc) as (z & Hz & _ & Hrz). rewrite (Hrz r Hr). exact (in_combine_l _ _ _ _ Hz).
      + intros Hz. destruct (Forall2_In_l _ _ _ _ HF Hz) as (c & Hc & Hne & Hrz). destruct c as [|r c]; [congruence|]. exists r. split; [apply Hrz; left; reflexivity|].
        apply in_concat. exists (r :: c). split; [exact (in_combine_r _ _ _ _ Hc)|left; reflexivity].
  Qed.

  (** cut a relation over [tagged] into the trees *)
  Lemma tagged_chunks {R} (Q : Z -> entry -> R -> Prop) zs : forall Ls rows, length zs = length Ls ->
    Forall2 (fun ze x => Q (fst ze) (snd ze) x) (tagged zs Ls) rows ->
    exists cs, rows = concat cs /\ Forall2 (fun zL c => Forall2 (Q (fst zL)) (snd zL) c) (combine zs Ls) cs.
  Proof.
    induction zs as [|z zs IH]; intros [|L Ls] rows Hlen H; cbn in Hlen; try discriminate.
    - inversion H. exists []. split; [reflexivity|constructor].
    - unfold tagged in H. cbn [combine map concat fst snd] in H. apply Forall2_app_inv_l in H as (c & rest & H1 & H2 & ->).
      destruct (IH Ls rest) as (cs & -> & HF); [congruence|exact H2|]. exists (c :: cs). split; [reflexivity|]. cbn [combine]. constructor; [|exact HF]. cbn [fst snd].
      clear -H1. remember (map (pair z) L) as K eqn:EK. revert L EK. induction H1 as [|ze x K c H HF IH]; intros [|e L] EK; try discriminate; [constructor|].
      injection EK as -> ->. constructor; [exact H|]. apply IH. reflexivity.
  Qed.

  (** unified tables: one chunk of rows per tree *)
  Definition unified_at (zs : list Z) (pk : package) (ts : list (gtree V)) (Ls : list (list entry)) (rows : list (urow V)) : Prop :=
    exists cs, StronglySorted Z.lt zs /\ length zs = length Ls /\ Forall2 listing ts Ls /\ rows = concat cs
      /\ Forall2 (fun zL c => Forall2 (fresh_row pk (fst zL)) (snd zL) c) (combine zs Ls) cs /\ (is_xgb pk = true -> forall t, In t ts -> gid t = 0).
  Definition unified (pk : package) (ts : list (gtree V)) (Ls : list (list entry)) (rows : list (urow V)) : Prop := exists zs, unified_at zs pk ts Ls rows.

  Lemma trained_unified_at zs m pk ts Ls : trained_at zs m pk ts Ls -> (pk = Xgboost -> no_leaf_name ts) ->
    exists h, unify_structure m = Ok h /\ h_package h = pk /\ unified_at zs pk ts Ls (h_trees h).
  Proof.
    intros (Hs & Hlen & HL & Hm) Hnl. unfold unify_structure.
    assert (HinL : forall z L e, In (z, L) (combine zs Ls) -> In e L -> exists t, In t ts /\ In e (entries None 0 t)).
    { intros z L e H He. apply in_combine_r in H. destruct (Forall2_In_r _ _ _ _ HL H) as (t & Ht & Hlist). exists t. split; [exact (in_combine_l _ _ _ _ Ht)|].
      exact (Permutation_in _ (ls_perm t L Hlist) He). }
    destruct pk.
    - destruct Hm as (cls & rows & -> & -> & Hroot & HF).
      change (String.append "xgboost." cls) with (String.append "xgboost" (String "."%char cls)). rewrite before_dot_app by (cbn; intuition (subst; reflexivity)).
      cbn [String.eqb Ascii.eqb Bool.eqb]. eexists. split; [reflexivity|]. split; [reflexivity|]. cbn [h_trees].
      destruct (tagged_chunks xgb_lists zs Ls rows Hlen HF) as (cs & -> & HF2). exists (map (map unify_xgb) cs).
      split; [exact Hs|split; [exact Hlen|split; [exact HL|split; [apply concat_map|split; [|intros _; exact Hroot]]]]].
      specialize (Hnl eq_refl). clear -HF2 Hnl HinL. induction HF2 as [|[z L] c K cs H HF IH]; [constructor|]. cbn [map]. constructor; [|apply IH; intros; eapply HinL; [right|]; eassumption].
      cbn [fst snd] in *. assert (Hin : forall e, In e L -> exists t, In t ts /\ In e (entries None 0 t)) by (intros e; apply (HinL z); left; reflexivity). clear -H Hnl Hin.
      induction H as [|e x L c H HF IH]; cbn [map]; constructor; [|apply IH; intros; apply Hin; right; assumption].
      destruct (Hin e (or_introl eq_refl)) as (t & Ht & He). specialize (Hnl t e Ht He). destruct H as (H1 & H2 & H3). unfold fresh_row. cbn.
      split; [exact H1|split; [exact H2|split; [reflexivity|split; [reflexivity|split; [reflexivity|]]]]].
      destruct (e_node e) as [i|i f g cv l r]; [rewrite H3; split; reflexivity|]. destruct H3 as (H3 & H4 & H5 & H6 & H7). rewrite H3.
      split; [apply String.eqb_neq; exact Hnl|]. auto.
    - destruct Hm as (cls & rows & -> & -> & HF).
      change (String.append "lightgbm." cls) with (String.append "lightgbm" (String "."%char cls)). rewrite before_dot_app by (cbn; intuition (subst; reflexivity)).
      cbn [String.eqb Ascii.eqb Bool.eqb]. eexists. split; [reflexivity|]. split; [reflexivity|]. cbn [h_trees].
      destruct (tagged_chunks lgb_lists zs Ls rows Hlen HF) as (cs & -> & HF2). exists (map (map unify_lgb) cs).
      split; [exact Hs|split; [exact Hlen|split; [exact HL|split; [apply concat_map|split; [|discriminate]]]]].
      clear -HF2. induction HF2 as [|[z L] c K cs H HF IH]; [constructor|]. cbn [map]. constructor; [|exact IH]. cbn [fst snd] in *. clear -H.
      induction H as [|e x L c H HF IH]; cbn [map]; constructor; [|exact IH]. destruct H as (H1 & H2 & H3 & H4). unfold fresh_row. cbn.
      split; [exact H1|split; [exact H2|split; [reflexivity|split; [reflexivity|split; [rewrite H3; cbn; rewrite Nat.sub_0_r; reflexivity|]]]]].
      destruct (e_node e) as [i|i f g cv l r]; [rewrite H4; split; reflexivity|]. destruct H4 as (H4 & H5 & -> & H6 & H7). rewrite H4. auto 10.
  Qed.

  Lemma trained_unified m pk ts Ls : trained m pk ts Ls -> (pk = Xgboost -> no_leaf_name ts) ->
    exists h, unify_structure m = Ok h /\ h_package h = pk /\ unified pk ts Ls (h_trees h).
  Proof. intros (zs & H) Hn. destruct (trained_unified_at zs m pk ts Ls H Hn) as (h & E & Hp & Hu). exists h. split; [exact E|]. split; [exact Hp|]. exists zs. exact Hu. Qed.

  Lemma listing_ne t (L : list entry) : listing t L -> L <> [].
  Proof. intros [HP _ _] ->. apply Permutation_nil in HP. destruct t; discriminate. Qed.

  (** all nodes of a listing have a parent exactly when they are not at depth 0 *)
  Definition placed (e : entry) : Prop := (e_parent e = None <-> e_depth e = 0) /\ forall q, e_parent e = Some q -> gsplit q = true.
  Lemma listing_placed t (L : list entry) e : listing t L -> In e L -> placed e.
  Proof.
    intros [HP _ _] He. apply (Permutation_in _ HP) in He. split.
    - split.
      + intros E. rewrite (entries_root t e He E). reflexivity.
      + intros E. destruct (e_parent e) as [q|] eqn:Eq; [|reflexivity]. destruct (entries_up t e q He Eq) as (e' & i & f & g & c & l & r & _ & _ & _ & Ed & _). congruence.
    - intros q Eq. destruct (entries_up t e q He Eq) as (e' & i & f & g & c & l & r & _ & _ & -> & _). reflexivity.
  Qed.

  Lemma unified_by_tree pk ts Ls rows : unified pk ts Ls rows ->
    Forall2 (fun tL c => listing (fst tL) (snd tL) /\ (is_xgb pk = true -> gid (fst tL) = 0) /\ exists z, Forall2 (fresh_row pk z) (snd tL) c) (combine ts Ls) (by_tree rows).
  Proof.
    intros (zs & cs & Hs & Hlen & HL & -> & HF & Hx).
    assert (Hb : by_tree (concat cs) = cs).
    { apply (by_tree_chunks zs cs Hs). clear -Hlen HL HF. revert zs cs Hlen HF. induction HL as [|t L ts Ls H HL IH]; intros [|z zs] cs Hlen HF; cbn in Hlen; try discriminate.
      - inversion HF. constructor.
      - cbn [combine] in HF. inversion HF as [|? c ? cs' Hc HF']; subst. constructor; [|apply IH; [congruence|exact HF']]. cbn [fst snd] in Hc. split.
        + intros ->. inversion Hc. eapply listing_ne; eauto.
        + intros r Hr. destruct (Forall2_In_r _ _ _ _ Hc Hr) as (e & _ & Hf). exact (proj1 Hf). }
    rewrite Hb. clear Hb Hs. revert zs cs Hlen HF. induction HL as [|t L ts Ls H HL IH]; intros [|z zs] cs Hlen HF; cbn in Hlen; try discriminate.
    - inversion HF. constructor.
    - cbn [combine] in *. inversion HF as [|? c ? cs' Hc HF']; subst. constructor.
      + cbn [fst snd] in *. split; [exact H|]. split; [intros E; apply Hx; [exact E|left; reflexivity]|]. eauto.
      + apply (IH (fun E t' Ht' => Hx E t' (or_intror Ht')) zs cs'); [congruence|exact HF'].
  Qed.

  (** ** The full table *)
  Definition done_row (pk : package) (e : entry) (r : urow V) : Prop := placed e /\ exists z, final_row N pk z e r.

  Lemma done_has_parent pk e r : done_row pk e r -> has_parent r = match epair e with Some _ => true | None => false end.
  Proof.
    intros ((_ & Hq) & z & _ & _ & H). unfold has_parent, epair. destruct (e_node e).
    - destruct H as (_ & _ & -> & _). destruct (e_parent e) as [[]|]; reflexivity.
    - destruct H as (_ & _ & _ & _ & _ & H). destruct (e_parent e) as [[]|]; destruct H as [-> _]; reflexivity.
  Qed.
  Lemma done_pair_key pk e r : done_row pk e r -> pair_key r = epair e.
  Proof.
    intros ((_ & Hq) & z & _ & _ & H). unfold pair_key, epair. destruct (e_node e).
    - destruct H as (_ & _ & -> & _). destruct (e_parent e) as [[]|]; reflexivity.
    - destruct H as (_ & -> & _ & _ & _ & H). destruct (e_parent e) as [[]|]; destruct H as [-> _]; reflexivity.
  Qed.
  Lemma done_selected pk od e r : done_row pk e r -> epair e <> None -> selected od r = chosen N od e.
  Proof.
    intros ((Hd & Hq) & z & _ & _ & H) He. unfold selected, chosen, better. unfold epair in *. destruct (e_parent e) as [[|i pf pg pc pl pr]|] eqn:Ep; try congruence.
    destruct (e_node e) as [|i' f g c l r']; [congruence|]. destruct H as (_ & _ & _ & _ & -> & _ & ->). destruct od; [reflexivity|].
    destruct (Nat.ltb_spec 0 (e_depth e)); [reflexivity|]. assert (E0 : e_depth e = 0) by lia. apply Hd in E0. discriminate.
  Qed.

  Lemma full_spec pk ts Ls rows : unified pk ts Ls rows ->
    exists full, mapM (prepare_stats N pk) (by_tree rows) = Ok full /\ Forall2 (done_row pk) (concat Ls) (concat full).
  Proof.
    intros H. pose proof H as (_ & _ & _ & _ & HLs & _). apply unified_by_tree in H. revert H. generalize (by_tree rows) as cs. intros cs H.
    assert (G : exists full, mapM (prepare_stats N pk) cs = Ok full /\ Forall2 (fun tL c => Forall2 (done_row pk) (snd tL) c) (combine ts Ls) full).
    { clear HLs. induction H as [|[t L] c K cs H HF IH]; [exists []; split; [reflexivity|constructor]|]. cbn [fst snd] in H. destruct H as (Hl & Hx & z & Hz). destruct IH as (full & E & HFF).
      destruct (prepare_stats_spec N pk t L z c Hl Hz Hx) as (R1 & E1 & H1). exists (R1 :: full). cbn. rewrite E1. cbn. rewrite E. split; [reflexivity|]. constructor; [|exact HFF]. cbn [snd].
      assert (Hpl : forall e, In e L -> placed e) by (intros e; apply (listing_placed t L e Hl)). clear -H1 Hpl.
      induction H1; constructor; [split; [apply Hpl; left; reflexivity|eauto]|apply IHForall2; intros; apply Hpl; right; assumption]. }
    destruct G as (full & E & HF). exists full. split; [exact E|].
    clear -HF HLs. revert full HF. induction HLs as [|t L ts Ls H HL IH]; intros full HF; cbn [combine] in HF; inversion HF; subst; cbn [concat]; [constructor|].
    apply Forall2_app; [assumption|apply IH; assumption].
  Qed.

  (** with the numbers of the trees *)
  Lemma full_spec_at zs pk ts Ls rows : unified_at zs pk ts Ls rows ->
    exists full, mapM (prepare_stats N pk) (by_tree rows) = Ok full /\ Forall2 (fun ze r => placed (snd ze) /\ final_row N pk (fst ze) (snd ze) r) (tagged zs Ls) (concat full).
  Proof.
    intros (cs & Hs & Hlen & HL & -> & HF & Hx).
    assert (Hb : by_tree (concat cs) = cs).
    { apply (by_tree_chunks zs cs Hs). clear -Hlen HL HF. revert zs cs Hlen HF. induction HL as [|t L ts Ls H HL IH]; intros [|z zs] cs Hlen HF; cbn in Hlen; try discriminate.
      - inversion HF. constructor.
      - cbn [combine] in HF. inversion HF as [|? c ? cs' Hc HF']; subst. constructor; [|apply IH; [congruence|exact HF']]. cbn [fst snd] in Hc. split.
        + intros ->. inversion Hc. eapply listing_ne; eauto.
        + intros r Hr. destruct (Forall2_In_r _ _ _ _ Hc Hr) as (e & _ & Hf). exact (proj1 Hf). }
    rewrite Hb. clear Hb Hs. revert zs cs Hlen HF. induction HL as [|t L ts Ls H HL IH]; intros [|z zs] cs Hlen HF; cbn in Hlen; try discriminate.
    - inversion HF. exists []. split; [reflexivity|constructor].
    - cbn [combine] in *. inversion HF as [|? c ? cs' Hc HF']; subst. cbn [fst snd] in Hc.
      destruct (IH (fun E t' Ht' => Hx E t' (or_intror Ht')) zs cs') as (full & E & HFF); [congruence|exact HF'|].
      destruct (prepare_stats_spec N pk t L z c H Hc) as (R1 & E1 & H1). { intros E0. apply Hx; [exact E0|left; reflexivity]. }
      exists (R1 :: full). cbn. rewrite E1. cbn. rewrite E. split; [reflexivity|]. unfold tagged. cbn [combine map concat fst snd]. apply Forall2_app; [|exact HFF].
      assert (Hpl : forall e, In e L -> placed e) by (intros e; apply (listing_placed t L e H)). clear -H1 Hpl.
      induction H1; cbn [map]; constructor; [split; [apply Hpl; left; reflexivity|assumption]|apply IHForall2; intros; apply Hpl; right; assumption].
  Qed.

  Theorem full_result_spec pk ts Ls rows : unified pk ts Ls rows ->
    if existsb (fun e => match epair e with Some _ => true | None => false end) (concat Ls)
    then exists full, full_result N pk rows = Ok full /\ Forall2 (done_row pk) (concat Ls) full
    else full_result N pk rows = Err KeyError.
  Proof.
    intros H. destruct (full_spec pk ts Ls rows H) as (full & E & HF). unfold full_result. rewrite E. cbn [bind].
    assert (Ee : existsb has_parent (concat full) = existsb (fun e => match epair e with Some _ => true | None => false end) (concat Ls)).
    { clear -HF. induction HF as [|e r l k H HF IH]; [reflexivity|]. cbn. rewrite (done_has_parent pk e r H), IH. reflexivity. }
    rewrite Ee. destruct (existsb _ (concat Ls)); eauto.
  Qed.

  (** ** The pair table *)
  Lemma Forall2_filter {A B} (R : A -> B -> Prop) (p : A -> bool) (q : B -> bool) l k :
    Forall2 R l k -> (forall a b, R a b -> p a = q b) -> Forall2 R (filter p l) (filter q k).
  Proof. intros H Hpq. induction H as [|a b l k H HF IH]; cbn; [constructor|]. rewrite (Hpq a b H). destruct (q b); [constructor; assumption|assumption]. Qed.
  Lemma filter_filter {A} (p q : A -> bool) l : filter p (filter q l) = filter (fun x => q x && p x) l.
  Proof. induction l as [|x l IH]; [reflexivity|]. cbn. destruct (q x); cbn; [destruct (p x)|]; rewrite IH; reflexivity. Qed.

  Lemma pair_row_spec pk k E rows : Forall2 (done_row pk) E rows -> (forall e, In e E -> epair e <> None) -> pair_row N k rows = pair_of_nodes N k E.
  Proof.
    intros H He. assert (G : map u_gain rows = map (egain N) E /\ covers rows = somes (map ecover E) /\ depths N rows = map (edepth N) E /\ length rows = length E).
    { induction H as [|e r l k' H HF IH]; [repeat split|]. destruct IH as (I1 & I2 & I3 & I4); [intros; apply He; right; assumption|].
      assert (Hn : epair e <> None) by (apply He; left; reflexivity). destruct H as (_ & z & _ & _ & H).
      unfold epair in Hn. destruct (e_node e) as [|i f g c lt rt] eqn:En; [destruct (e_parent e) as [[]|]; congruence|].
      destruct H as (_ & _ & H1 & H2 & H3 & _). assert (X1 : egain N e = g) by (unfold egain; rewrite En; reflexivity). assert (X2 : ecover e = c) by (unfold ecover; rewrite En; reflexivity).
      unfold covers, depths, somes in *. cbn [map flat_map]. rewrite X1, X2, H1, H2, H3. cbn [app map].
      split; [f_equal; exact I1|]. split; [f_equal; exact I2|]. split; [f_equal; exact I3|]. cbn. f_equal. exact I4. }
    destruct G as (G1 & G2 & G3 & G4). unfold pair_row, pair_of_nodes. rewrite G1, G2, G3, G4. reflexivity.
  Qed.

  Theorem summary_spec pk E full od : Forall2 (done_row pk) E full ->
    get_summary N srt full od = sort_values N srt false o_sum_gain
      (map (fun k => pair_of_nodes N k (filter (epairb k) (filter (chosen N od) E))) (dedup_by pair_eqb (somes (map epair (filter (chosen N od) E))))).
  Proof.
    intros HF. unfold get_summary. f_equal.
    assert (Ek : somes (map pair_key (filter (selected od) full)) = somes (map epair (filter (chosen N od) E))).
    { induction HF as [|e r l k H HF IH]; [reflexivity|]. cbn [filter]. pose proof (done_pair_key pk e r H) as Hk. destruct (epair e) as [kk|] eqn:Ee.
      - rewrite (done_selected pk od e r H) by congruence. destruct (chosen N od e); [|exact IH]. cbn [map somes flat_map]. rewrite Hk, Ee. unfold somes in *. cbn. f_equal. exact IH.
      - assert (Ec : chosen N od e = false) by (unfold chosen; rewrite Ee; reflexivity). rewrite Ec. destruct (selected od r); [|exact IH]. cbn [map somes flat_map]. rewrite Hk. exact IH. }
    rewrite Ek. apply map_ext. intros k. apply (pair_row_spec pk).
    - rewrite !filter_filter. apply Forall2_filter; [exact HF|]. intros e r H. unfold in_group, epairb. rewrite (done_pair_key pk e r H). destruct (epair e) as [kk|] eqn:Ee; [|rewrite !andb_false_r; reflexivity].
      rewrite (done_selected pk od e r H) by congruence. reflexivity.
    - intros e He. apply filter_In in He as [_ He]. unfold epairb in He. destruct (epair e); [discriminate|discriminate].
  Qed.

  (** ** Depths for the importance *)
  Definition erase (r : urow V) : urow V := {|
    u_tree := u_tree r; u_id := u_id r; u_feat := u_feat r; u_left := u_left r; u_right := u_right r; u_gain := u_gain r;
    u_cover := u_cover r; u_depth := u_depth r; u_leaf := u_leaf r; u_parent := None; u_inter := None |}.
  Lemma find_erase c (rows : list (urow V)) : find (has_id c) (map erase rows) = option_map erase (find (has_id c) rows).
  Proof. induction rows as [|r l IH]; [reflexivity|]. cbn [map find]. destruct c as [i|]; cbn [has_id] in *; [|exact IH]. cbn [erase u_id]. destruct (u_id r =? i); [reflexivity|exact IH]. Qed.
  Lemma visit_erase i c (rows rows' : list (urow V)) : (forall r, c (erase r) = c r) -> visit N Xgboost i c rows = Ok rows' -> depth_visit i c (map erase rows) = Ok (map erase rows').
  Proof.
    intros Hc. unfold visit, depth_visit. rewrite nth_error_map. destruct (nth_error rows i) as [p|]; [cbn [option_map]|discriminate].
    rewrite Hc, find_erase. destruct (find (has_id (c p)) rows) as [ch|]; [cbn [option_map erase u_leaf]|discriminate]. destruct (u_leaf ch); [intros E; injection E as <-; reflexivity|].
    cbn [is_xgb]. unfold depth_succ. cbn [erase u_depth]. destruct (u_depth p) as [d|]; cbn [bind]; [|discriminate]. intros E. injection E as <-. f_equal. rewrite !map_map. apply map_ext. intros r.
    assert (Hh : has_id (c p) (erase r) = has_id (c p) r) by (destruct (c p); reflexivity). rewrite Hh. destruct (has_id (c p) r); reflexivity.
  Qed.
  Lemma map_set_nth {A B} (f : A -> B) i x l : map f (set_nth i x l) = set_nth i (f x) (map f l).
  Proof. revert i; induction l; intros [|i]; cbn; try reflexivity. f_equal. auto. Qed.
  Lemma root_erase i (rows : list (urow V)) : set_root Xgboost i (map erase rows) = map erase (set_root Xgboost i rows).
  Proof.
    unfold set_root. rewrite nth_error_map. destruct (nth_error rows i) as [r|]; [cbn [option_map]|reflexivity]. cbn [is_xgb andb erase u_id]. destruct (u_id r =? 0); [|reflexivity]. rewrite map_set_nth. reflexivity.
  Qed.
  Lemma fold_err l e : fold_left (stats_step N Xgboost) l (Err e) = Err e.
  Proof. induction l; [reflexivity|]. cbn. assumption. Qed.
  Lemma pass_erase l : forall rows rows', fold_left (stats_step N Xgboost) l (Ok rows) = Ok rows' -> fold_left depth_step l (Ok (map erase rows)) = Ok (map erase rows').
  Proof.
    induction l as [|i l IH]; intros rows rows' H; [cbn in *; congruence|]. cbn [fold_left] in *.
    destruct (stats_step N Xgboost (Ok rows) i) as [rows1|e] eqn:E; [|rewrite fold_err in H; discriminate].
    assert (E' : depth_step (Ok (map erase rows)) i = Ok (map erase rows1)).
    { unfold stats_step in E. unfold depth_step. cbn [bind] in *. rewrite root_erase. destruct (visit N Xgboost i u_left (set_root Xgboost i rows)) as [r1|] eqn:E1; [|discriminate]. cbn [bind] in E.
      rewrite (visit_erase i u_left _ _ (fun r => eq_refl) E1). cbn [bind]. exact (visit_erase i u_right _ _ (fun r => eq_refl) E). }
    rewrite E'. apply IH. exact H.
  Qed.
  Lemma non_leaf_erase (rows : list (urow V)) : non_leaf_nodes (map erase rows) = non_leaf_nodes rows.
  Proof. unfold non_leaf_nodes. rewrite map_length. apply filter_ext. intros i. rewrite nth_error_map. destruct (nth_error rows i); reflexivity. Qed.
  Lemma depth_tree_erase rows rows' : prepare_stats N Xgboost rows = Ok rows' -> depth_for_one_tree (map erase rows) = Ok (map erase rows').
  Proof. unfold prepare_stats, depth_for_one_tree. rewrite non_leaf_erase. apply pass_erase. Qed.

  (** a row as seen by the importance *)
  Definition seen_row (pk : package) (e : entry) (r : urow V) : Prop :=
    match e_node e with
    | GLeaf _ => u_feat r = if is_xgb pk then Some "Leaf" else None
    | GSplit _ f g c _ _ => u_feat r = Some f /\ u_gain r = g /\ u_cover r = c /\ u_depth r = Some (e_depth e)
    end.

  Lemma fresh_erase pk z L c : Forall2 (fresh_row pk z) L c -> map erase c = c.
  Proof. induction 1 as [|e r L c H HF IH]; [reflexivity|]. cbn. rewrite IH. f_equal. destruct H as (_ & _ & H1 & H2 & _). destruct r; cbn in *. subst. reflexivity. Qed.

  Definition depth_missing (rows : list (urow V)) : bool := existsb (fun r => match u_depth r with None => true | Some _ => false end) rows.

  Theorem depths_spec pk ts Ls rows : unified pk ts Ls rows ->
    exists rows', (if depth_missing rows then calculate_depth rows else Ok rows) = Ok rows' /\ Forall2 (seen_row pk) (concat Ls) rows'.
  Proof.
    intros H. pose proof (full_spec pk ts Ls rows H) as (full & E & HF). pose proof (unified_by_tree pk ts Ls rows H) as HB. destruct H as (zs & cs & Hs & Hlen & HL & Er & HF0 & Hx).
    assert (Hall' : Forall2 (fun e r => exists z, fresh_row pk z e r) (concat Ls) rows).
    { subst rows. clear -Hlen HL HF0. revert zs cs Hlen HF0. induction HL as [|t L ts Ls H HL IH]; intros [|z zs] cs Hlen HF; cbn in Hlen; try discriminate.
      - inversion HF. constructor.
      - cbn [combine] in HF. inversion HF as [|? c ? cs' Hc HF']; subst. cbn [concat]. apply Forall2_app; [|apply (IH zs cs'); [congruence|exact HF']]. cbn [fst snd] in Hc. clear -Hc. induction Hc; constructor; eauto. }
    destruct (is_xgb pk) eqn:Epk.
    - assert (pk = Xgboost) as -> by (destruct pk; [reflexivity|discriminate]).
      assert (Hcd : calculate_depth rows = Ok (map erase (concat full))).
      { unfold calculate_depth. assert (Em : mapM depth_for_one_tree (by_tree rows) = Ok (map (map erase) full)).
        { revert HB E. generalize (by_tree rows) as bs. clear. intros bs HB. revert full. induction HB as [|[t L] c K cs H HF IH]; intros full E; cbn in *; [injection E as <-; reflexivity|].
          destruct H as (_ & _ & z & Hz). destruct (prepare_stats N Xgboost c) as [r1|] eqn:E1; [|discriminate]. cbn in E. destruct (mapM (prepare_stats N Xgboost) cs) as [rs|] eqn:E2; [|discriminate].
          cbn in E. injection E as <-. pose proof (depth_tree_erase c r1 E1) as Hd. rewrite (fresh_erase Xgboost z L c Hz) in Hd. rewrite Hd. cbn. rewrite (IH rs eq_refl). reflexivity. }
        rewrite Em. cbn [bind]. rewrite concat_map. reflexivity. }
      assert (Hdm : rows = [] \/ depth_missing rows = true).
      { destruct Hall' as [|e r l k (z & H) HF1]; [left; reflexivity|right]. cbn. destruct H as (_ & _ & _ & _ & -> & _). reflexivity. }
      destruct Hdm as [E0|Hdm].
      + rewrite E0 in *. cbn. exists []. split; [reflexivity|]. inversion Hall'. constructor.
      + rewrite Hdm, Hcd. eexists. split; [reflexivity|]. clear -HF. induction HF as [|e r l k H HF IH]; cbn [map]; constructor; [|exact IH].
        destruct H as (_ & z & _ & _ & H). unfold seen_row. destruct (e_node e); cbn; [destruct H as (_ & H & _); exact H|]. destruct H as (_ & H1 & H2 & H3 & H4 & _). auto.
    - assert (pk = Lightgbm) as -> by (destruct pk; [discriminate|reflexivity]).
      assert (Hdm : depth_missing rows = false).
      { clear -Hall'. induction Hall' as [|e r l k (z & H) HF IH]; [reflexivity|]. cbn. destruct H as (_ & _ & _ & _ & -> & _). exact IH. }
      rewrite Hdm. exists rows. split; [reflexivity|]. clear -Hall'. induction Hall' as [|e r l k (z & H) HF IH]; constructor; [|exact IH].
      destruct H as (_ & _ & _ & _ & Hd & H). unfold seen_row. destruct (e_node e); [exact (proj2 H)|]. destruct H as (_ & H1 & H2 & H3 & _). auto.
  Qed.
End Facts.
