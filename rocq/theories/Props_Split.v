(** Properties of the split score method and of its importance: C41 - C45, C48, C49, C70 and the
    split score parts of C46 and C47. *)
From Verif Require Import Py Num NumR Sorting Frame CondDepth TreeFacts ForestFacts SplitScore SplitFacts SplitTables SplitImp.
From Coq Require Import Reals Lra QArith.
Open Scope string_scope.
Open Scope nat_scope.
Open Scope list_scope.

(** ** Vocabulary of the statements *)

(** the argument of a fit on a trained model: the model itself or the handler made from it *)
Definition fitted_on {V} (arg : fit_arg V) (pk : package) (ts : list (gtree V)) (Ls : list (list (entry V))) : Prop :=
  exists m, trained m pk ts Ls /\ (arg = Model m \/ exists h, unify_structure m = Ok h /\ arg = Handler h).

(** the metrics of pairs and of features, as columns of the tables *)
Inductive pair_column {V} (N : num_ops V) : string -> (@orow V -> V) -> Prop :=
| pc_mean_gain : pair_column N "mean_gain" o_mean_gain
| pc_sum_gain : pair_column N "sum_gain" o_sum_gain
| pc_mean_cover : pair_column N "mean_cover" o_mean_cover
| pc_sum_cover : pair_column N "sum_cover" o_sum_cover
| pc_mean_depth : pair_column N "mean_depth" o_mean_depth
| pc_frequency : pair_column N "frequency" (fun r => n_ofZ N (Z.of_nat (o_frequency r))).
Inductive feature_column {V} : string -> (@irow V -> V) -> Prop :=
| fc_mean_gain : feature_column "mean_gain" i_mean_gain
| fc_sum_gain : feature_column "sum_gain" i_sum_gain
| fc_mean_cover : feature_column "mean_cover" i_mean_cover
| fc_sum_cover : feature_column "sum_cover" i_sum_cover
| fc_mean_depth : feature_column "mean_depth" i_mean_depth
| fc_wdepth : feature_column "mean_weighted_depth" i_wdepth
| fc_root : feature_column "root_frequency" i_root
| fc_wroot : feature_column "weighted_root_frequency" i_wroot.
Definition is_cover (m : string) : Prop := m = "mean_cover" \/ m = "sum_cover".
Definition metric_allowed (pk : package) (m : string) : Prop := pk = Lightgbm -> ~ is_cover m.

(** some node below the root of its tree splits *)
Definition deep {V} (E : list (entry V)) : Prop := exists e, In e E /\ epair e <> None.

Section Props.
  Context {V : Type} (N : num_ops V) (srt : sorter).
  Notation entry := (entry V).
  Notation fit := (ss_fit N srt).

  (** ** The fit on a trained model *)
  Lemma fitted_unified (arg : fit_arg V) pk ts Ls : fitted_on arg pk ts Ls -> (pk = Xgboost -> no_leaf_name ts) ->
    exists h, (match arg with Model m => unify_structure m | Handler h => Ok h end) = Ok h /\ h_package h = pk /\ unified pk ts Ls (h_trees h).
  Proof.
    intros (m & Ht & Ha) Hn. destruct (trained_unified m pk ts Ls Ht Hn) as (h & E & Hp & Hu). exists h. destruct Ha as [->|(h' & E' & ->)]; [auto|].
    split; [congruence|auto].
  Qed.

  Lemma pair_column_metric im v : pair_column N im v -> pair_metric N im = Some v.
  Proof. destruct 1; reflexivity. Qed.
  Lemma feature_column_metric fm v : feature_column fm v -> importance_metric (V:=V) fm = Some v.
  Proof. destruct 1; reflexivity. Qed.
  Lemma allowed_check pk im fm : metric_allowed pk im -> metric_allowed pk fm -> check_metrics pk im fm = Ok tt.
  Proof.
    unfold metric_allowed, check_metrics, is_cover. destruct pk; [reflexivity|]. intros H1 H2. specialize (H1 eq_refl). specialize (H2 eq_refl).
    assert (G : forall m, ~ (m = "mean_cover" \/ m = "sum_cover") -> lgbm_unsupported m = false).
    { intros m H. unfold lgbm_unsupported. apply orb_false_iff. split; apply String.eqb_neq; intros ->; auto. }
    rewrite (G im H1), (G fm H2). reflexivity.
  Qed.

  Lemma deep_bool (E : list entry) : (if existsb (fun e => match epair e with Some _ => true | None => false end) E then deep E else ~ deep E).
  Proof.
    destruct (existsb _ E) eqn:Ex.
    - apply existsb_exists in Ex as (e & He & H). exists e. split; [exact He|]. destruct (epair e); [discriminate|discriminate].
    - intros (e & He & H). apply (proj2 (not_true_iff_false _)) in Ex. apply Ex, existsb_exists. exists e. split; [exact He|]. destruct (epair e); [reflexivity|congruence].
  Qed.

  Definition pair_table (od : bool) (E : list entry) : list orow :=
    map (fun k => pair_of_nodes N k (filter (epairb k) (filter (chosen N od) E))) (dedup_by pair_eqb (somes (map epair (filter (chosen N od) E)))).

  Lemma fit_outcome s arg pk ts Ls im fm od v : fitted_on arg pk ts Ls -> (pk = Xgboost -> no_leaf_name ts) ->
    pair_column N im v -> metric_allowed pk im -> metric_allowed pk fm ->
    (~ deep (concat Ls) /\ snd (fit s arg im fm od) = Err KeyError) \/
    (deep (concat Ls) /\ exists full rows fi, unified pk ts Ls rows /\ Forall2 (done_row N pk) (concat Ls) full /\ split_importance N srt None fm rows = fi /\
     let fo := sort_values N srt false o_sum_gain (pair_table od (concat Ls)) in
     let s' := fst (fit s arg im fm od) in
     ss_full_result s' = Some full /\ ss_full_ovo s' = Some fo
     /\ ss_ovo s' = Some (sort_values N srt (String.eqb im "mean_depth") (fun r => snd r) (map (fun r => (o_parent r, o_child r, v r)) fo))
     /\ ss_metric s' = Some im
     /\ snd (fit s arg im fm od) = (do _ <- fi; Ok tt) /\ (forall x, fi = Ok x -> ss_fi s' = Some x /\ ss_fi_metric s' = Some fm)).
  Proof.
    intros Hf Hn Hc Ha1 Ha2. destruct (fitted_unified arg pk ts Ls Hf Hn) as (h & E & Hp & Hu). unfold ss_fit. rewrite E. cbn [bind]. rewrite Hp, (allowed_check pk im fm Ha1 Ha2).
    pose proof (full_result_spec N pk ts Ls (h_trees h) Hu) as HF. pose proof (deep_bool (concat Ls)) as Hd. destruct (existsb _ (concat Ls)).
    - right. split; [exact Hd|]. destruct HF as (full & Ef & HF). rewrite Ef. exists full, (h_trees h), (split_importance N srt None fm (h_trees h)).
      split; [exact Hu|]. split; [exact HF|]. split; [reflexivity|]. unfold get_ovo. rewrite (pair_column_metric im v Hc).
      rewrite (summary_spec N srt pk (concat Ls) full od HF). fold (pair_table od (concat Ls)).
      destruct (split_importance N srt None fm (h_trees h)) as [fi|e]; cbn [fst snd ss_full_result ss_full_ovo ss_ovo ss_fi ss_fi_metric ss_metric bind];
        repeat (split; [reflexivity|]); intros x Hx; [injection Hx as <-; split; reflexivity|discriminate].
    - left. split; [exact Hd|]. rewrite HF. reflexivity.
  Qed.

  (** ** C42: parent information and depth *)
  (** one tree: every node other than a leaf or the root carries the data of its actual parent
      ([final_row] spells this out) *)
  Theorem C42_one_tree pk t L z R0 : listing t L -> Forall2 (fresh_row pk z) L R0 -> (is_xgb pk = true -> gid t = 0) ->
    exists R1, prepare_stats N pk R0 = Ok R1 /\ Forall2 (final_row N pk z) L R1.
  Proof. exact (prepare_stats_spec N pk t L z R0). Qed.

  (** all trees: the table kept by a fit *)
  Theorem C42_full_result s arg pk ts Ls im fm od v : fitted_on arg pk ts Ls -> (pk = Xgboost -> no_leaf_name ts) ->
    pair_column N im v -> metric_allowed pk im -> metric_allowed pk fm -> deep (concat Ls) ->
    exists full, ss_full_result (fst (fit s arg im fm od)) = Some full /\ Forall2 (fun e r => exists z, final_row N pk z e r) (concat Ls) full.
  Proof.
    intros Hf Hn Hc Ha1 Ha2 Hd. destruct (fit_outcome s arg pk ts Ls im fm od v Hf Hn Hc Ha1 Ha2) as [[H _]|(_ & full & rows & fi & _ & HF & _ & E & _)]; [contradiction|].
    exists full. split; [exact E|]. clear -HF. induction HF as [|e r l k [_ H] HF IH]; constructor; auto.
  Qed.

  (** the importance computes the same depths by its own pass (the internal nodes only, for XGBoost) *)
  Theorem C42_importance_depths pk ts Ls (rows : list (urow V)) : unified pk ts Ls rows ->
    exists rows', (if existsb (fun r : urow V => match u_depth r with None => true | Some _ => false end) rows then calculate_depth rows else Ok rows) = Ok rows'
      /\ Forall2 (fun (e : entry) (r : urow V) => match e_node e with
                             | GLeaf _ => u_feat r = (if is_xgb pk then Some "Leaf" else None)
                             | GSplit _ f g c _ _ => u_feat r = Some f /\ u_gain r = g /\ u_cover r = c /\ u_depth r = Some (e_depth e)
                             end) (concat Ls) rows'.
  Proof. exact (depths_spec N pk ts Ls rows). Qed.

  (** ** C43: the table of pairs *)
  Definition okey (r : @orow V) : string * string := (o_parent r, o_child r).

  Lemma pair_eqb_eq a b : pair_eqb a b = true <-> a = b.
  Proof. unfold pair_eqb. destruct a, b. rewrite andb_true_iff, !String.eqb_eq. cbn. split; [intros []; congruence|intros H; injection H; auto]. Qed.
  Lemma pair_table_keys od E : map okey (pair_table od E) = dedup_by pair_eqb (somes (map epair (filter (chosen N od) E))).
  Proof. unfold pair_table. rewrite map_map. etransitivity; [|apply map_id]. apply map_ext. intros [a b]. reflexivity. Qed.

  Lemma count_groups {A K} (eqb : K -> K -> bool) (Heq : forall a b, eqb a b = true <-> a = b) (key : A -> option K) (l : list A) (ks : list K) :
    NoDup ks -> (forall x, In x l -> exists k, In k ks /\ key x = Some k) ->
    list_sum (map (fun k => length (filter (fun x => match key x with Some k' => eqb k' k | None => false end) l)) ks) = length l.
  Proof.
    intros Hk. induction l as [|x l IH]; intros H.
    - clear. cbn [filter length]. induction ks as [|k ks IH]; [reflexivity|exact IH].
    - cbn [length]. rewrite <- (IH (fun y Hy => H y (or_intror Hy))). clear IH. destruct (H x (or_introl eq_refl)) as (k & Hi & Ek). clear H.
      change (list_sum (map (fun k0 => length (filter (fun x0 => match key x0 with Some k' => eqb k' k0 | None => false end) (x :: l))) ks)
              = S (list_sum (map (fun k0 => length (filter (fun x0 => match key x0 with Some k' => eqb k' k0 | None => false end) l)) ks))).
      cbn [filter]. rewrite Ek. induction ks as [|k0 ks IH]; [destruct Hi|]. inversion Hk as [|? ? Hn Hk']; subst. cbn [map]. change (list_sum (?a :: ?b)) with (a + list_sum b).
      destruct Hi as [<-|Hi].
      + rewrite (proj2 (Heq k0 k0) eq_refl). cbn [length]. assert (G : forall ks', ~ In k0 ks' -> map (fun k1 => length (if eqb k0 k1 then x :: filter (fun x0 => match key x0 with Some k' => eqb k' k1 | None => false end) l else filter (fun x0 => match key x0 with Some k' => eqb k' k1 | None => false end) l)) ks' = map (fun k1 => length (filter (fun x0 => match key x0 with Some k' => eqb k' k1 | None => false end) l)) ks').
        { intros ks' Hn'. apply map_ext_in. intros k1 Hk1. destruct (eqb k0 k1) eqn:E1; [|reflexivity]. apply Heq in E1. subst. contradiction. }
        rewrite (G ks Hn). reflexivity.
      + rewrite (IH Hk' Hi). destruct (eqb k k0) eqn:E1; [apply Heq in E1; subst; contradiction|]. lia.
  Qed.

  Theorem C43_tables : sorter_ok srt -> num_ord_ok N -> forall s arg pk ts Ls im fm od v,
    fitted_on arg pk ts Ls -> (pk = Xgboost -> no_leaf_name ts) -> pair_column N im v -> metric_allowed pk im -> metric_allowed pk fm -> deep (concat Ls) ->
    exists fo, ss_full_ovo (fst (fit s arg im fm od)) = Some fo
      (* one row per pair of features *)
      /\ NoDup (map okey fo)
      /\ (forall k, In k (map okey fo) <-> exists e, In e (concat Ls) /\ chosen N od e = true /\ epair e = Some k)
      (* which aggregates exactly the chosen nodes of the pair *)
      /\ (forall r, In r fo -> r = pair_of_nodes N (okey r) (filter (fun e => chosen N od e && epairb (okey r) e) (concat Ls)))
      (* counts add up *)
      /\ list_sum (map o_frequency fo) = length (filter (chosen N od) (concat Ls))
      (* strongest first *)
      /\ StronglySorted (fun a b => le_dir N false (o_sum_gain a) (o_sum_gain b) = true) fo.
  Proof.
    intros Hs Ho s arg pk ts Ls im fm od v Hf Hn Hc Ha1 Ha2 Hd.
    destruct (fit_outcome s arg pk ts Ls im fm od v Hf Hn Hc Ha1 Ha2) as [[H _]|(_ & full & rows & fi & _ & HF & _ & _ & E & _)]; [contradiction|].
    set (E0 := concat Ls) in *. eexists. split; [exact E|].
    destruct (sort_values_ok N srt false o_sum_gain (pair_table od E0) Hs Ho) as [HP HS].
    pose proof (dedup_by_NoDup pair_eqb pair_eqb_eq (somes (map epair (filter (chosen N od) E0)))) as Hnd.
    assert (Hkeys : forall k, In k (dedup_by pair_eqb (somes (map epair (filter (chosen N od) E0)))) <-> exists e, In e E0 /\ chosen N od e = true /\ epair e = Some k).
    { intros k. rewrite (dedup_by_In pair_eqb pair_eqb_eq), somes_In, in_map_iff. split.
      - intros (e & H1 & H2). apply filter_In in H2 as [H2 H3]. eauto.
      - intros (e & H1 & H2 & H3). exists e. split; [exact H3|]. apply filter_In. auto. }
    split; [|split; [|split; [|split]]].
    - apply (Permutation_NoDup (Permutation_map okey (Permutation_sym HP))). rewrite pair_table_keys. exact Hnd.
    - intros k. rewrite <- Hkeys, <- pair_table_keys. split; apply Permutation_in, Permutation_map; [exact HP|symmetry; exact HP].
    - intros r Hr. apply (Permutation_in _ HP) in Hr. unfold pair_table in Hr. apply in_map_iff in Hr as (k & <- & Hk).
      assert (Ek : okey (pair_of_nodes N k (filter (epairb k) (filter (chosen N od) E0))) = k) by (destruct k; reflexivity). rewrite Ek. f_equal. apply filter_filter.
    - rewrite (Permutation_list_sum (Permutation_map o_frequency HP)). unfold pair_table. rewrite map_map. cbn [o_frequency pair_of_nodes].
      apply (count_groups pair_eqb pair_eqb_eq epair); [exact Hnd|]. intros e He. apply filter_In in He as [H1 H2]. unfold chosen in H2. destruct (epair e) as [k|] eqn:Ee; [|discriminate].
      exists k. split; [|reflexivity]. apply Hkeys. exists e. split; [exact H1|]. split; [|exact Ee]. unfold chosen. rewrite Ee. exact H2.
    - exact HS.
  Qed.

  (** ** C44: order of the results *)
  Theorem C44_order : sorter_ok srt -> num_ord_ok N -> forall s arg pk ts Ls im fm od v,
    fitted_on arg pk ts Ls -> (pk = Xgboost -> no_leaf_name ts) -> pair_column N im v -> metric_allowed pk im -> metric_allowed pk fm -> deep (concat Ls) ->
    let s' := fst (fit s arg im fm od) in
    exists fo ovo, ss_full_ovo s' = Some fo /\ ss_ovo s' = Some ovo
      /\ Permutation ovo (map (fun r => (o_parent r, o_child r, v r)) fo)
      /\ StronglySorted (fun a b => le_dir N (String.eqb im "mean_depth") (snd a) (snd b) = true) ovo
      (* the direction is the one announced by the method *)
      /\ ss_ascending s' = String.eqb im "mean_depth".
  Proof.
    intros Hs Ho s arg pk ts Ls im fm od v Hf Hn Hc Ha1 Ha2 Hd s'.
    destruct (fit_outcome s arg pk ts Ls im fm od v Hf Hn Hc Ha1 Ha2) as [[H _]|(_ & full & rows & fi & _ & HF & _ & _ & E & E2 & E3 & _)]; [contradiction|].
    fold s' in E, E2, E3. eexists _, _. split; [exact E|]. split; [exact E2|]. cbv zeta.
    match goal with |- context [sort_values N srt ?a ?k ?l] => match l with map _ _ => destruct (sort_values_ok N srt a k l Hs Ho) as [HP HS] end end.
    split; [exact HP|]. split; [exact HS|]. unfold ss_ascending. rewrite E3. reflexivity.
  Qed.

  (** ** C48, C49: the importance *)
  Theorem C48_rows : sorter_ok srt -> num_ord_ok N -> forall pk ts Ls rows features fm v fi,
    unified pk ts Ls rows -> no_leaf_name ts -> (forall fs, features = Some fs -> ~ In "Leaf" fs) -> feature_column fm v ->
    split_importance N srt features fm rows = Ok fi ->
    let K := filter (considered features) (concat Ls) in
    (* one row per (considered) splitting feature *)
    NoDup (map fst fi)
    /\ (forall f, In f (map fst fi) <-> (exists e, In e (concat Ls) /\ efeat e = Some f) /\ match features with Some fs => In f fs | None => True end)
    (* with the metric computed from exactly the nodes splitting on it *)
    /\ (forall f x, In (f, x) fi -> x = v (irow_of_nodes N K f))
    (* in descending order *)
    /\ StronglySorted (fun a b => le_dir N false (snd a) (snd b) = true) fi.
  Proof.
    intros Hs Ho pk ts Ls rows features fm v fi Hu Hn Hfs Hc E K. rewrite (split_importance_spec N srt pk ts Ls rows features fm Hu Hn Hfs) in E. cbv zeta in E. fold K in E.
    pose proof (features_of_In K) as HI. pose proof (proj1 (dedup_string (somes (map efeat K)))) as Hnd. fold (features_of K) in Hnd.
    destruct (features_of K) as [|f0 fs0] eqn:Ef; [discriminate|]. rewrite <- Ef in *. destruct (existsb (zero_gain N K) (features_of K)); [discriminate|].
    unfold select_metric in E. rewrite (feature_column_metric fm v Hc) in E.
    destruct (sort_values_ok N srt false v (map (irow_of_nodes N K) (features_of K)) Hs Ho) as [HP1 _].
    assert (E' : fi = sort_values N srt false (fun r => snd r) (map (fun r => (i_feature r, v r)) (sort_values N srt false v (map (irow_of_nodes N K) (features_of K))))) by congruence. clear E.
    match type of E' with _ = sort_values N srt ?a ?k ?l => destruct (sort_values_ok N srt a k l Hs Ho) as [HP2 HS] end. rewrite <- E' in HP2, HS.
    assert (HP : Permutation fi (map (fun f => (f, v (irow_of_nodes N K f))) (features_of K))).
    { etransitivity; [exact HP2|]. etransitivity; [apply Permutation_map; exact HP1|]. rewrite map_map. reflexivity. }
    split; [|split; [|split; [|exact HS]]].
    - apply (Permutation_NoDup (Permutation_map fst (Permutation_sym HP))). rewrite map_map. cbn [fst]. rewrite map_id. exact Hnd.
    - intros f. transitivity (In f (features_of K)).
      + split; intros H.
        * apply (Permutation_in _ (Permutation_map fst HP)) in H. rewrite map_map in H. cbn [fst] in H. rewrite map_id in H. exact H.
        * apply (Permutation_in _ (Permutation_map fst (Permutation_sym HP))). rewrite map_map. cbn [fst]. rewrite map_id. exact H.
      + rewrite HI. unfold K. split.
        * intros (e & H1 & H2). apply filter_In in H1 as [H1 H3]. split; [eauto|]. unfold considered in H3. rewrite H2 in H3. destruct features; [|exact I].
          apply existsb_exists in H3 as (g & H3 & H4). apply String.eqb_eq in H4. subst. exact H3.
        * intros ((e & H1 & H2) & H3). exists e. split; [|exact H2]. apply filter_In. split; [exact H1|]. unfold considered. rewrite H2. destruct features; [|reflexivity].
          apply existsb_exists. exists f. split; [exact H3|apply String.eqb_refl].
    - intros f x H. apply (Permutation_in _ HP), in_map_iff in H as (g & H & _). congruence.
  Qed.

  (** the nodes of [K] splitting on a considered feature are all nodes splitting on it *)
  Theorem C48_all_nodes (E : list entry) features f : match features with Some fs => In f fs | None => True end ->
    filter (splits_onb f) (filter (considered features) E) = filter (splits_onb f) E.
  Proof.
    intros Hf. rewrite filter_filter. apply filter_ext. intros e. unfold considered, splits_onb. destruct (efeat e) as [g|]; [|reflexivity].
    destruct (String.eqb_spec g f) as [->|]; [|rewrite andb_false_r; reflexivity]. rewrite andb_true_r. destruct features; [|reflexivity].
    apply existsb_exists. exists f. split; [exact Hf|apply String.eqb_refl].
  Qed.

  (** nodes at depth 0 are the roots of the trees *)
  Theorem C48_roots (ts : list (gtree V)) Ls f : Forall2 listing ts Ls ->
    length (filter root_node (filter (splits_onb f) (concat Ls)))
    = length (filter (fun t => match t with GSplit _ g _ _ _ _ => String.eqb g f | GLeaf _ => false end) ts).
  Proof.
    intros HF. induction HF as [|t L ts Ls H HF IH]; [reflexivity|]. cbn [concat]. change (t :: ts) with ([t] ++ ts). rewrite !filter_app, !app_length, IH. f_equal. clear IH HF ts Ls.
    assert (G : forall d p (s : gtree V), filter root_node (filter (splits_onb f) (entries p (S d) s)) = []).
    { intros d p s. revert d p. induction s as [i|i g ga c l IHl r IHr]; intros d p; cbn [entries filter]; [reflexivity|]. unfold splits_onb at 1. cbn [efeat e_node].
      rewrite !filter_app. destruct (String.eqb g f); cbn [filter]; rewrite ?filter_app, IHl, IHr; reflexivity. }
    assert (HP : Permutation (filter root_node (filter (splits_onb f) L)) (filter root_node (filter (splits_onb f) (entries None 0 t)))).
    { assert (P : forall (p : entry -> bool) l k, Permutation l k -> Permutation (filter p l) (filter p k)).
      { clear. intros p l k. induction 1 as [|x l k H IH|x y l|l k m H1 IH1 H2 IH2]; cbn; [constructor| | |etransitivity; eassumption].
        - destruct (p x); [constructor|]; assumption.
        - destruct (p x), (p y); try apply Permutation_refl. apply perm_swap. }
      apply P, P. exact (ls_perm t L H). }
    rewrite (Permutation_length HP). destruct t as [i|i g ga c l r]; cbn [entries filter]; [reflexivity|]. unfold splits_onb at 1. cbn [efeat e_node].
    rewrite filter_app. destruct (String.eqb g f); cbn [filter]; rewrite ?filter_app, !G; reflexivity.
  Qed.

  Theorem C49_order_partial : sorter_ok srt -> num_ord_ok N -> forall s arg pk ts Ls im fm od v w fi,
    fitted_on arg pk ts Ls -> no_leaf_name ts -> pair_column N im v -> feature_column (V:=V) fm w -> metric_allowed pk im -> metric_allowed pk fm ->
    snd (fit s arg im fm od) = Ok tt -> ss_fi (fst (fit s arg im fm od)) = Some fi ->
    (* always descending, *)
    StronglySorted (fun a b => le_dir N false (snd a) (snd b) = true) fi
    (* which is the announced direction unless the metric is one of the depths *)
    /\ (fm <> "mean_depth" -> fm <> "mean_weighted_depth" -> importance_ascending (ss_fi_metric (fst (fit s arg im fm od))) = false).
  Proof.
    intros Hs Ho s arg pk ts Ls im fm od v w fi Hf Hn Hc Hw Ha1 Ha2 Hok Hfi.
    destruct (fit_outcome s arg pk ts Ls im fm od v Hf (fun _ => Hn) Hc Ha1 Ha2) as [[_ H]|(_ & full & rows & fi' & Hu & HF & E & _ & _ & _ & _ & E2 & E3)]; [congruence|].
    rewrite E2 in Hok. destruct fi' as [x|]; [|discriminate]. destruct (E3 x eq_refl) as [E4 E5]. rewrite E4 in Hfi. assert (x = fi) by congruence. subst x. split.
    - exact (proj2 (proj2 (proj2 (C48_rows Hs Ho pk ts Ls rows None fm w fi Hu Hn ltac:(discriminate) Hw E)))).
    - intros H1 H2. rewrite E5. cbn. apply orb_false_iff. split; apply String.eqb_neq; assumption.
  Qed.

  (** the importance kept by a fit is the one of C48, over all features *)
  Theorem C48_fit s arg pk ts Ls im fm od v : fitted_on arg pk ts Ls -> no_leaf_name ts -> pair_column N im v -> metric_allowed pk im -> metric_allowed pk fm ->
    snd (fit s arg im fm od) = Ok tt ->
    exists rows fi, unified pk ts Ls rows /\ split_importance N srt None fm rows = Ok fi /\ ss_fi (fst (fit s arg im fm od)) = Some fi.
  Proof.
    intros Hf Hn Hc Ha1 Ha2 Hok.
    destruct (fit_outcome s arg pk ts Ls im fm od v Hf (fun _ => Hn) Hc Ha1 Ha2) as [[_ H]|(_ & full & rows & fi' & Hu & HF & E & _ & _ & _ & _ & E2 & E3)]; [congruence|].
    rewrite E2 in Hok. destruct fi' as [x|]; [|discriminate]. exists rows, x. split; [exact Hu|]. split; [exact E|]. apply (E3 x eq_refl).
  Qed.

  (** ** C45: when the fit succeeds *)
  (** exact outcome on a trained model with supported metrics *)
  Theorem C45_fit_partial s arg pk ts Ls im fm od v w : fitted_on arg pk ts Ls -> no_leaf_name ts -> pair_column N im v -> feature_column (V:=V) fm w -> metric_allowed pk im -> metric_allowed pk fm ->
    (snd (fit s arg im fm od) = Ok tt
       /\ deep (concat Ls) /\ (forall f, (exists e, In e (concat Ls) /\ efeat e = Some f) -> n_eqb N (n_sum N (map (egain N) (filter (splits_onb f) (concat Ls)))) (n_ofZ N 0) = false))
    \/ (snd (fit s arg im fm od) = Err KeyError /\ ~ deep (concat Ls))
    \/ (snd (fit s arg im fm od) = Err ZeroDivisionError
         /\ deep (concat Ls) /\ exists f, (exists e, In e (concat Ls) /\ efeat e = Some f) /\ n_eqb N (n_sum N (map (egain N) (filter (splits_onb f) (concat Ls)))) (n_ofZ N 0) = true).
  Proof.
    intros Hf Hn Hc Hw Ha1 Ha2.
    destruct (fit_outcome s arg pk ts Ls im fm od v Hf (fun _ => Hn) Hc Ha1 Ha2) as [[Hd H]|(Hd & full & rows & fi & Hu & HF & E & _ & _ & _ & _ & E2 & _)]; [auto|].
    rewrite E2, <- E. rewrite (split_importance_spec N srt pk ts Ls rows None fm Hu Hn ltac:(discriminate)). cbv zeta.
    set (K := filter (considered None) (concat Ls)).
    assert (HK : forall f, In f (features_of K) <-> exists e, In e (concat Ls) /\ efeat e = Some f).
    { intros f. rewrite features_of_In. unfold K. split; intros (e & H1 & H2); exists e; (split; [|exact H2]).
      - apply filter_In in H1. tauto.
      - apply filter_In. split; [exact H1|]. unfold considered. rewrite H2. reflexivity. }
    assert (Hz : forall f, zero_gain N K f = n_eqb N (n_sum N (map (egain N) (filter (splits_onb f) (concat Ls)))) (n_ofZ N 0)).
    { intros f. unfold zero_gain, K. rewrite (C48_all_nodes (concat Ls) None f I). reflexivity. }
    destruct (features_of K) as [|f0 fs0] eqn:Ef.
    - exfalso. destruct Hd as (e & He & Hp). unfold epair in Hp. destruct (e_parent e) as [[|]|]; [congruence| |congruence]. destruct (e_node e) as [|i' f' g' c' lt' rt'] eqn:En; [congruence|].
      assert (In f' []) as []. { apply HK. exists e. split; [exact He|]. unfold efeat. rewrite En. reflexivity. }
    - rewrite <- Ef in *. destruct (existsb (zero_gain N K) (features_of K)) eqn:Ex.
      + right. right. split; [reflexivity|]. split; [exact Hd|]. apply existsb_exists in Ex as (f & H1 & H2). exists f. rewrite <- HK, <- Hz. split; assumption.
      + left. split; [unfold select_metric; rewrite (feature_column_metric fm w Hw); reflexivity|]. split; [exact Hd|]. intros f Hin. rewrite <- Hz. apply HK in Hin.
        destruct (zero_gain N K f) eqn:Ez; [|reflexivity]. assert (X : existsb (zero_gain N K) (features_of K) = true) by (apply existsb_exists; eauto). congruence.
  Qed.

  (** ** C46, C47: rejections *)
  (** only the two packages are accepted: the name before the first dot decides *)
  Theorem C46_models s p cls d im fm od : (forall c, In c (list_ascii_of_string p) -> c <> "."%char) ->
    let m := {| gm_class := String.append p (String "."%char cls); gm_dump := d |} in
    (p <> "xgboost" -> p <> "lightgbm" -> fit s (Model m) im fm od = (s, Err ModelNotSupported))
    /\ (p = "xgboost" \/ p = "lightgbm" -> unify_structure m <> Err ModelNotSupported).
  Proof.
    intros Hp m. assert (E : before_dot (gm_class m) = p). { apply before_dot_app. intros c Hc. apply Ascii.eqb_neq. auto. }
    split.
    - intros H1 H2. unfold ss_fit, unify_structure. rewrite E. rewrite (proj2 (String.eqb_neq _ _) H1), (proj2 (String.eqb_neq _ _) H2). reflexivity.
    - intros H. unfold unify_structure. rewrite E. destruct H as [->| ->]; cbn; destruct d; discriminate.
  Qed.
  (** metrics based on covers are rejected for LightGBM before anything is computed *)
  Theorem C46_metrics s arg ts Ls im fm od : fitted_on arg Lightgbm ts Ls -> is_cover im \/ is_cover fm ->
    snd (fit s arg im fm od) = Err MetricNotSupported
    /\ ss_full_result (fst (fit s arg im fm od)) = ss_full_result s /\ ss_full_ovo (fst (fit s arg im fm od)) = ss_full_ovo s
    /\ ss_ovo (fst (fit s arg im fm od)) = ss_ovo s /\ ss_fi (fst (fit s arg im fm od)) = ss_fi s.
  Proof.
    intros Hf H. destruct (fitted_unified arg Lightgbm ts Ls Hf ltac:(discriminate)) as (h & E & Hp & _). unfold ss_fit. rewrite E, Hp. unfold check_metrics.
    assert (G : forall m, is_cover m -> lgbm_unsupported m = true) by (intros m [->| ->]; reflexivity).
    destruct (lgbm_unsupported im) eqn:E1; [repeat split|]. destruct (lgbm_unsupported fm) eqn:E2; [repeat split|]. destruct H as [H|H]; apply G in H; congruence.
  Qed.
  (** all other metric names of the tables pass this check, for both packages *)
  Theorem C46_accepted s arg pk ts Ls im fm od v w : fitted_on arg pk ts Ls -> no_leaf_name ts -> pair_column N im v -> feature_column (V:=V) fm w -> metric_allowed pk im -> metric_allowed pk fm ->
    snd (fit s arg im fm od) <> Err MetricNotSupported /\ snd (fit s arg im fm od) <> Err ModelNotSupported.
  Proof.
    intros Hf Hn Hc Hw Ha1 Ha2. destruct (C45_fit_partial s arg pk ts Ls im fm od v w Hf Hn Hc Hw Ha1 Ha2) as [(-> & _)|[(-> & _)|(-> & _)]]; split; discriminate.
  Qed.

  Theorem C47_split_partial s m im fm od : unify_structure m = Err ModelNotSupported -> fit s (Model m) im fm od = (s, Err ModelNotSupported).
  Proof. intros H. unfold ss_fit. rewrite H. reflexivity. Qed.
  (** a fit that fails on an ensemble of stumps keeps the tables *)
  Theorem C47_split_tables_partial s arg pk ts Ls im fm od : fitted_on arg pk ts Ls -> (pk = Xgboost -> no_leaf_name ts) -> ~ deep (concat Ls) ->
    let s' := fst (fit s arg im fm od) in
    (exists e, snd (fit s arg im fm od) = Err e)
    /\ ss_ovo s' = ss_ovo s /\ ss_fi s' = ss_fi s /\ ss_full_ovo s' = ss_full_ovo s /\ ss_full_result s' = ss_full_result s /\ ss_fi_metric s' = ss_fi_metric s.
  Proof.
    intros Hf Hn Hd. destruct (fitted_unified arg pk ts Ls Hf Hn) as (h & E & Hp & Hu). unfold ss_fit. rewrite E, Hp.
    pose proof (full_result_spec N pk ts Ls (h_trees h) Hu) as HF. pose proof (deep_bool (concat Ls)) as Hd'. destruct (existsb _ (concat Ls)); [contradiction|].
    rewrite HF. destruct (check_metrics pk im fm); cbn; repeat split; eauto.
  Qed.

  (** ** C41: interaction_value (base class of all methods) *)
  Definition about (f1 f2 : string) (r : string * string * V) : Prop := (fst (fst r) = f1 /\ snd (fst r) = f2) \/ (fst (fst r) = f2 /\ snd (fst r) = f1).

  Lemma about_bool f1 f2 r : (String.eqb (fst (fst r)) f1 && String.eqb (snd (fst r)) f2) || (String.eqb (fst (fst r)) f2 && String.eqb (snd (fst r)) f1) = true <-> about f1 f2 r.
  Proof. unfold about. rewrite orb_true_iff, !andb_true_iff, !String.eqb_eq. reflexivity. Qed.

  Theorem C41_symmetric (tab : result (list (string * string * V))) f1 f2 : interaction_value tab f1 f2 = interaction_value tab f2 f1.
  Proof.
    unfold interaction_value. destruct tab as [t|]; [|reflexivity]. cbn [bind].
    assert (E : filter (fun r : string * string * V => (String.eqb (fst (fst r)) f1 && String.eqb (snd (fst r)) f2) || (String.eqb (fst (fst r)) f2 && String.eqb (snd (fst r)) f1)) t
              = filter (fun r : string * string * V => (String.eqb (fst (fst r)) f2 && String.eqb (snd (fst r)) f1) || (String.eqb (fst (fst r)) f1 && String.eqb (snd (fst r)) f2)) t).
    { apply filter_ext. intros. apply orb_comm. }
    rewrite E. reflexivity.
  Qed.

  Lemma first_of_filter {A} (R : A -> A -> Prop) (p : A -> bool) l x k : StronglySorted R l -> filter p l = x :: k -> forall y, In y l -> p y = true -> y = x \/ R x y.
  Proof.
    induction 1 as [|a l Hl IH Ha]; intros E y Hy Hp; [destruct Hy|]. cbn in E. destruct (p a) eqn:Ea.
    - injection E as -> _. destruct Hy as [->|Hy]; [left; reflexivity|]. right. rewrite Forall_forall in Ha. auto.
    - destruct Hy as [->|Hy]; [congruence|]. auto.
  Qed.

  Theorem C41_value : sorter_ok srt -> num_ord_ok N -> forall asc t f1 f2,
    match interaction_value (compare_table N srt asc (Some t)) f1 f2 with
    | Ok v => exists r, In r t /\ about f1 f2 r /\ snd r = v
              (* no row about the pair is stronger *)
              /\ forall r', In r' t -> about f1 f2 r' -> r' = r \/ le_dir N asc v (snd r') = true
    | Err e => e = IndexError /\ forall r, In r t -> ~ about f1 f2 r
    end.
  Proof.
    intros Hs Ho asc t f1 f2. unfold interaction_value, compare_table. cbn [bind].
    destruct (sort_values_ok N srt asc (fun r : string * string * V => snd r) t Hs Ho) as [HP HS].
    set (u := sort_values N srt asc (fun r : string * string * V => snd r) t) in *.
    match goal with |- context [filter ?p u] => set (q := p); destruct (filter q u) as [|r l] eqn:E end.
    - split; [reflexivity|]. intros r Hr Ha. apply (Permutation_in _ (Permutation_sym HP)) in Hr. apply about_bool in Ha.
      assert (Hin : In r (filter q u)) by (apply filter_In; split; assumption). rewrite E in Hin. destruct Hin.
    - assert (Hin : In r (filter q u)) by (rewrite E; left; reflexivity). apply filter_In in Hin as [H1 H2]. exists r.
      split; [exact (Permutation_in _ HP H1)|]. split; [apply about_bool, H2|]. split; [reflexivity|].
      intros r' Hr' Ha'. apply (Permutation_in _ (Permutation_sym HP)) in Hr'. apply about_bool in Ha'.
      exact (first_of_filter _ q u r l HS E r' Hr' Ha').
  Qed.

  Theorem C41_not_fitted asc f1 f2 : interaction_value (compare_table N srt asc None) f1 f2 = Err MethodNotFitted.
  Proof. reflexivity. Qed.
End Props.

Print Assumptions C42_one_tree.
Print Assumptions C42_full_result.
Print Assumptions C42_importance_depths.
Print Assumptions C43_tables.
Print Assumptions C44_order.
Print Assumptions C48_rows.
Print Assumptions C48_all_nodes.
Print Assumptions C48_roots.
Print Assumptions C49_order_partial.
Print Assumptions C48_fit.
Print Assumptions C45_fit_partial.
Print Assumptions C46_models.
Print Assumptions C46_metrics.
Print Assumptions C46_accepted.
Print Assumptions C47_split_partial.
Print Assumptions C47_split_tables_partial.
Print Assumptions C41_symmetric.
Print Assumptions C41_value.
Print Assumptions C41_not_fitted.
