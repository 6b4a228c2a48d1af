(** The importance tables of the split score method in terms of the nodes, and the fit as a whole. *)
From Verif Require Import Py Num Sorting Frame CondDepth TreeFacts ForestFacts SplitScore SplitFacts SplitTables.
Open Scope string_scope.
Open Scope nat_scope.
Open Scope list_scope.

Section Imp.
  Context {V : Type} (N : num_ops V) (srt : sorter).
  Notation entry := (entry V).

  (** ** Specification *)
  Definition root_node (e : entry) : bool := e_depth e =? 0.
  Definition root_sum (E : list entry) (f : string) : V := sum_skip N (map (egain N) (filter (fun e => root_node e && splits_onb f e) E)).
  Definition root_features (E : list entry) : list string := dedup_by String.eqb (somes (map efeat (filter root_node E))).
  Definition weighted_depth (g : list entry) : V :=
    n_div N (n_sum N (map (fun e => n_mul N (edepth N e) (egain N e)) g)) (n_sum N (map (egain N) g)).
  Definition irow_of_nodes (E : list entry) (f : string) : irow :=
    let g := filter (splits_onb f) E in
    let n := length (filter root_node g) in
    {| i_feature := f;
       i_mean_gain := mean_skip N (map (egain N) g); i_sum_gain := sum_skip N (map (egain N) g);
       i_mean_cover := mean_skip N (somes (map ecover g)); i_sum_cover := sum_skip N (somes (map ecover g));
       i_mean_depth := mean_skip N (map (edepth N) g);
       i_root := if n =? 0 then n_nan N else n_ofZ N (Z.of_nat n);
       i_wroot := if n =? 0 then n_nan N else n_div N (n_mul N (n_ofZ N (Z.of_nat n)) (root_sum E f)) (n_sum N (map (root_sum E) (root_features E)));
       i_wdepth := weighted_depth g |}.
  Definition zero_gain (E : list entry) (f : string) : bool := n_eqb N (n_sum N (map (egain N) (filter (splits_onb f) E))) (n_ofZ N 0).
  Definition features_of (E : list entry) : list string := dedup_by String.eqb (somes (map efeat E)).

  (** ** The rows considered *)
  Definition named (r : urow V) : bool := match u_feat r with Some _ => true | None => false end.

  Lemma considered_rows pk E rows features : Forall2 (seen_row pk) E rows ->
    (forall e, In e E -> efeat e <> Some "Leaf") -> (forall fs, features = Some fs -> ~ In "Leaf" fs) ->
    Forall2 (seen_row pk) (filter (considered features) E) (filter named (importance_rows features rows)).
  Proof.
    intros HF HE Hfs. unfold importance_rows.
    assert (G : forall q : urow V -> bool, (forall e r, In e E -> seen_row pk e r -> considered features e = (named r && q r)) ->
                Forall2 (seen_row pk) (filter (considered features) E) (filter named (filter q rows))).
    { intros q Hq. rewrite filter_filter. induction HF as [|e r l k H HF IH]; [constructor|]. cbn [filter]. rewrite (Hq e r (or_introl eq_refl) H), (andb_comm (q r)).
      destruct (named r && q r); [constructor; [exact H|]|]; apply IH; intros; [apply HE; right|apply Hq; [right|]|apply HE; right|apply Hq; [right|]]; assumption. }
    destruct features as [fs|].
    - apply G. intros e r He H. specialize (HE e He). specialize (Hfs fs eq_refl). unfold considered, named, seen_row, efeat in *. destruct (e_node e).
      + rewrite H. destruct (is_xgb pk); cbn [andb]; [|reflexivity]. symmetry. apply not_true_iff_false. intros Hx. apply existsb_exists in Hx as (x & Hx & Ex). apply String.eqb_eq in Ex. subst. auto.
      + destruct H as [-> _]. reflexivity.
    - apply G. intros e r He H. specialize (HE e He). unfold considered, named, seen_row, efeat in *. destruct (e_node e).
      + rewrite H. destruct (is_xgb pk); reflexivity.
      + destruct H as [-> _]. cbn [andb]. symmetry. apply negb_true_iff, String.eqb_neq. congruence.
  Qed.

  Lemma somes_named (rows : list (urow V)) : somes (map u_feat (filter named rows)) = somes (map u_feat rows).
  Proof. induction rows as [|r l IH]; [reflexivity|]. cbn [filter]. destruct (named r) eqn:En; cbn [map somes flat_map]; unfold somes in *; [f_equal; exact IH|]. unfold named in En. destruct (u_feat r); [discriminate|]. exact IH. Qed.
  Lemma on_named f (rows : list (urow V)) : filter (on_feature f) (filter named rows) = filter (on_feature f) rows.
  Proof. rewrite filter_filter. apply filter_ext. intros r. unfold named, on_feature. destruct (u_feat r); reflexivity. Qed.
  Lemma filter_comm {A} (p q : A -> bool) l : filter p (filter q l) = filter q (filter p l).
  Proof. rewrite !filter_filter. apply filter_ext. intros. apply andb_comm. Qed.

  (** on nodes that all split, the aggregates of rows are those of nodes *)
  Lemma group_values pk E rows : Forall2 (seen_row pk) E rows -> (forall e, In e E -> efeat e <> None) ->
    map u_gain rows = map (egain N) E /\ covers rows = somes (map ecover E) /\ depths N rows = map (edepth N) E /\ length rows = length E
    /\ map (fun r => n_mul N (match u_depth r with Some d => n_ofZ N (Z.of_nat d) | None => n_nan N end) (u_gain r)) rows = map (fun e => n_mul N (edepth N e) (egain N e)) E.
  Proof.
    intros H He. induction H as [|e r l k H HF IH]; [repeat split|]. destruct IH as (I1 & I2 & I3 & I4 & I5); [intros; apply He; right; assumption|].
    assert (Hn : efeat e <> None) by (apply He; left; reflexivity). unfold seen_row in H. unfold efeat in Hn. destruct (e_node e) as [|i f g c lt rt] eqn:En; [congruence|].
    destruct H as (_ & H1 & H2 & H3). assert (X1 : egain N e = g) by (unfold egain; rewrite En; reflexivity). assert (X2 : ecover e = c) by (unfold ecover; rewrite En; reflexivity).
    unfold covers, depths, somes in *. cbn [map flat_map length]. rewrite X1, X2, H1, H2, H3. cbn [app map].
    split; [f_equal; exact I1|]. split; [f_equal; exact I2|]. split; [f_equal; exact I3|]. split; [f_equal; exact I4|]. f_equal. exact I5.
  Qed.

  Lemma seen_feat pk (e : entry) r : seen_row pk e r -> efeat e <> None -> u_feat r = efeat e /\ at_root r = root_node e.
  Proof. unfold seen_row, efeat, at_root, root_node. destruct (e_node e); [congruence|]. intros (-> & _ & _ & ->) _. split; [reflexivity|]. destruct (e_depth e); reflexivity. Qed.
  Lemma seen_on pk (e : entry) r f : seen_row pk e r -> efeat e <> None -> on_feature f r = splits_onb f e.
  Proof. intros H He. unfold on_feature, splits_onb. rewrite (proj1 (seen_feat pk e r H He)). reflexivity. Qed.

  Lemma Forall2_filter_in {A B} (R : A -> B -> Prop) (p : A -> bool) (q : B -> bool) l k :
    Forall2 R l k -> (forall a b, In a l -> R a b -> p a = q b) -> Forall2 R (filter p l) (filter q k).
  Proof. intros H Hpq. induction H as [|a b l k H HF IH]; cbn; [constructor|]. rewrite (Hpq a b (or_introl eq_refl) H). destruct (q b); [constructor; [exact H|]|]; apply IH; intros; apply Hpq; cbn; auto. Qed.

  Theorem importance_nodes pk E rows features : Forall2 (seen_row pk) E rows ->
    (forall e, In e E -> efeat e <> Some "Leaf") -> (forall fs, features = Some fs -> ~ In "Leaf" fs) ->
    let K := filter (considered features) E in
    all_feature_importance N features rows =
    match features_of K with
    | [] => Err ValueError
    | fs => mapM (fun f => if zero_gain K f then Err ZeroDivisionError else Ok (irow_of_nodes K f)) fs
    end.
  Proof.
    intros HF HE Hfs K. unfold all_feature_importance. pose proof (considered_rows pk E rows features HF HE Hfs) as HK. fold K in HK.
    set (R := importance_rows features rows) in *.
    assert (HKn : forall e, In e K -> efeat e <> None).
    { intros e He. apply filter_In in He as [_ He]. unfold considered in He. destruct (efeat e); [discriminate|discriminate]. }
    assert (Ekeys : somes (map u_feat R) = somes (map efeat K)).
    { rewrite <- somes_named. clear -HK HKn. induction HK as [|e r l k H HF IH]; [reflexivity|]. cbn [map somes flat_map]. rewrite (proj1 (seen_feat pk e r H (HKn e (or_introl eq_refl)))).
      unfold somes in *. f_equal. apply IH. intros; apply HKn; right; assumption. }
    assert (Hg : forall f, Forall2 (seen_row pk) (filter (splits_onb f) K) (filter (on_feature f) R)).
    { intros f. rewrite <- on_named. apply Forall2_filter_in; [exact HK|]. intros e r He H. symmetry. apply (seen_on pk e r f H (HKn e He)). }
    assert (Hin : forall f e, In e (filter (splits_onb f) K) -> efeat e <> None) by (intros f e He; apply filter_In in He as [He _]; auto).
    assert (Hrk : somes (map u_feat (filter at_root R)) = somes (map efeat (filter root_node K))).
    { rewrite <- somes_named, filter_comm. assert (HR : Forall2 (seen_row pk) (filter root_node K) (filter at_root (filter named R))).
      { apply Forall2_filter_in; [exact HK|]. intros e r He H. symmetry. apply (seen_feat pk e r H (HKn e He)). }
      assert (Hn : forall e, In e (filter root_node K) -> efeat e <> None) by (intros e He; apply filter_In in He as [He _]; auto). clear -HR Hn.
      induction HR as [|e r l k H HF IH]; [reflexivity|]. cbn [map somes flat_map]. rewrite (proj1 (seen_feat pk e r H (Hn e (or_introl eq_refl)))).
      unfold somes in *. f_equal. apply IH. intros; apply Hn; right; assumption. }
    assert (Hrg : forall f, root_gain N R f = root_sum K f).
    { intros f. unfold root_gain, root_sum. f_equal. rewrite <- !filter_filter. rewrite filter_comm, (filter_comm (splits_onb f)).
      assert (HR : Forall2 (seen_row pk) (filter root_node (filter (splits_onb f) K)) (filter at_root (filter (on_feature f) R))).
      { apply Forall2_filter_in; [apply Hg|]. intros e r He H. symmetry. apply (seen_feat pk e r H (Hin f e He)). }
      apply (group_values pk _ _ HR). intros e He. apply filter_In in He as [He _]. exact (Hin f e He). }
    unfold features_of. rewrite Ekeys. destruct (dedup_by String.eqb (somes (map efeat K))) as [|f0 fs]; [reflexivity|].
    assert (G : forall f, (do wd <- np_average N (filter (on_feature f) R);
        Ok {| i_feature := f; i_mean_gain := mean_skip N (map u_gain (filter (on_feature f) R)); i_sum_gain := sum_skip N (map u_gain (filter (on_feature f) R));
              i_mean_cover := mean_skip N (covers (filter (on_feature f) R)); i_sum_cover := sum_skip N (covers (filter (on_feature f) R)); i_mean_depth := mean_skip N (depths N (filter (on_feature f) R));
              i_root := fst (root_metrics N R f); i_wroot := snd (root_metrics N R f); i_wdepth := wd |})
      = if zero_gain K f then Err ZeroDivisionError else Ok (irow_of_nodes K f)).
    { intros f. destruct (group_values pk _ _ (Hg f) (Hin f)) as (G1 & G2 & G3 & G4 & G5). unfold np_average, zero_gain. rewrite G1, G2, G3, G5.
      destruct (n_eqb N (n_sum N (map (egain N) (filter (splits_onb f) K))) (n_ofZ N 0)); [reflexivity|]. cbn [bind]. unfold irow_of_nodes, root_metrics, root_features, weighted_depth. rewrite Hrk.
      assert (El : length (filter (on_feature f) (filter at_root R)) = length (filter root_node (filter (splits_onb f) K))).
      { rewrite filter_comm. symmetry. apply (Forall2_len (seen_row pk)). apply Forall2_filter_in; [apply Hg|]. intros e r He H. symmetry. apply (seen_feat pk e r H (Hin f e He)). }
      rewrite El. destruct (length (filter root_node (filter (splits_onb f) K))) as [|n]; cbn [fst snd Nat.eqb]; [reflexivity|].
      rewrite Hrg. rewrite (map_ext _ _ Hrg). reflexivity. }
    revert G. generalize (f0 :: fs) as l. intros l G. induction l as [|f l IH]; [reflexivity|]. cbn [mapM]. rewrite G. rewrite IH. reflexivity.
  Qed.

  Lemma dedup_string l : NoDup (dedup_by String.eqb l) /\ forall x, In x (dedup_by String.eqb l) <-> In x l.
  Proof. split; [apply dedup_by_NoDup, String.eqb_eq|intros; apply dedup_by_In, String.eqb_eq]. Qed.
  Lemma somes_In {A} (l : list (option A)) x : In x (somes l) <-> In (Some x) l.
  Proof. unfold somes. rewrite in_flat_map. split; [intros ([y|] & H & Hx); [destruct Hx as [->|[]]; exact H|destruct Hx]|intros H; exists (Some x); split; [exact H|left; reflexivity]]. Qed.
  Lemma features_of_In (E : list entry) f : In f (features_of E) <-> exists e, In e E /\ efeat e = Some f.
  Proof. unfold features_of. rewrite (proj2 (dedup_string _)), somes_In, in_map_iff. split; intros (e & H1 & H2); eauto. Qed.

  Lemma mapM_if_ok (b : string -> bool) (g : string -> irow (V:=V)) e fs :
    mapM (fun f => if b f then Err e else Ok (g f)) fs = if existsb b fs then Err e else Ok (map g fs).
  Proof. induction fs as [|f fs IH]; [reflexivity|]. cbn. destruct (b f); [reflexivity|]. cbn. rewrite IH. destruct (existsb b fs); reflexivity. Qed.

  Lemma unified_leafless pk ts Ls rows : unified pk ts Ls rows -> no_leaf_name ts -> forall e : entry, In e (concat Ls) -> efeat e <> Some "Leaf".
  Proof.
    intros (zs & cs & _ & _ & HL & _) Hn e He. apply in_concat in He as (L & HL' & He). destruct (Forall2_In_r _ _ _ _ HL HL') as (t & Ht & Hl).
    apply (Permutation_in _ (ls_perm t L Hl)) in He. specialize (Hn t e (in_combine_l _ _ _ _ Ht) He). unfold efeat. destruct (e_node e); congruence.
  Qed.

  Theorem split_importance_spec pk ts Ls rows features metric : unified pk ts Ls rows -> no_leaf_name ts -> (forall fs, features = Some fs -> ~ In "Leaf" fs) ->
    let K := filter (considered features) (concat Ls) in
    split_importance N srt features metric rows =
    match features_of K with
    | [] => Err ValueError
    | fs => if existsb (zero_gain K) fs then Err ZeroDivisionError else select_metric N srt (map (irow_of_nodes K) fs) metric
    end.
  Proof.
    intros Hu Hn Hfs K. unfold split_importance. destruct (depths_spec N pk ts Ls rows Hu) as (rows' & E & HF). unfold depth_missing in E. rewrite E. cbn [bind].
    rewrite (importance_nodes pk (concat Ls) rows' features HF (unified_leafless pk ts Ls rows Hu Hn) Hfs). fold K.
    destruct (features_of K) as [|f fs]; [reflexivity|]. rewrite mapM_if_ok. destruct (existsb (zero_gain K) (f :: fs)); reflexivity.
  Qed.
End Imp.
