(** Split score method: values over the reals, examples and refuted expectations
    (C43, C45, C47 - C49, C70). *)
From Verif Require Import Py Num NumR Sorting Frame CondDepth TreeFacts ForestFacts SplitScore SplitFacts SplitTables SplitImp Props_Split.
From Coq Require Import Reals Lra QArith.
Open Scope string_scope.
Open Scope nat_scope.
Open Scope list_scope.

(** ** Values over the reals *)
Lemma nonan_fin l : filter (fun x => negb (n_isnan xR x)) (map Fin l) = map Fin l.
Proof. induction l; cbn in *; [reflexivity|]. f_equal. exact IHl. Qed.
Lemma sum_skip_fin l : sum_skip xR (map Fin l) = Fin (Rsum l).
Proof. unfold sum_skip. rewrite nonan_fin. apply xR_sum_fin. Qed.
Lemma mean_skip_fin l : l <> [] -> mean_skip xR (map Fin l) = Fin (Rmean l).
Proof. intros H. unfold mean_skip. rewrite nonan_fin. destruct l as [|x l]; [congruence|]. exact (xR_mean_fin (x :: l) H). Qed.

Section RealValues.
  (** finite gains, given by [ga] *)
  Variable ga : entry (ext R) -> R.
  Definition finite_gains (g : list (entry (ext R))) : Prop := forall e, In e g -> egain xR e = Fin (ga e).
  Definition rdepth (e : entry (ext R)) : R := INR (e_depth e).

  Lemma gains_fin g : finite_gains g -> map (egain xR) g = map Fin (map ga g).
  Proof. intros H. rewrite map_map. apply map_ext_in. exact H. Qed.
  Lemma depths_fin (g : list (entry (ext R))) : map (edepth xR) g = map Fin (map rdepth g).
  Proof. rewrite map_map. apply map_ext. intros e. unfold edepth, rdepth. cbn. rewrite INR_IZR. reflexivity. Qed.
  Lemma map_nil {A B} (f : A -> B) l : l <> [] -> map f l <> [].
  Proof. destruct l; [congruence|discriminate]. Qed.

  (** sums and means are those of the nodes *)
  Theorem C43_values_real k g : g <> [] -> finite_gains g ->
    o_sum_gain (pair_of_nodes xR k g) = Fin (Rsum (map ga g))
    /\ o_mean_gain (pair_of_nodes xR k g) = Fin (Rmean (map ga g))
    /\ o_mean_depth (pair_of_nodes xR k g) = Fin (Rmean (map rdepth g))
    /\ (forall cs, map ecover g = map (fun c => Some (Fin c)) cs ->
          o_sum_cover (pair_of_nodes xR k g) = Fin (Rsum cs) /\ o_mean_cover (pair_of_nodes xR k g) = Fin (Rmean cs)).
  Proof.
    intros Hg Hf. cbn. rewrite (gains_fin g Hf), depths_fin. split; [apply sum_skip_fin|]. split; [apply mean_skip_fin, map_nil, Hg|]. split; [apply mean_skip_fin, map_nil, Hg|].
    intros cs E. rewrite E. assert (Es : somes (map (fun c => Some (Fin c)) cs) = map Fin cs) by (clear; induction cs; [reflexivity|cbn; f_equal; exact IHcs]).
    rewrite Es. split; [apply sum_skip_fin|]. apply mean_skip_fin. intros ->. destruct g; [congruence|discriminate].
  Qed.

  Lemma Rsum_groups {A K} (eqb : K -> K -> bool) (Heq : forall a b, eqb a b = true <-> a = b) (key : A -> option K) (v : A -> R) (l : list A) (ks : list K) :
    NoDup ks -> (forall x, In x l -> exists k, In k ks /\ key x = Some k) ->
    Rsum (map (fun k => Rsum (map v (filter (fun x => match key x with Some k' => eqb k' k | None => false end) l))) ks) = Rsum (map v l).
  Proof.
    intros Hk. induction l as [|x l IH]; intros H.
    - cbn [filter map]. rewrite Rsum_nil, Rsum_map_const. lra.
    - cbn [map]. rewrite Rsum_cons, <- (IH (fun y Hy => H y (or_intror Hy))). clear IH. destruct (H x (or_introl eq_refl)) as (k & Hi & Ek). clear H.
      cbn [filter]. rewrite Ek. induction ks as [|k0 ks IH]; [destruct Hi|]. inversion Hk as [|? ? Hn Hk']; subst. cbn [map]. rewrite !Rsum_cons.
      destruct Hi as [<-|Hi].
      + rewrite (proj2 (Heq k0 k0) eq_refl). cbn [map]. rewrite Rsum_cons.
        rewrite (Rsum_map_ext (fun k1 => Rsum (map v (if eqb k0 k1 then x :: filter (fun x0 => match key x0 with Some k' => eqb k' k1 | None => false end) l else filter (fun x0 => match key x0 with Some k' => eqb k' k1 | None => false end) l)))
                              (fun k1 => Rsum (map v (filter (fun x0 => match key x0 with Some k' => eqb k' k1 | None => false end) l)))); [lra|].
        intros k1 Hk1. destruct (eqb k0 k1) eqn:E1; [|reflexivity]. apply Heq in E1. subst. contradiction.
      + rewrite (IH Hk' Hi). destruct (eqb k k0) eqn:E1; [apply Heq in E1; subst; contradiction|]. lra.
  Qed.

  (** the sums of all pairs add up to the total over the chosen nodes *)
  Theorem C43_totals_real srt : sorter_ok srt -> forall s arg pk ts Ls im fm od v,
    fitted_on arg pk ts Ls -> (pk = Xgboost -> no_leaf_name ts) -> pair_column xR im v -> metric_allowed pk im -> metric_allowed pk fm -> deep (concat Ls) ->
    finite_gains (filter (chosen xR od) (concat Ls)) ->
    exists fo, ss_full_ovo (fst (ss_fit xR srt s arg im fm od)) = Some fo
      /\ n_sum xR (map o_sum_gain fo) = Fin (Rsum (map ga (filter (chosen xR od) (concat Ls)))).
  Proof.
    intros Hs s arg pk ts Ls im fm od v Hf Hn Hc Ha1 Ha2 Hd Hg.
    destruct (C43_tables xR srt Hs xR_ord s arg pk ts Ls im fm od v Hf Hn Hc Ha1 Ha2 Hd) as (fo & E & Hnd & Hk & Hr & _). exists fo. split; [exact E|].
    set (C := filter (chosen xR od) (concat Ls)) in *.
    assert (Em : map o_sum_gain fo = map (fun r => Fin (Rsum (map ga (filter (fun e => match epair e with Some k' => pair_eqb k' (okey r) | None => false end) C)))) fo).
    { apply map_ext_in. intros r Hin. rewrite (Hr r Hin) at 1. cbn. rewrite <- filter_filter. fold C. change (filter (epairb (okey r)) C) with (filter (fun e => match epair e with Some k' => pair_eqb k' (okey r) | None => false end) C).
      rewrite gains_fin; [apply sum_skip_fin|]. intros e He. apply filter_In in He as [He _]. auto. }
    rewrite Em, xR_sum_fin_map. f_equal. rewrite <- (Rsum_groups pair_eqb pair_eqb_eq epair ga C (map okey fo) Hnd).
    - rewrite map_map. reflexivity.
    - intros e He. apply filter_In in He as [He Hce]. assert (Hp : epair e <> None) by (unfold chosen in Hce; destruct (epair e); [discriminate|discriminate]).
      destruct (epair e) as [k|] eqn:Ee; [|congruence]. exists k. split; [|reflexivity]. apply Hk. eauto.
  Qed.

  (** ** C48 over the reals: weighted metrics *)
  Theorem C48_weighted_real K f : let g := filter (splits_onb f) K in finite_gains K -> g <> [] ->
    i_sum_gain (irow_of_nodes xR K f) = Fin (Rsum (map ga g))
    /\ i_mean_gain (irow_of_nodes xR K f) = Fin (Rmean (map ga g))
    /\ i_mean_depth (irow_of_nodes xR K f) = Fin (Rmean (map rdepth g))
    (* depth weighted by gain *)
    /\ (Rsum (map ga g) <> 0%R -> i_wdepth (irow_of_nodes xR K f) = Fin (Rsum (map (fun e => rdepth e * ga e)%R g) / Rsum (map ga g))%R)
    (* number of roots times the share of the root gain *)
    /\ (filter root_node g <> [] -> Rsum (map ga (filter (fun e => root_node e && match efeat e with Some _ => true | None => false end) K)) <> 0%R ->
          i_wroot (irow_of_nodes xR K f)
          = Fin (INR (length (filter root_node g)) * Rsum (map ga (filter root_node g))
                 / Rsum (map ga (filter (fun e => root_node e && match efeat e with Some _ => true | None => false end) K)))%R).
  Proof.
    intros g Hf Hg. assert (Hfg : finite_gains g) by (intros e He; apply filter_In in He as [He _]; auto). unfold irow_of_nodes. cbn [i_sum_gain i_mean_gain i_mean_depth i_wdepth i_wroot]. fold g. rewrite (gains_fin g Hfg), depths_fin.
    split; [apply sum_skip_fin|]. split; [apply mean_skip_fin, map_nil, Hg|]. split; [apply mean_skip_fin, map_nil, Hg|]. split.
    - intros Hz. unfold weighted_depth. rewrite (gains_fin g Hfg), xR_sum_fin.
      assert (Em : map (fun e => n_mul xR (edepth xR e) (egain xR e)) g = map (fun e => Fin (rdepth e * ga e)%R) g).
      { apply map_ext_in. intros e He. rewrite (Hfg e He). unfold edepth, rdepth. cbn. rewrite INR_IZR. reflexivity. }
      rewrite Em, xR_sum_fin_map. apply xR_div_fin, Hz.
    - intros Hr Hz. assert (En : (length (filter root_node g) =? 0) = false) by (destruct (filter root_node g); [congruence|reflexivity]). rewrite En.
      assert (Hrs : forall h, root_sum xR K h = Fin (Rsum (map ga (filter (fun e => match efeat e with Some k' => String.eqb k' h | None => false end) (filter root_node K))))).
      { intros h. unfold root_sum. rewrite <- filter_filter. rewrite gains_fin; [apply sum_skip_fin|]. intros e He. apply filter_In in He as [He _]. apply filter_In in He as [He _]. auto. }
      rewrite Hrs. rewrite (map_ext _ _ Hrs), xR_sum_fin_map.
      assert (Et : Rsum (map (fun h => Rsum (map ga (filter (fun e => match efeat e with Some k' => String.eqb k' h | None => false end) (filter root_node K)))) (root_features K))
                 = Rsum (map ga (filter (fun e => root_node e && match efeat e with Some _ => true | None => false end) K))).
      { rewrite <- (Rsum_groups String.eqb String.eqb_eq efeat ga (filter (fun e => root_node e && match efeat e with Some _ => true | None => false end) K) (root_features K)).
        - apply Rsum_map_ext. intros h _. do 2 f_equal. rewrite !filter_filter. apply filter_ext. intros e. destruct (efeat e); [rewrite !andb_true_r; reflexivity|rewrite !andb_false_r; reflexivity].
        - apply (proj1 (dedup_string _)).
        - intros e He. apply filter_In in He as [He Hb]. apply andb_true_iff in Hb as [Hb1 Hb2]. destruct (efeat e) as [k|] eqn:Ee; [|discriminate]. exists k. split; [|reflexivity].
          apply (proj2 (dedup_string _)), somes_In, in_map_iff. exists e. split; [exact Ee|]. apply filter_In. auto. }
      rewrite Et.
      assert (Eg : filter (fun e => match efeat e with Some k' => String.eqb k' f | None => false end) (filter root_node K) = filter root_node g).
      { unfold g. rewrite filter_comm. reflexivity. }
      rewrite Eg. cbn [n_mul]. change (n_ofZ xR (Z.of_nat (length (filter root_node g)))) with (Fin (IZR (Z.of_nat (length (filter root_node g))))). rewrite <- INR_IZR.
      change (n_mul xR (Fin (INR (length (filter root_node g)))) (Fin (Rsum (map ga (filter root_node g))))) with (Fin (INR (length (filter root_node g)) * Rsum (map ga (filter root_node g)))%R).
      apply xR_div_fin, Hz.
  Qed.
End RealValues.

(** the counts of the features at roots add up to the number of roots that split *)
Theorem C48_root_counts {V} (ts : list (gtree V)) Ls : Forall2 listing ts Ls ->
  list_sum (map (fun f => length (filter root_node (filter (splits_onb f) (concat Ls)))) (features_of (concat Ls))) = length (filter gsplit ts).
Proof.
  intros HF. assert (E : forall f, length (filter root_node (filter (splits_onb f) (concat Ls))) = length (filter (fun t => match (match t with GSplit _ g _ _ _ _ => Some g | GLeaf _ => None end) with Some k' => String.eqb k' f | None => false end) (filter gsplit ts))).
  { intros f. rewrite (C48_roots ts Ls f HF), filter_filter. f_equal. apply filter_ext. intros [|]; reflexivity. }
  rewrite (map_ext _ _ E). apply (count_groups String.eqb String.eqb_eq).
  - apply (proj1 (dedup_string _)).
  - intros t Ht. apply filter_In in Ht as [Ht Hs]. destruct t as [|i g ga c l r]; [discriminate|]. exists g. split; [|reflexivity].
    apply features_of_In. destruct (Forall2_In_l _ _ _ _ HF Ht) as (L & HL & Hl). eexists {| e_parent := None; e_depth := 0; e_node := GSplit i g ga c l r |}. split; [|reflexivity].
    apply in_concat. exists L. split; [exact (in_combine_r _ _ _ _ HL)|]. apply (Permutation_in _ (Permutation_sym (ls_perm _ L Hl))). left. reflexivity.
Qed.

(** ** Examples *)
Notation q x := (Fin (x # 1)%Q).
Definition ex_g1 : gtree (ext Q) := GSplit 0 "a" (q 4) (Some (q 10)) (GSplit 1 "b" (q 5) (Some (q 6)) (GLeaf 3) (GLeaf 4)) (GSplit 2 "a" (q 2) (Some (q 4)) (GLeaf 5) (GLeaf 6)).
Definition ex_g2 : gtree (ext Q) := GSplit 0 "b" (q 3) (Some (q 10)) (GSplit 1 "a" (q 1) (Some (q 7)) (GLeaf 3) (GLeaf 4)) (GLeaf 2).
Definition sort_entries (l : list (entry (ext Q))) : list (entry (ext Q)) :=
  fold_right (fun e acc => filter (fun x => eid x <? eid e) acc ++ e :: filter (fun x => negb (eid x <? eid e)) acc) [] l.
Definition bfs_list (t : gtree (ext Q)) := sort_entries (entries None 0 t).
Definition xrow_of (z : Z) (e : entry (ext Q)) : xgb_row (ext Q) :=
  match e_node e with
  | GLeaf i => {| x_tree := z; x_node := i; x_feature := "Leaf"; x_yes := None; x_no := None; x_gain := q 0; x_cover := q 1 |}
  | GSplit i f g c l r => {| x_tree := z; x_node := i; x_feature := f; x_yes := Some (gid l); x_no := Some (gid r); x_gain := g; x_cover := match c with Some x => x | None => q 0 end |}
  end.
Definition lrow_of (z : Z) (e : entry (ext Q)) : lgb_row (ext Q) :=
  match e_node e with
  | GLeaf i => {| l_tree := z; l_index := i; l_feature := None; l_left := None; l_right := None; l_gain := NaN; l_depth := S (e_depth e) |}
  | GSplit i f g c l r => {| l_tree := z; l_index := i; l_feature := Some f; l_left := Some (gid l); l_right := Some (gid r); l_gain := g; l_depth := S (e_depth e) |}
  end.
Definition xgb_of (ts : list (gtree (ext Q))) : gb_model (ext Q) :=
  {| gm_class := "xgboost.sklearn.XGBClassifier";
     gm_dump := XDump (map (fun ze => xrow_of (fst ze) (snd ze)) (tagged (map Z.of_nat (seq 0 (length ts))) (map bfs_list ts))) |}.
Definition lgb_of (ts : list (gtree (ext Q))) : gb_model (ext Q) :=
  {| gm_class := "lightgbm.basic.Booster";
     gm_dump := LDump (map (fun ze => lrow_of (fst ze) (snd ze)) (tagged (map Z.of_nat (seq 0 (length ts))) (map bfs_list ts))) |}.

Ltac listing_tac :=
  split;
  [apply NoDup_Permutation; [apply (NoDup_map_inv eid); vm_compute; repeat constructor; cbn; intuition discriminate|apply (NoDup_map_inv eid); vm_compute; repeat constructor; cbn; intuition discriminate|
    intros x; vm_compute; tauto]
  |vm_compute; repeat constructor; cbn; intuition discriminate
  |let E := fresh in let Hq := fresh in intros l1 e l2 p E Hq; vm_compute in E;
   repeat (destruct l1 as [|? l1]; cbn [app] in E; [injection E; intros; subst; clear E; cbn in Hq; first [discriminate|injection Hq as <-; vm_compute; tauto]|injection E; clear E; intros E ?; subst]);
   destruct l1; discriminate].
Lemma zs_sorted n k : StronglySorted Z.lt (map Z.of_nat (seq k n)).
Proof. revert k. induction n as [|n IH]; intros k; cbn; constructor; [apply IH|]. apply Forall_forall. intros z Hz. apply in_map_iff in Hz as (i & <- & Hi). apply in_seq in Hi. lia. Qed.
Lemma Forall2_map_self {A B} (R : A -> B -> Prop) (f : A -> B) l : (forall a, In a l -> R a (f a)) -> Forall2 R l (map f l).
Proof. induction l; intros H; cbn; constructor; [apply H; left; reflexivity|apply IHl; intros; apply H; right; assumption]. Qed.

Lemma xgb_trained_at ts : (forall t, In t ts -> gid t = 0 /\ listing t (bfs_list t)) -> (forall t e, In t ts -> In e (bfs_list t) -> gsplit (e_node e) = true -> ecover e <> None) ->
  trained_at (map Z.of_nat (seq 0 (length ts))) (xgb_of ts) Xgboost ts (map bfs_list ts).
Proof.
  intros H Hc. split; [apply zs_sorted|]. split; [rewrite !map_length, seq_length; reflexivity|]. split.
  - apply Forall2_map_self. intros t Ht. apply H, Ht.
  - exists "sklearn.XGBClassifier". eexists. split; [reflexivity|]. split; [reflexivity|]. split; [intros t Ht; apply H, Ht|].
    apply Forall2_map_self. intros [z e] He. unfold tagged in He. apply in_concat in He as (l & Hl & He). apply in_map_iff in Hl as ([z' L] & <- & HzL). apply in_map_iff in He as (e' & Ee & He). cbn [fst snd] in *.
    apply in_combine_r in HzL. apply in_map_iff in HzL as (t & <- & Ht). injection Ee as -> ->. specialize (Hc t e Ht He).
    unfold xgb_lists, xrow_of, eid, ecover in *. destruct (e_node e) as [|i f g c lt rt]; cbn in *; [auto|]. destruct c; [repeat split|exfalso; apply Hc; reflexivity].
Qed.
Lemma xgb_trained ts : (forall t, In t ts -> gid t = 0 /\ listing t (bfs_list t)) -> (forall t e, In t ts -> In e (bfs_list t) -> gsplit (e_node e) = true -> ecover e <> None) ->
  trained (xgb_of ts) Xgboost ts (map bfs_list ts).
Proof. intros H Hc. eexists. exact (xgb_trained_at ts H Hc). Qed.
Lemma lgb_trained ts : (forall t, In t ts -> listing t (bfs_list t)) -> (forall t e, In t ts -> In e (bfs_list t) -> ecover e = None) ->
  trained (lgb_of ts) Lightgbm ts (map bfs_list ts).
Proof.
  intros H Hc. exists (map Z.of_nat (seq 0 (length ts))). split; [apply zs_sorted|]. split; [rewrite !map_length, seq_length; reflexivity|]. split.
  - apply Forall2_map_self. intros t Ht. apply H, Ht.
  - exists "basic.Booster". eexists. split; [reflexivity|]. split; [reflexivity|].
    apply Forall2_map_self. intros [z e] He. unfold tagged in He. apply in_concat in He as (l & Hl & He). apply in_map_iff in Hl as ([z' L] & <- & HzL). apply in_map_iff in He as (e' & Ee & He). cbn [fst snd] in *.
    apply in_combine_r in HzL. apply in_map_iff in HzL as (t & <- & Ht). injection Ee as -> ->. specialize (Hc t e Ht He).
    unfold lgb_lists, lrow_of, eid, ecover in *. destruct (e_node e) as [|i f g c lt rt]; cbn in *; [auto|]. repeat split. exact Hc.
Qed.

Ltac in_cases H := repeat (destruct H as [<-|H]); try destruct H.
Ltac leaf_tac := let H := fresh in let He := fresh in intros t e H He; cbn in H; in_cases H; vm_compute in He; in_cases He; cbn; first [exact I|discriminate].
Ltac xgb_tac := apply xgb_trained; [intros t Ht; in_cases Ht; (split; [reflexivity|listing_tac])|intros t e Ht He; in_cases Ht; vm_compute in He; in_cases He; cbn; congruence].

Definition ex_ts := [ex_g1; ex_g2].
Lemma ex_trained : trained (xgb_of ex_ts) Xgboost ex_ts (map bfs_list ex_ts). Proof. xgb_tac. Qed.
Lemma ex_noleaf : no_leaf_name ex_ts. Proof. leaf_tac. Qed.
Lemma ex_fitted : fitted_on (Model (xgb_of ex_ts)) Xgboost ex_ts (map bfs_list ex_ts).
Proof. exists (xgb_of ex_ts). split; [exact ex_trained|left; reflexivity]. Qed.
Lemma ex_deep : deep (concat (map bfs_list ex_ts)).
Proof. eexists (nth 1 (bfs_list ex_g1) _). split; [vm_compute; tauto|discriminate]. Unshelve. exact {| e_parent := None; e_depth := 0; e_node := GLeaf 0 |}. Qed.

(** C42 - C44, C48, C49: a fit on two trees, with both settings of only_def_interactions *)
Example C42_example : ss_full_result (fst (ss_fit xQ isort ss_init (Model (xgb_of ex_ts)) "sum_gain" "sum_gain" false)) <> None
  /\ map (fun r => (u_tree r, u_id r, u_depth r, u_parent r, u_inter r)) (firstn 4 (match ss_full_result (fst (ss_fit xQ isort ss_init (Model (xgb_of ex_ts)) "sum_gain" "sum_gain" false)) with Some l => l | None => [] end))
     = [(0%Z, 0, Some 0, None, None);
        (0%Z, 1, Some 1, Some (Some "a", q 4, Some (q 10)), Some true);
        (0%Z, 2, Some 1, Some (Some "a", q 4, Some (q 10)), Some false);
        (0%Z, 3, None, None, None)].
Proof. split; [vm_compute; discriminate|vm_compute; reflexivity]. Qed.
Example C43_example : ss_full_ovo (fst (ss_fit xQ isort ss_init (Model (xgb_of ex_ts)) "sum_gain" "sum_gain" false))
  = Some [ {| o_parent := "a"; o_child := "b"; o_mean_gain := q 5; o_sum_gain := q 5; o_mean_cover := q 6; o_sum_cover := q 6; o_mean_depth := q 1; o_frequency := 1 |};
           {| o_parent := "a"; o_child := "a"; o_mean_gain := q 2; o_sum_gain := q 2; o_mean_cover := q 4; o_sum_cover := q 4; o_mean_depth := q 1; o_frequency := 1 |};
           {| o_parent := "b"; o_child := "a"; o_mean_gain := q 1; o_sum_gain := q 1; o_mean_cover := q 7; o_sum_cover := q 7; o_mean_depth := q 1; o_frequency := 1 |} ].
Proof. vm_compute. reflexivity. Qed.
Example C43_only_def_example : map okey (match ss_full_ovo (fst (ss_fit xQ isort ss_init (Model (xgb_of ex_ts)) "sum_gain" "sum_gain" true)) with Some l => l | None => [] end) = [("a", "b")].
Proof. vm_compute. reflexivity. Qed.
Example C44_example : ss_ovo (fst (ss_fit xQ isort ss_init (Model (xgb_of ex_ts)) "mean_cover" "sum_gain" false)) = Some [("b", "a", q 7); ("a", "b", q 6); ("a", "a", q 4)].
Proof. vm_compute. reflexivity. Qed.
Example C48_example : snd (ss_fit xQ isort ss_init (Model (xgb_of ex_ts)) "sum_gain" "mean_weighted_depth" false) = Ok tt
  /\ ss_fi (fst (ss_fit xQ isort ss_init (Model (xgb_of ex_ts)) "sum_gain" "mean_weighted_depth" false)) = Some [("b", Fin (5 # 8)%Q); ("a", Fin (3 # 7)%Q)]
  /\ ss_fi (fst (ss_fit xQ isort ss_init (Model (xgb_of ex_ts)) "sum_gain" "weighted_root_frequency" false)) = Some [("a", Fin (4 # 7)%Q); ("b", Fin (3 # 7)%Q)].
Proof. vm_compute. repeat split. Qed.
Example C48_real_example : exists ga K f, finite_gains ga K /\ filter (splits_onb f) K <> [] /\ filter root_node (filter (splits_onb f) K) <> []
  /\ Rsum (map ga (filter (splits_onb f) K)) <> 0%R /\ Rsum (map ga (filter (fun e => root_node e && match efeat e with Some _ => true | None => false end) K)) <> 0%R.
Proof.
  exists (fun _ => 2%R), [ {| e_parent := None; e_depth := 0; e_node := GSplit 0 "a" (Fin 2%R) None (GLeaf 1) (GLeaf 2) |} ], "a". cbn.
  split; [intros e [<-|[]]; reflexivity|]. repeat split; try discriminate; rewrite Rsum_cons, Rsum_nil; lra.
Qed.

(** LightGBM *)
Fixpoint no_cover (t : gtree (ext Q)) : gtree (ext Q) := match t with GLeaf i => GLeaf i | GSplit i f g _ l r => GSplit i f g None (no_cover l) (no_cover r) end.
Definition ex_lts := map no_cover ex_ts.
Lemma ex_ltrained : trained (lgb_of ex_lts) Lightgbm ex_lts (map bfs_list ex_lts).
Proof. apply lgb_trained; [intros t Ht; cbn in Ht; in_cases Ht; listing_tac|intros t e Ht He; cbn in Ht; in_cases Ht; vm_compute in He; in_cases He; reflexivity]. Qed.
Example C46_metrics_example : fitted_on (Model (lgb_of ex_lts)) Lightgbm ex_lts (map bfs_list ex_lts) /\ is_cover "sum_cover"
  /\ snd (ss_fit xQ isort ss_init (Model (lgb_of ex_lts)) "sum_gain" "sum_cover" false) = Err MetricNotSupported
  /\ snd (ss_fit xQ isort ss_init (Model (lgb_of ex_lts)) "sum_gain" "mean_depth" true) = Ok tt.
Proof. split; [exists (lgb_of ex_lts); split; [exact ex_ltrained|left; reflexivity]|]. split; [right; reflexivity|]. vm_compute. auto. Qed.
Example C46_models_example : snd (ss_fit xQ isort ss_init (Model {| gm_class := "catboost.core.CatBoost"; gm_dump := XDump [] |}) "sum_gain" "sum_gain" true) = Err ModelNotSupported
  /\ snd (ss_fit xQ isort ss_init (Model {| gm_class := "xgboostlike.Model"; gm_dump := XDump [] |}) "sum_gain" "sum_gain" true) = Err ModelNotSupported.
Proof. vm_compute. auto. Qed.

(** ** Refuted expectations *)

(** C45: an ensemble of stumps cannot be explained *)
Definition stump : gtree (ext Q) := GSplit 0 "a" (q 4) (Some (q 10)) (GLeaf 1) (GLeaf 2).
Lemma stump_trained : trained (xgb_of [stump]) Xgboost [stump] (map bfs_list [stump]). Proof. xgb_tac. Qed.
Theorem C45_stumps_refuted : exists m ts Ls, trained m Xgboost ts Ls /\ no_leaf_name ts
  /\ snd (ss_fit xQ isort ss_init (Model m) "sum_gain" "sum_gain" true) = Err KeyError.
Proof. exists (xgb_of [stump]), [stump], (map bfs_list [stump]). split; [exact stump_trained|]. split; [leaf_tac|vm_compute; reflexivity]. Qed.

(** C45: nor one in which the gains of a feature add up to zero *)
Definition zero_tree : gtree (ext Q) := GSplit 0 "a" (q 4) (Some (q 10)) (GSplit 1 "b" (q 0) (Some (q 6)) (GLeaf 3) (GLeaf 4)) (GLeaf 2).
Theorem C45_zero_gain_refuted : exists m ts Ls, trained m Xgboost ts Ls /\ no_leaf_name ts /\ deep (concat Ls)
  /\ snd (ss_fit xQ isort ss_init (Model m) "sum_gain" "sum_gain" false) = Err ZeroDivisionError.
Proof.
  exists (xgb_of [zero_tree]), [zero_tree], (map bfs_list [zero_tree]). split; [xgb_tac|]. split; [leaf_tac|]. split; [|vm_compute; reflexivity].
  eexists (nth 1 (bfs_list zero_tree) _). split; [vm_compute; tauto|discriminate]. Unshelve. exact {| e_parent := None; e_depth := 0; e_node := GLeaf 0 |}.
Qed.

(** C47: a failed fit reverses the comparison table of the earlier one and changes the reported
    interaction values *)
Theorem C47_split_refuted : exists m1 ts1 Ls1 m2 ts2 Ls2, trained m1 Xgboost ts1 Ls1 /\ no_leaf_name ts1 /\ trained m2 Xgboost ts2 Ls2 /\ no_leaf_name ts2 /\
  let s1 := fst (ss_fit xQ isort ss_init (Model m1) "sum_gain" "sum_gain" false) in
  let s2 := fst (ss_fit xQ isort s1 (Model m2) "mean_depth" "sum_gain" false) in
  snd (ss_fit xQ isort ss_init (Model m1) "sum_gain" "sum_gain" false) = Ok tt
  /\ snd (ss_fit xQ isort s1 (Model m2) "mean_depth" "sum_gain" false) = Err KeyError
  /\ ss_ovo s2 = ss_ovo s1
  /\ interaction_value (ss_compare_ovo xQ isort s1) "a" "b" = Ok (q 5)
  /\ interaction_value (ss_compare_ovo xQ isort s2) "a" "b" = Ok (q 1).
Proof.
  exists (xgb_of ex_ts), ex_ts, (map bfs_list ex_ts), (xgb_of [stump]), [stump], (map bfs_list [stump]).
  split; [exact ex_trained|]. split; [exact ex_noleaf|]. split; [exact stump_trained|]. split; [leaf_tac|]. vm_compute. auto 6.
Qed.

(** C48: the root frequency of a feature at no root is missing, not zero *)
Theorem C48_root_frequency_refuted : exists m ts Ls fi f, trained m Xgboost ts Ls /\ no_leaf_name ts
  /\ ss_fi (fst (ss_fit xQ isort ss_init (Model m) "sum_gain" "root_frequency" false)) = Some fi
  /\ In (f, NaN) fi /\ length (filter (fun t => match t with GSplit _ g _ _ _ _ => String.eqb g f | GLeaf _ => false end) ts) = 0.
Proof.
  exists (xgb_of [ex_g1]), [ex_g1], (map bfs_list [ex_g1]). eexists _, "b". split; [xgb_tac|]. split; [leaf_tac|]. split; [vm_compute; reflexivity|]. split; [right; left; reflexivity|reflexivity].
Qed.
(** for all other features it is the number of trees with the feature at the root *)
Theorem C48_root_frequency_partial {V} (N : num_ops V) (ts : list (gtree V)) Ls f : Forall2 listing ts Ls ->
  let n := length (filter (fun t => match t with GSplit _ g _ _ _ _ => String.eqb g f | GLeaf _ => false end) ts) in
  n <> 0 -> i_root (irow_of_nodes N (filter (considered None) (concat Ls)) f) = n_ofZ N (Z.of_nat n).
Proof.
  intros HF n Hn. cbn. rewrite (C48_all_nodes (concat Ls) None f I), (C48_roots ts Ls f HF). fold n. destruct n; [congruence|reflexivity].
Qed.

(** C49: with the depth metrics the least important feature comes first *)
Theorem C49_order_refuted : exists m ts Ls fi, trained m Xgboost ts Ls /\ no_leaf_name ts /\
  let s := fst (ss_fit xQ isort ss_init (Model m) "sum_gain" "mean_depth" false) in
  ss_fi s = Some fi /\ importance_ascending (ss_fi_metric s) = true
  /\ ~ StronglySorted (fun a b => le_dir xQ true (snd a) (snd b) = true) fi.
Proof.
  exists (xgb_of [ex_g1]), [ex_g1], (map bfs_list [ex_g1]). eexists. split; [xgb_tac|]. split; [leaf_tac|]. cbv zeta. split; [vm_compute; reflexivity|]. split; [vm_compute; reflexivity|].
  intros H. inversion H as [|? ? _ H2]; subst. inversion H2 as [|? ? H3 _]; subst. vm_compute in H3. discriminate.
Qed.

(** C70: a feature called "Leaf".  LightGBM tables are right whatever the names, ... *)
Theorem C70_lightgbm_partial {V} (N : num_ops V) srt : sorter_ok srt -> num_ord_ok N -> forall s arg ts Ls im fm od v,
  fitted_on arg Lightgbm ts Ls -> pair_column N im v -> ~ is_cover im -> ~ is_cover fm -> deep (concat Ls) ->
  exists fo, ss_full_ovo (fst (ss_fit N srt s arg im fm od)) = Some fo /\ NoDup (map okey fo)
    /\ (forall k, In k (map okey fo) <-> exists e, In e (concat Ls) /\ chosen N od e = true /\ epair e = Some k).
Proof.
  intros Hs Ho s arg ts Ls im fm od v Hf Hc H1 H2 Hd.
  destruct (C43_tables N srt Hs Ho s arg Lightgbm ts Ls im fm od v Hf ltac:(discriminate) Hc (fun _ => H1) (fun _ => H2) Hd) as (fo & E & H3 & H4 & _). eauto.
Qed.
(** ... but XGBoost splits on such a feature are taken for leaves *)
Definition leaf_tree : gtree (ext Q) := GSplit 0 "a" (q 4) (Some (q 10)) (GSplit 1 "Leaf" (q 5) (Some (q 6)) (GLeaf 3) (GLeaf 4)) (GSplit 2 "b" (q 2) (Some (q 4)) (GLeaf 5) (GLeaf 6)).
Theorem C70_leaf_name_refuted : exists m ts Ls e, trained m Xgboost ts Ls /\ In e (concat Ls) /\ chosen xQ false e = true /\ epair e = Some ("a", "Leaf")
  /\ option_map (map okey) (ss_full_ovo (fst (ss_fit xQ isort ss_init (Model m) "sum_gain" "sum_gain" false))) = Some [("a", "b")].
Proof.
  exists (xgb_of [leaf_tree]), [leaf_tree], (map bfs_list [leaf_tree]). eexists (nth 1 (bfs_list leaf_tree) _). split; [xgb_tac|]. split; [vm_compute; tauto|]. repeat split; vm_compute; reflexivity.
  Unshelve. exact {| e_parent := None; e_depth := 0; e_node := GLeaf 0 |}.
Qed.

Example C41_example : interaction_value (compare_table xQ isort false (Some [("a", "b", q 1); ("c", "a", q 3); ("b", "a", q 2)])) "a" "b" = Ok (q 2)
  /\ interaction_value (compare_table xQ isort true (Some [("a", "b", q 1); ("c", "a", q 3); ("b", "a", q 2)])) "b" "a" = Ok (q 1)
  /\ interaction_value (compare_table xQ isort true (Some [("a", "b", q 1)])) "b" "c" = Err IndexError.
Proof. vm_compute. auto. Qed.

Print Assumptions C43_values_real.
Print Assumptions C43_totals_real.
Print Assumptions C48_weighted_real.
Print Assumptions C48_root_counts.
Print Assumptions C45_stumps_refuted.
Print Assumptions C45_zero_gain_refuted.
Print Assumptions C47_split_refuted.
Print Assumptions C48_root_frequency_refuted.
Print Assumptions C48_root_frequency_partial.
Print Assumptions C49_order_refuted.
Print Assumptions C70_lightgbm_partial.
Print Assumptions C70_leaf_name_refuted.
