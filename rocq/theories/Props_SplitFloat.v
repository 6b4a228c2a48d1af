(** The depths and frequencies of the split score method in double precision (C126). *)
From Verif Require Import Py Num Float FloatRound FloatMono FloatOps FloatErr FloatInt NpSum Sorting Frame CondDepth TreeFacts ForestFacts SplitScore SplitFacts SplitTables SplitImp Props_Forest Props_ForestFloat Props_Split Props_Split2.
From Coq Require Import ZArith SpecFloat QArith Qabs Qpower Lia.
Open Scope string_scope.
Open Scope nat_scope.
Open Scope list_scope.

(** ** Specification *)
Definition mean_of_depths (g : list (entry F)) : Q := exact (map (fun e : entry F => Z.of_nat (e_depth e)) g).
(** sizes for which distinct means are far enough apart: number of nodes and depth of the deepest *)
Definition modest (E : list (entry F)) : Prop :=
  exists D, 1 <= D /\ Forall (fun e : entry F => e_depth e <= D) E /\ (2 * Z.of_nat (length E) * Z.of_nat (length E) * Z.of_nat D < 2 ^ 52)%Z.

Section SplitFloat.
  Context (sum : list F -> F) (Hsum : forall l, added l (sum l)) (srt : sorter) (Hs : sorter_ok srt).
  Notation N := (fl64 sum).
  Notation fit := (ss_fit N srt).
  Notation before l a b := (exists l1 l2 l3, l = l1 ++ a :: l2 ++ b :: l3).

  (** the chosen nodes of a pair *)
  Definition pair_nodes (od : bool) (E : list (entry F)) (k : string * string) : list (entry F) := filter (fun e => chosen N od e && epairb k e) E.

  Lemma modest_small D E g : Forall (fun e : entry F => e_depth e <= D) E -> incl g E -> length g <= length E -> g <> [] ->
    small (length E) D (map (fun e : entry F => Z.of_nat (e_depth e)) g).
  Proof.
    intros HD Hi Hl Hne. split; [intros H; apply map_eq_nil in H; contradiction|]. rewrite map_length. split; [exact Hl|].
    apply Forall_map, Forall_forall. intros e He. rewrite Forall_forall in HD. specialize (HD e (Hi e He)). lia.
  Qed.

  Lemma mean_skip_depths D (g : list (entry F)) : g <> [] -> Forall (fun e : entry F => e_depth e <= D) g -> (Z.of_nat D <= 2 ^ 52)%Z ->
    mean_skip N (map (edepth N) g) = np_mean N (map (n_ofZ N) (map (fun e : entry F => Z.of_nat (e_depth e)) g)).
  Proof.
    intros Hne HD HB. rewrite map_map. change (fun x : entry F => n_ofZ N (Z.of_nat (e_depth x))) with (edepth N). unfold mean_skip.
    replace (filter (fun x => negb (n_isnan N x)) (map (edepth N) g)) with (map (edepth N) g); [destruct g; [congruence|reflexivity]|].
    clear Hne. induction HD as [|e g He HD IH]; [reflexivity|]. cbn [map filter].
    assert (E : n_isnan N (edepth N e) = false) by (destruct (ofZ_exact (Z.of_nat (e_depth e))) as [Hf _]; [lia|]; apply finite_num in Hf; exact Hf).
    rewrite E. cbn [negb]. f_equal. exact IH.
  Qed.

  Lemma modest_mean D E g : 1 <= D -> Forall (fun e : entry F => e_depth e <= D) E -> (2 * Z.of_nat (length E) * Z.of_nat (length E) * Z.of_nat D < 2 ^ 52)%Z ->
    incl g E -> length g <= length E -> g <> [] ->
    small (length E) D (map (fun e : entry F => Z.of_nat (e_depth e)) g) /\ mean_skip N (map (edepth N) g) = np_mean N (map (n_ofZ N) (map (fun e : entry F => Z.of_nat (e_depth e)) g)).
  Proof.
    intros H1 HD HT Hi Hl Hne. pose proof (modest_small D E g HD Hi Hl Hne) as Hsm. split; [exact Hsm|]. apply (mean_skip_depths D); auto.
    - rewrite Forall_forall in *. auto.
    - destruct (small_facts (length E) D _ H1 HT Hsm) as (_ & H2 & _ & _ & B2). nia.
  Qed.
  Lemma filter_incl {A} (p : A -> bool) l : incl (filter p l) l. Proof. intros x H. apply filter_In in H. tauto. Qed.
  Lemma filter_le {A} (p : A -> bool) l : length (filter p l) <= length l. Proof. induction l as [|x l IH]; cbn; [lia|]. destruct (p x); cbn; lia. Qed.

  Lemma mean_before_asc D T za zb : 1 <= D -> (2 * Z.of_nat T * Z.of_nat T * Z.of_nat D < 2 ^ 52)%Z -> small T D za -> small T D zb ->
    le_dir N true (np_mean N (map (n_ofZ N) za)) (np_mean N (map (n_ofZ N) zb)) = true -> (exact za <= exact zb)%Q.
  Proof.
    intros H1 HT Ha Hb H. apply Qnot_lt_le. intros L. apply (mean_order sum Hsum T D zb za H1 HT Hb Ha) in L.
    unfold le_dir, le_asc in H. cbn [n_isnan n_ltb fl64] in H. apply SFltb_rank in L as L'. destruct L' as (N1 & N2 & _). rewrite N1, N2 in H.
    match type of H with negb ?x = true => change x with (SFltb (np_mean N (map (n_ofZ N) zb)) (np_mean N (map (n_ofZ N) za))) in H end. rewrite L in H. discriminate.
  Qed.
  Lemma mean_before_desc D T za zb : 1 <= D -> (2 * Z.of_nat T * Z.of_nat T * Z.of_nat D < 2 ^ 52)%Z -> small T D za -> small T D zb ->
    le_dir N false (np_mean N (map (n_ofZ N) za)) (np_mean N (map (n_ofZ N) zb)) = true -> (exact zb <= exact za)%Q.
  Proof.
    intros H1 HT Ha Hb H. apply Qnot_lt_le. intros L. apply (mean_order sum Hsum T D za zb H1 HT Ha Hb) in L.
    unfold le_dir, le_desc in H. cbn [n_isnan n_ltb fl64] in H. apply SFltb_rank in L as L'. destruct L' as (N1 & N2 & _). rewrite N1, N2 in H.
    match type of H with negb ?x = true => change x with (SFltb (np_mean N (map (n_ofZ N) za)) (np_mean N (map (n_ofZ N) zb))) in H end. rewrite L in H. discriminate.
  Qed.

  (** the row of a listed pair, for any column *)
  Lemma pair_rows s arg pk ts Ls im fm od v : fitted_on arg pk ts Ls -> (pk = Xgboost -> no_leaf_name ts) -> pair_column N im v -> metric_allowed pk im -> metric_allowed pk fm -> deep (concat Ls) ->
    exists ovo, ss_ovo (fst (fit s arg im fm od)) = Some ovo
      /\ StronglySorted (fun a b => le_dir N (String.eqb im "mean_depth") (snd a) (snd b) = true) ovo
      /\ forall p c x, In (p, c, x) ovo -> pair_nodes od (concat Ls) (p, c) <> [] /\ x = v (pair_of_nodes N (p, c) (pair_nodes od (concat Ls) (p, c))).
  Proof.
    intros Hf Hn Hc Ha1 Ha2 Hd. destruct (C44_order N srt Hs (fl64_ord sum) s arg pk ts Ls im fm od v Hf Hn Hc Ha1 Ha2 Hd) as (fo & ovo & Efo & Eo & HP & HS & _).
    destruct (C43_tables N srt Hs (fl64_ord sum) s arg pk ts Ls im fm od v Hf Hn Hc Ha1 Ha2 Hd) as (fo' & Efo' & _ & Hk & Hr & _). rewrite Efo in Efo'. injection Efo' as <-.
    exists ovo. split; [exact Eo|]. split; [exact HS|]. intros p c x Hin. apply (Permutation_in _ HP), in_map_iff in Hin as (r & E & Hin).
    assert (E1 : o_parent r = p) by congruence. assert (E2 : o_child r = c) by congruence. assert (E3 : v r = x) by congruence. clear E.
    assert (Ek : okey r = (p, c)) by (unfold okey; congruence). split.
    - assert (Hk' : In (okey r) (map okey fo)) by (apply in_map; exact Hin). apply Hk in Hk' as (e & He & Hch & Hp). rewrite Ek in Hp.
      assert (Hin' : In e (pair_nodes od (concat Ls) (p, c))).
      { apply filter_In. split; [exact He|]. rewrite Hch. cbn [andb]. unfold epairb. rewrite Hp. unfold pair_eqb. cbn. rewrite !String.eqb_refl. reflexivity. }
      intros E. rewrite E in Hin'. destruct Hin'.
    - pose proof (Hr r Hin) as E. rewrite Ek in E. rewrite <- E3. unfold pair_nodes. rewrite <- E. reflexivity.
  Qed.

  (** metric mean_depth: the double closest to the exact mean depth, in exactly ascending order *)
  Theorem C126_mean_depth s arg pk ts Ls fm od : fitted_on arg pk ts Ls -> (pk = Xgboost -> no_leaf_name ts) -> metric_allowed pk fm -> deep (concat Ls) -> modest (concat Ls) ->
    exists ovo, ss_ovo (fst (fit s arg "mean_depth" fm od)) = Some ovo
      /\ (forall p c x, In (p, c, x) ovo -> rounded x (mean_of_depths (pair_nodes od (concat Ls) (p, c))))
      /\ (forall p c x p' c' x', In (p, c, x) ovo -> In (p', c', x') ovo ->
            (SFltb x x' = true <-> (mean_of_depths (pair_nodes od (concat Ls) (p, c)) < mean_of_depths (pair_nodes od (concat Ls) (p', c')))%Q)
            /\ (before ovo (p, c, x) (p', c', x') -> (mean_of_depths (pair_nodes od (concat Ls) (p, c)) <= mean_of_depths (pair_nodes od (concat Ls) (p', c')))%Q)).
  Proof.
    intros Hf Hn Ha Hd (D & D1 & HD & HT). assert (Hcov : metric_allowed pk "mean_depth") by (intros _ [H|H]; discriminate).
    destruct (pair_rows s arg pk ts Ls "mean_depth" fm od o_mean_depth Hf Hn (pc_mean_depth N) Hcov Ha Hd) as (ovo & Eo & HS & Hr). exists ovo. split; [exact Eo|].
    assert (G : forall p c x, In (p, c, x) ovo -> exists zs, zs = map (fun e : entry F => Z.of_nat (e_depth e)) (pair_nodes od (concat Ls) (p, c)) /\ small (length (concat Ls)) D zs /\ x = np_mean N (map (n_ofZ N) zs)).
    { intros p c x Hin. destruct (Hr p c x Hin) as [Hne ->]. destruct (modest_mean D (concat Ls) (pair_nodes od (concat Ls) (p, c)) D1 HD HT (filter_incl _ _) (filter_le _ _) Hne) as [A B].
      eexists. split; [reflexivity|]. split; [exact A|exact B]. }
    split.
    - intros p c x Hin. destruct (G p c x Hin) as (zs & E & Hz & ->). apply (mean_rounded sum Hsum (length (concat Ls)) D zs D1 HT Hz). unfold mean_of_depths. rewrite E. reflexivity.
    - intros p c x p' c' x' Hin Hin'. destruct (G p c x Hin) as (zs & E & Hz & Ex). destruct (G p' c' x' Hin') as (zs' & E' & Hz' & Ex'). unfold mean_of_depths. rewrite <- E, <- E'.
      split; [rewrite Ex, Ex'; apply (mean_order sum Hsum (length (concat Ls)) D zs zs' D1 HT Hz Hz')|]. intros Hb. pose proof (sorted_before _ _ _ _ HS Hb) as H. cbn [snd] in H. change (String.eqb "mean_depth" "mean_depth") with true in H.
      rewrite Ex, Ex' in H. apply (mean_before_asc D (length (concat Ls)) zs zs' D1 HT Hz Hz' H).
  Qed.

  Lemma count_number n : (Z.of_nat n <= 2 ^ 52)%Z -> finite (f_ofZ (Z.of_nat n)) /\ (number (f_ofZ (Z.of_nat n)) == inject_Z (Z.of_nat n))%Q.
  Proof.
    intros Hn. destruct (ofZ_exact (Z.of_nat n)) as [Hf Ht]; [lia|]. split; [exact Hf|]. rewrite number_tiny, Ht, inject_Z_mult by exact Hf. field. pose proof unit1_pos. unfold Qeq. cbn. lia.
  Qed.
  Lemma count_lt n n' : (Z.of_nat n <= 2 ^ 52)%Z -> (Z.of_nat n' <= 2 ^ 52)%Z -> (SFltb (f_ofZ (Z.of_nat n)) (f_ofZ (Z.of_nat n')) = true <-> n < n').
  Proof.
    intros Hn Hn'. destruct (ofZ_exact (Z.of_nat n)) as [Hf Ht]; [lia|]. destruct (ofZ_exact (Z.of_nat n')) as [Hf' Ht']; [lia|]. pose proof unit1_pos as Hu.
    pose proof (fle_tiny _ _ Hf' Hf) as L. rewrite Ht, Ht' in L. apply finite_num in Hf, Hf'. split.
    - intros E. destruct (Nat.lt_ge_cases n n') as [|Hge]; [assumption|exfalso]. assert (Hfl : fle (f_ofZ (Z.of_nat n')) (f_ofZ (Z.of_nat n))) by (apply L; nia). destruct Hfl as (_ & _ & Hfl). congruence.
    - intros Hlt. destruct (SFltb (f_ofZ (Z.of_nat n)) (f_ofZ (Z.of_nat n'))) eqn:E; [reflexivity|exfalso]. assert (Hfl : fle (f_ofZ (Z.of_nat n')) (f_ofZ (Z.of_nat n))) by (split; [exact Hf'|split; [exact Hf|exact E]]). apply L in Hfl. nia.
  Qed.

  (** metric frequency: the count itself, in exactly descending order *)
  Theorem C126_frequency s arg pk ts Ls fm od : fitted_on arg pk ts Ls -> (pk = Xgboost -> no_leaf_name ts) -> metric_allowed pk fm -> deep (concat Ls) -> (Z.of_nat (length (concat Ls)) <= 2 ^ 52)%Z ->
    exists ovo, ss_ovo (fst (fit s arg "frequency" fm od)) = Some ovo
      /\ (forall p c x, In (p, c, x) ovo -> finite x /\ (number x == inject_Z (Z.of_nat (length (pair_nodes od (concat Ls) (p, c)))))%Q)
      /\ (forall p c x p' c' x', before ovo (p, c, x) (p', c', x') -> length (pair_nodes od (concat Ls) (p', c')) <= length (pair_nodes od (concat Ls) (p, c))).
  Proof.
    intros Hf Hn Ha Hd HB. assert (Hcov : metric_allowed pk "frequency") by (intros _ [H|H]; discriminate).
    destruct (pair_rows s arg pk ts Ls "frequency" fm od _ Hf Hn (pc_frequency N) Hcov Ha Hd) as (ovo & Eo & HS & Hr). exists ovo. split; [exact Eo|].
    assert (B : forall k, (Z.of_nat (length (pair_nodes od (concat Ls) k)) <= 2 ^ 52)%Z) by (intros k; pose proof (filter_le (fun e => chosen N od e && epairb k e) (concat Ls)); unfold pair_nodes; lia).
    split; [intros p c x Hin; destruct (Hr p c x Hin) as [_ ->]; apply count_number, B|].
    intros p c x p' c' x' Hb. pose proof (sorted_before _ _ _ _ HS Hb) as H. cbn [snd] in H. change (String.eqb "frequency" "mean_depth") with false in H.
    assert (Hin : In (p, c, x) ovo /\ In (p', c', x') ovo).
    { destruct Hb as (l1 & l2 & l3 & ->). split; [apply in_or_app; right; left; reflexivity|]. apply in_or_app. right. right. apply in_or_app. right. left. reflexivity. }
    destruct Hin as [H1 H2]. destruct (Hr _ _ _ H1) as [_ E1]. destruct (Hr _ _ _ H2) as [_ E2]. cbn [o_frequency pair_of_nodes n_ofZ fl64] in E1, E2.
    destruct (Nat.le_gt_cases (length (pair_nodes od (concat Ls) (p', c'))) (length (pair_nodes od (concat Ls) (p, c)))) as [|L]; [assumption|exfalso].
    apply count_lt in L; auto. rewrite <- E1, <- E2 in L. unfold le_dir, le_desc in H. cbn [n_isnan n_ltb fl64] in H. apply SFltb_rank in L as L'. destruct L' as (N1 & N2 & _). rewrite N1, N2 in H.
    change (negb (SFltb x x') = true) in H. rewrite L in H. discriminate.
  Qed.

  (** importance by mean_depth: the double closest to the exact mean depth, in exactly descending order *)
  Definition feature_splits (E : list (entry F)) (f : string) : list (entry F) := filter (splits_onb f) E.
  Theorem C126_importance s arg pk ts Ls im od v fi : fitted_on arg pk ts Ls -> no_leaf_name ts -> pair_column N im v -> metric_allowed pk im -> modest (concat Ls) ->
    snd (fit s arg im "mean_depth" od) = Ok tt -> ss_fi (fst (fit s arg im "mean_depth" od)) = Some fi ->
    (forall f x, In (f, x) fi -> rounded x (mean_of_depths (feature_splits (concat Ls) f)))
    /\ (forall f x f' x', before fi (f, x) (f', x') -> (mean_of_depths (feature_splits (concat Ls) f') <= mean_of_depths (feature_splits (concat Ls) f))%Q).
  Proof.
    intros Hf Hn Hc Ha (D & D1 & HD & HT) Hok Hfi. assert (Hcov : metric_allowed pk "mean_depth") by (intros _ [H|H]; discriminate).
    destruct (C48_fit N srt s arg pk ts Ls im "mean_depth" od v Hf Hn Hc Ha Hcov Hok) as (rows & fi' & Hu & E & E'). rewrite Hfi in E'. injection E' as <-.
    destruct (C48_rows N srt Hs (fl64_ord sum) pk ts Ls rows None "mean_depth" i_mean_depth fi Hu Hn ltac:(discriminate) fc_mean_depth E) as (_ & Hk & Hv & HS).
    assert (G : forall f x, In (f, x) fi -> exists zs, zs = map (fun e : entry F => Z.of_nat (e_depth e)) (feature_splits (concat Ls) f) /\ small (length (concat Ls)) D zs /\ x = np_mean N (map (n_ofZ N) zs)).
    { intros f x Hin. pose proof (Hv f x Hin) as Ex. cbn [irow_of_nodes i_mean_depth] in Ex. rewrite (C48_all_nodes (concat Ls) None f I) in Ex. fold (feature_splits (concat Ls) f) in Ex.
      assert (Hne : feature_splits (concat Ls) f <> []).
      { assert (Hin' : In f (map fst fi)) by (apply in_map_iff; exists (f, x); auto). apply Hk in Hin' as [(e & He & Hfe) _]. intros E0. assert (Hx : In e (feature_splits (concat Ls) f)); [|rewrite E0 in Hx; destruct Hx].
        apply filter_In. split; [exact He|]. unfold splits_onb. rewrite Hfe. apply String.eqb_refl. }
      destruct (modest_mean D (concat Ls) (feature_splits (concat Ls) f) D1 HD HT (filter_incl _ _) (filter_le _ _) Hne) as [A B]. eexists. split; [reflexivity|]. split; [exact A|]. rewrite Ex. exact B. }
    split.
    - intros f x Hin. destruct (G f x Hin) as (zs & Ez & Hz & ->). apply (mean_rounded sum Hsum (length (concat Ls)) D zs D1 HT Hz). unfold mean_of_depths. rewrite Ez. reflexivity.
    - intros f x f' x' Hb. pose proof (sorted_before _ _ _ _ HS Hb) as H. cbn [snd] in H.
      assert (Hin : In (f, x) fi /\ In (f', x') fi).
      { destruct Hb as (l1 & l2 & l3 & ->). split; [apply in_or_app; right; left; reflexivity|]. apply in_or_app. right. right. apply in_or_app. right. left. reflexivity. }
      destruct Hin as [H1 H2]. destruct (G _ _ H1) as (zs & Ez & Hz & Ex). destruct (G _ _ H2) as (zs' & Ez' & Hz' & Ex'). unfold mean_of_depths. rewrite <- Ez, <- Ez'. rewrite Ex, Ex' in H.
      apply (mean_before_desc D (length (concat Ls)) zs zs' D1 HT Hz Hz' H).
  Qed.
  (** importance by root_frequency: the number of trees whose root splits on the feature, missing if
      there is none; in exactly descending order, missing values last *)
  Definition root_trees (ts : list (gtree F)) (f : string) : nat :=
    length (filter (fun t => match t with GSplit _ g _ _ _ _ => String.eqb g f | GLeaf _ => false end) ts).
  Theorem C126_roots s arg pk ts Ls im od v fi : fitted_on arg pk ts Ls -> no_leaf_name ts -> pair_column N im v -> metric_allowed pk im -> (Z.of_nat (length ts) <= 2 ^ 52)%Z ->
    snd (fit s arg im "root_frequency" od) = Ok tt -> ss_fi (fst (fit s arg im "root_frequency" od)) = Some fi ->
    (forall f x, In (f, x) fi -> (root_trees ts f = 0 /\ f_isnan x = true) \/ (0 < root_trees ts f /\ finite x /\ (number x == inject_Z (Z.of_nat (root_trees ts f)))%Q))
    /\ (forall f x f' x', before fi (f, x) (f', x') -> root_trees ts f' <= root_trees ts f).
  Proof.
    intros Hf Hn Hc Ha HB Hok Hfi. assert (Hcov : metric_allowed pk "root_frequency") by (intros _ [H|H]; discriminate).
    assert (HF : Forall2 listing ts Ls) by (destruct Hf as (m & (zs & _ & _ & HF & _) & _); exact HF).
    destruct (C48_fit N srt s arg pk ts Ls im "root_frequency" od v Hf Hn Hc Ha Hcov Hok) as (rows & fi' & Hu & E & E'). rewrite Hfi in E'. injection E' as <-.
    destruct (C48_rows N srt Hs (fl64_ord sum) pk ts Ls rows None "root_frequency" i_root fi Hu Hn ltac:(discriminate) fc_root E) as (_ & _ & Hv & HS).
    assert (B : forall f, (Z.of_nat (root_trees ts f) <= 2 ^ 52)%Z) by (intros f; pose proof (filter_le (fun t : gtree F => match t with GSplit _ g _ _ _ _ => String.eqb g f | GLeaf _ => false end) ts); unfold root_trees; lia).
    assert (G : forall f x, In (f, x) fi -> x = if root_trees ts f =? 0 then S754_nan else f_ofZ (Z.of_nat (root_trees ts f))).
    { intros f x Hin. pose proof (Hv f x Hin) as Ex. cbn [irow_of_nodes i_root] in Ex. rewrite (C48_all_nodes (concat Ls) None f I), (C48_roots ts Ls f HF) in Ex. exact Ex. }
    split.
    - intros f x Hin. rewrite (G f x Hin). destruct (Nat.eqb_spec (root_trees ts f) 0) as [E0|E0]; [left; split; [exact E0|reflexivity]|right]. split; [lia|]. apply count_number, B.
    - intros f x f' x' Hb. pose proof (sorted_before _ _ _ _ HS Hb) as H. cbn [snd] in H.
      assert (Hin : In (f, x) fi /\ In (f', x') fi).
      { destruct Hb as (l1 & l2 & l3 & ->). split; [apply in_or_app; right; left; reflexivity|]. apply in_or_app. right. right. apply in_or_app. right. left. reflexivity. }
      destruct Hin as [H1 H2]. pose proof (G _ _ H1) as Ex. pose proof (G _ _ H2) as Ex'. clear H1 H2 Hb.
      destruct (Nat.eqb_spec (root_trees ts f') 0) as [E0|E0]; [lia|]. destruct (Nat.le_gt_cases (root_trees ts f') (root_trees ts f)) as [|L]; [assumption|exfalso].
      destruct (count_number (root_trees ts f') (B f')) as [Hfin _]. apply finite_num in Hfin. unfold le_dir, le_desc in H. cbn [n_isnan n_ltb fl64] in H. rewrite Ex' in H.
      destruct (Nat.eqb_spec (root_trees ts f) 0) as [E1|E1].
      + rewrite Ex in H. change (f_isnan S754_nan) with true in H. rewrite Hfin in H. discriminate.
      + apply count_lt in L; auto. rewrite Ex in H. apply SFltb_rank in L as L'. destruct L' as (N1 & N2 & _). rewrite N1, N2 in H.
        match type of H with negb ?x = true => change x with (SFltb (f_ofZ (Z.of_nat (root_trees ts f))) (f_ofZ (Z.of_nat (root_trees ts f')))) in H end. rewrite L in H. discriminate.
  Qed.
End SplitFloat.

(** ** Example: three trees; b below a at the depths 1, 2 and 1 *)
Definition fq (z : Z) : F := f_ofZ z.
Definition sf_t1 : gtree F := GSplit 0 "a" (fq 4) (Some (fq 9)) (GSplit 1 "b" (fq 5) (Some (fq 6)) (GLeaf 2) (GLeaf 3)) (GLeaf 4).
Definition sf_t2 : gtree F := GSplit 0 "c" (fq 3) (Some (fq 9)) (GSplit 1 "a" (fq 2) (Some (fq 6)) (GSplit 2 "b" (fq 1) (Some (fq 3)) (GLeaf 3) (GLeaf 4)) (GLeaf 5)) (GLeaf 6).
Definition sf_ts : list (gtree F) := [sf_t1; sf_t2; sf_t1].
Definition sf_Ls : list (list (entry F)) := map (entries None 0) sf_ts.
Definition sf_row (z : Z) (e : entry F) : xgb_row F :=
  match e_node e with
  | GLeaf i => {| x_tree := z; x_node := i; x_feature := "Leaf"; x_yes := None; x_no := None; x_gain := fq 0; x_cover := fq 1 |}
  | GSplit i f g c l r => {| x_tree := z; x_node := i; x_feature := f; x_yes := Some (gid l); x_no := Some (gid r); x_gain := g; x_cover := match c with Some x => x | None => fq 0 end |}
  end.
Definition sf_model : gb_model F :=
  {| gm_class := "xgboost.sklearn.XGBClassifier"; gm_dump := XDump (map (fun ze => sf_row (fst ze) (snd ze)) (tagged [0; 1; 2]%Z sf_Ls)) |}.
Lemma sf_trained : trained sf_model Xgboost sf_ts sf_Ls.
Proof.
  exists [0; 1; 2]%Z. split; [exact (zs_sorted 3 0)|]. split; [reflexivity|]. split.
  - unfold sf_Ls, sf_ts. cbn [map]. repeat (apply Forall2_cons; [listing_tac|]). apply Forall2_nil.
  - exists "sklearn.XGBClassifier". eexists. split; [reflexivity|]. split; [reflexivity|]. split; [intros t Ht; in_cases Ht; reflexivity|].
    cbn. repeat constructor.
Qed.
Example C126_example : fitted_on (Model sf_model) Xgboost sf_ts sf_Ls /\ no_leaf_name sf_ts /\ deep (concat sf_Ls) /\ modest (concat sf_Ls)
  /\ ss_ovo (fst (ss_fit (fl64 seq_sum) isort ss_init (Model sf_model) "mean_depth" "root_frequency" false))
     = Some [("c", "a", fq 1); ("a", "b", S754_finite false 6004799503160661 (-52))]
  /\ (mean_of_depths (pair_nodes seq_sum false (concat sf_Ls) ("a", "b")) == 4 # 3)%Q
  /\ snd (ss_fit (fl64 seq_sum) isort ss_init (Model sf_model) "frequency" "root_frequency" false) = Ok tt
  /\ ss_ovo (fst (ss_fit (fl64 seq_sum) isort ss_init (Model sf_model) "frequency" "root_frequency" false)) = Some [("a", "b", fq 3); ("c", "a", fq 1)]
  /\ ss_fi (fst (ss_fit (fl64 seq_sum) isort ss_init (Model sf_model) "frequency" "root_frequency" false)) = Some [("a", fq 2); ("c", fq 1); ("b", S754_nan)]
  /\ snd (ss_fit (fl64 seq_sum) isort ss_init (Model sf_model) "frequency" "mean_depth" false) = Ok tt
  /\ option_map (map fst) (ss_fi (fst (ss_fit (fl64 seq_sum) isort ss_init (Model sf_model) "frequency" "mean_depth" false))) = Some ["b"; "a"; "c"].
Proof.
  split; [exists sf_model; split; [exact sf_trained|left; reflexivity]|]. split; [leaf_tac|].
  split; [eexists (nth 1 (entries None 0 sf_t1) _); split; [vm_compute; tauto|discriminate]|].
  split; [exists 3; split; [lia|split; [vm_compute; repeat constructor|vm_compute; reflexivity]]|].
  repeat split; vm_compute; reflexivity.
  Unshelve. exact {| e_parent := None; e_depth := 0; e_node := GLeaf 0 |}.
Qed.

Print Assumptions C126_mean_depth.
Print Assumptions C126_frequency.
Print Assumptions C126_importance.
Print Assumptions C126_roots.
