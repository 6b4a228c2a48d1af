(** C130: renaming the features and recoding their values. *)
From Verif Require Import Py Num NumR Sorting Frame Rng PdCalc PdSpec PdFacts PdProofs PdTheorems PdErrors PdApi PdMethods MethodSpec
  PdMethodFacts PdMethodRun PdMethodReal PdMethodReal2 GreenwellFacts Props_Pd Props_Methods Props_Methods2 Additivity Props_Additivity Views Props_Views.
From Coq Require Import Reals Lra QArith.
Open Scope string_scope.
Open Scope nat_scope.
Open Scope list_scope.

(** ** Specification *)

(** [r2] is [r1] with the value of each column written in another way *)
Definition recoded {C D} (code : nat -> C -> D) (r1 : list C) (r2 : list D) : Prop := forall p, nth_error r2 p = option_map (code p) (nth_error r1 p).
(** the data with other names and other values, numerical columns staying numerical *)
Definition recoded_data {C D} (name : string -> string) (code : nat -> C -> D) (X1 : frame C) (X2 : frame D) : Prop :=
  f_cols X2 = map name (f_cols X1) /\ Forall2 (recoded code) (f_rows X1) (f_rows X2)
  /\ forall f, In f (f_cols X1) -> str_in (name f) (f_num X2) = str_in f (f_num X1).
(** the model reading the new values *)
Definition recoded_model {C D V} (code : nat -> C -> D) (w : nat) (h1 : list C -> V) (h2 : list D -> V) : Prop :=
  forall r1 r2, length r1 = w -> recoded code r1 r2 -> h2 r2 = h1 r1.
(** different values of a column get different codes *)
Definition faithful {C D} (code : nat -> C -> D) (X1 : frame C) : Prop :=
  forall p v v', In v (col_at p (f_rows X1)) -> In v' (col_at p (f_rows X1)) -> code p v = code p v' -> v = v'.

(** the tables with the new names *)
Definition renamed {V} (name : string -> string) (r : string * string * V) : string * string * V := (name (fst (fst r)), name (snd (fst r)), snd r).
Definition renamed1 {V} (name : string -> string) (r : string * V) : string * V := (name (fst r), snd r).

(** ** Lists *)
Lemma renamed_table {K1 K2 V} (m : K1 -> K2) (t1 : list (K1 * V)) (t2 : list (K2 * V)) : Permutation (map fst t2) (map m (map fst t1)) ->
  (forall k v v2, In (k, v) t1 -> In (m k, v2) t2 -> v2 = v) -> Permutation t2 (map (fun r => (m (fst r), snd r)) t1).
Proof.
  intros HP HV. assert (E : map m (map fst t1) = map fst (map (fun r => (m (fst r), snd r)) t1)) by (rewrite !map_map; reflexivity).
  rewrite E in HP. apply Permutation_sym, Permutation_map_inv in HP as (t3 & E3 & HP). rewrite HP. clear E.
  assert (HV' : forall k v v2, In (k, v) t1 -> In (m k, v2) t3 -> v2 = v) by (intros k v v2 H1 H2; apply (HV k v v2 H1), (Permutation_in _ (Permutation_sym HP)), H2).
  clear HP HV t2. replace t3 with (map (fun r => (m (fst r), snd r)) t1); [reflexivity|]. revert t3 E3 HV'.
  induction t1 as [|[k v] t1 IH]; intros [|[k3 v3] t3] E HV; cbn in E |- *; try discriminate; [reflexivity|]. injection E as <- E. f_equal.
  - f_equal. symmetry. apply (HV k v v3); left; reflexivity.
  - apply IH; [exact E|]. intros k' v' v2 H1 H2. apply (HV k' v' v2); right; assumption.
Qed.
Lemma combinations2_map {A B} (f : A -> B) l : combinations2 (map f l) = map (fun p => (f (fst p), f (snd p))) (combinations2 l).
Proof. induction l as [|x l IH]; [reflexivity|]. cbn [map combinations2]. rewrite map_app, !map_map, IH. reflexivity. Qed.

Lemma map_recoded {C D A} (code : nat -> C -> D) w rows1 rows2 (f1 : list C -> A) (f2 : list D -> A) : Forall2 (recoded code) rows1 rows2 -> (forall r, In r rows1 -> length r = w) ->
  (forall r1 r2, In r1 rows1 -> length r1 = w -> recoded code r1 r2 -> f2 r2 = f1 r1) -> map f2 rows2 = map f1 rows1.
Proof.
  induction 1 as [|r1 r2 l1 l2 H12 HF IH]; intros HW H; [reflexivity|]. cbn. f_equal.
  - apply H; [left; reflexivity|apply HW; left; reflexivity|exact H12].
  - apply IH; [intros r Hr; apply HW; right; exact Hr|]. intros a b Ha La Hab. apply H; [right; exact Ha|exact La|exact Hab].
Qed.

Lemma col_recoded {C D} (code : nat -> C -> D) rows1 rows2 (HR : Forall2 (recoded code) rows1 rows2) p : map (code p) (col_at p rows1) = col_at p rows2.
Proof.
  unfold col_at. induction HR as [|r1 r2 l1 l2 H HF IH]; [reflexivity|]. cbn. rewrite map_app. f_equal; [|exact IH]. rewrite (H p). destruct (nth_error r1 p); reflexivity.
Qed.

(** ** Values *)
Section Values.
  Context {C D : Type} (code : nat -> C -> D).
  Lemma recoded_length r1 r2 : recoded code r1 r2 -> length r2 = length r1.
  Proof.
    intros H. apply Nat.le_antisymm.
    - destruct (Nat.le_gt_cases (length r2) (length r1)) as [|L]; [assumption|]. specialize (H (length r1)). rewrite (proj2 (nth_error_None r1 _)) in H by lia. cbn in H. apply nth_error_None in H. lia.
    - destruct (Nat.le_gt_cases (length r1) (length r2)) as [|L]; [assumption|]. specialize (H (length r2)). rewrite (proj2 (nth_error_None r2 _)) in H by lia. destruct (nth_error r1 (length r2)) eqn:E; [discriminate|]. apply nth_error_None in E. lia.
  Qed.
  Lemma recoded_with r1 r2 p v : recoded code r1 r2 -> p < length r1 -> recoded code (with_value p v r1) (with_value p (code p v) r2).
  Proof. intros H Hp i. rewrite !with_value_nth by (rewrite ?(recoded_length r1 r2 H); exact Hp). destruct (Nat.eqb_spec i p) as [->|]; [reflexivity|apply H]. Qed.

  Context {V : Type} (w : nat) (rows1 : list (list C)) (rows2 : list (list D)) (HW : forall r, In r rows1 -> length r = w) (HR : Forall2 (recoded code) rows1 rows2)
          (h1 : list C -> V) (h2 : list D -> V) (HM : recoded_model code w h1 h2).

  Lemma recoded_rows {A} (f1 : list C -> A) (f2 : list D -> A) : (forall r1 r2, In r1 rows1 -> length r1 = w -> recoded code r1 r2 -> f2 r2 = f1 r1) -> map f2 rows2 = map f1 rows1.
  Proof. apply (map_recoded code w rows1 rows2 f1 f2 HR HW). Qed.
  Lemma PD1_recoded mean p v : p < w -> PD1 mean h2 rows2 p (code p v) = PD1 mean h1 rows1 p v.
  Proof.
    intros Hp. unfold PD1. f_equal. apply recoded_rows. intros r1 r2 _ L H. apply HM; [rewrite with_value_length; lia|]. apply recoded_with; [exact H|lia].
  Qed.
  Lemma PD2_recoded mean p q v u : p < w -> q < w -> PD2 mean h2 rows2 p q (code p v) (code q u) = PD2 mean h1 rows1 p q v u.
  Proof.
    intros Hp Hq. unfold PD2. f_equal. apply recoded_rows. intros r1 r2 _ L H. apply HM; [rewrite !with_value_length; rewrite ?with_value_length; lia|].
    apply recoded_with; [apply recoded_with; [exact H|lia]|rewrite with_value_length; lia].
  Qed.
  Lemma PDminus_recoded mean p r1 r2 : p < w -> length r1 = w -> recoded code r1 r2 -> PDminus mean h2 rows2 p r2 = PDminus mean h1 rows1 p r1.
  Proof.
    intros Hp L H. unfold PDminus. f_equal. rewrite !flat_map_concat_map. f_equal. apply recoded_rows. intros a b _ La Hab. rewrite (Hab p). destruct (nth_error a p) as [v|]; [|reflexivity]. cbn. f_equal.
    apply HM; [rewrite with_value_length; lia|]. apply recoded_with; [exact H|lia].
  Qed.
  Lemma PD1_at_recoded (N : num_ops V) p r1 r2 : p < w -> recoded code r1 r2 -> PD1_at N h2 rows2 p r2 = PD1_at N h1 rows1 p r1.
  Proof. intros Hp H. unfold PD1_at. rewrite (H p). destruct (nth_error r1 p); [apply PD1_recoded, Hp|reflexivity]. Qed.
  Lemma PD2_at_recoded (N : num_ops V) p q r1 r2 : p < w -> q < w -> recoded code r1 r2 -> PD2_at N h2 rows2 p q r2 = PD2_at N h1 rows1 p q r1.
  Proof. intros Hp Hq H. unfold PD2_at. rewrite (H p), (H q). destruct (nth_error r1 p), (nth_error r1 q); try reflexivity. apply PD2_recoded; assumption. Qed.

  Lemma H_recoded (N : num_ops V) norm f12 f1 f2 g12 g1 g2 : (forall r1 r2, length r1 = w -> recoded code r1 r2 -> g12 r2 = f12 r1) -> (forall r1 r2, length r1 = w -> recoded code r1 r2 -> g1 r2 = f1 r1) ->
    (forall r1 r2, length r1 = w -> recoded code r1 r2 -> g2 r2 = f2 r1) -> H_value N rows2 norm g12 g1 g2 = H_value N rows1 norm f12 f1 f2.
  Proof.
    intros H12 H1 H2. assert (Hd : forall (f : list C -> V) g r1 r2, (forall r1 r2, length r1 = w -> recoded code r1 r2 -> g r2 = f r1) -> length r1 = w -> recoded code r1 r2 -> dev N rows2 g r2 = dev N rows1 f r1).
    { intros f g r1 r2 Hfg L H. unfold dev. rewrite (Hfg r1 r2 L H). f_equal. f_equal. apply recoded_rows. auto. }
    unfold H_value. rewrite (recoded_rows (fun r => sq N (n_sub N (n_sub N (dev N rows1 f12 r) (dev N rows1 f1 r)) (dev N rows1 f2 r)))).
    - rewrite (recoded_rows (fun r => sq N (dev N rows1 f12 r))); [reflexivity|]. intros r1 r2 _ L H. rewrite (Hd f12 g12 r1 r2); auto.
    - intros r1 r2 _ L H. rewrite (Hd f12 g12 r1 r2), (Hd f1 g1 r1 r2), (Hd f2 g2 r1 r2); auto.
  Qed.
End Values.

(** the values of a column in another order *)
Lemma Rmaxl_In (l : list R) : l <> [] -> In (Rmaxl l) l /\ (forall x, In x l -> x <= Rmaxl l)%R.
Proof.
  destruct l as [|x t]; [congruence|]. intros _. cbn [Rmaxl]. revert x. induction t as [|y t IH]; intros x; cbn [fold_left].
  - split; [left; reflexivity|]. intros z [->|[]]. lra.
  - destruct (IH (Rmax x y)) as [H1 H2]. split.
    + destruct H1 as [H1|H1]; [|right; right; exact H1]. rewrite <- H1. unfold Rmax. destruct (Rle_dec x y); [right; left; reflexivity|left; reflexivity].
    + intros z [<-|[<-|Hz]]; [eapply Rle_trans; [apply Rmax_l|apply H2; left; reflexivity]|eapply Rle_trans; [apply Rmax_r|apply H2; left; reflexivity]|apply H2; right; exact Hz].
Qed.
Lemma Rminl_In (l : list R) : l <> [] -> In (Rminl l) l /\ (forall x, In x l -> Rminl l <= x)%R.
Proof.
  destruct l as [|x t]; [congruence|]. intros _. cbn [Rminl]. revert x. induction t as [|y t IH]; intros x; cbn [fold_left].
  - split; [left; reflexivity|]. intros z [->|[]]. lra.
  - destruct (IH (Rmin x y)) as [H1 H2]. split.
    + destruct H1 as [H1|H1]; [|right; right; exact H1]. rewrite <- H1. unfold Rmin. destruct (Rle_dec x y); [left; reflexivity|right; left; reflexivity].
    + intros z [<-|[<-|Hz]]; [eapply Rle_trans; [apply H2; left; reflexivity|apply Rmin_l]|eapply Rle_trans; [apply H2; left; reflexivity|apply Rmin_r]|apply H2; right; exact Hz].
Qed.
Lemma perm_nil_iff {A} (l l' : list A) : Permutation l l' -> l = [] <-> l' = [].
Proof. intros H. split; intros ->; [apply Permutation_nil, H|apply Permutation_nil, Permutation_sym, H]. Qed.
Lemma Rmaxl_perm l l' : Permutation l l' -> Rmaxl l = Rmaxl l'.
Proof.
  intros H. destruct l as [|x t] eqn:E; [rewrite (proj1 (perm_nil_iff _ _ H) eq_refl); reflexivity|]. rewrite <- E in *. assert (N1 : l <> []) by (rewrite E; discriminate). assert (N2 : l' <> []) by (intros K; apply N1, (perm_nil_iff _ _ H), K). clear E.
  destruct (Rmaxl_In l N1) as [A1 A2]. destruct (Rmaxl_In l' N2) as [B1 B2]. apply Rle_antisym; [apply B2, (Permutation_in _ H), A1|apply A2, (Permutation_in _ (Permutation_sym H)), B1].
Qed.
Lemma Rminl_perm l l' : Permutation l l' -> Rminl l = Rminl l'.
Proof.
  intros H. destruct l as [|x t] eqn:E; [rewrite (proj1 (perm_nil_iff _ _ H) eq_refl); reflexivity|]. rewrite <- E in *. assert (N1 : l <> []) by (rewrite E; discriminate). assert (N2 : l' <> []) by (intros K; apply N1, (perm_nil_iff _ _ H), K). clear E.
  destruct (Rminl_In l N1) as [A1 A2]. destruct (Rminl_In l' N2) as [B1 B2]. apply Rle_antisym; [apply A2, (Permutation_in _ (Permutation_sym H)), B1|apply B2, (Permutation_in _ H), A1].
Qed.
Lemma Rcenter_perm l l' : Permutation l l' -> Permutation (Rcenter l) (Rcenter l').
Proof. intros H. unfold Rcenter. rewrite (Rmean_perm _ _ H). apply Permutation_map, H. Qed.
Lemma Rstd_perm l l' : Permutation l l' -> Rstd l = Rstd l'.
Proof. intros H. unfold Rstd. f_equal. apply Rmean_perm, Permutation_map, Rcenter_perm, H. Qed.
Lemma Rstdev_perm l l' : Permutation l l' -> Rstdev l = Rstdev l'.
Proof. intros H. unfold Rstdev. rewrite (Permutation_length H). f_equal. f_equal. apply Rsum_perm, Permutation_map, Rcenter_perm, H. Qed.
Lemma Rspread_perm num l l' : Permutation l l' -> Rspread num l = Rspread num l'.
Proof. intros H. unfold Rspread. destruct num; [apply Rstd_perm, H|rewrite (Rmaxl_perm _ _ H), (Rminl_perm _ _ H); reflexivity]. Qed.
Lemma Rimp_perm num l l' : Permutation l l' -> Rimp num l = Rimp num l'.
Proof. intros H. unfold Rimp. destruct num; [apply Rstdev_perm, H|rewrite (Rmaxl_perm _ _ H), (Rminl_perm _ _ H); reflexivity]. Qed.
Lemma Rgreenwell_recoded {C D} n1 n2 (F : C -> C -> R) (G : D -> D -> R) (c1 c2 : C -> D) gp gq gp' gq' : Permutation gp' (map c1 gp) -> Permutation gq' (map c2 gq) ->
  (forall v u, G (c1 v) (c2 u) = F v u) -> Rgreenwell n1 n2 G gp' gq' = Rgreenwell n1 n2 F gp gq.
Proof.
  intros H1 H2 HG. unfold Rgreenwell. f_equal. f_equal.
  - rewrite (Rstdev_perm _ _ (Permutation_map _ H1)), map_map. f_equal. apply map_ext. intros v. rewrite (Rimp_perm _ _ _ (Permutation_map _ H2)), map_map. f_equal. apply map_ext. intros u. apply HG.
  - rewrite (Rstdev_perm _ _ (Permutation_map _ H2)), map_map. f_equal. apply map_ext. intros u. rewrite (Rimp_perm _ _ _ (Permutation_map _ H1)), map_map. f_equal. apply map_ext. intros v. apply HG.
Qed.
Lemma values_recoded {C D} (O1 : cell_ops C) (O2 : cell_ops D) (HO1 : cell_ok O1) (HO2 : cell_ok O2) (code : C -> D) l : (forall v, In v l -> c_isnan O1 v = false) -> (forall v, In v (map code l) -> c_isnan O2 v = false) ->
  (forall v v', In v l -> In v' l -> code v = code v' -> v = v') -> Permutation (np_unique O2 (map code l)) (map code (np_unique O1 l)).
Proof.
  intros Hn1 Hn2 Hi. apply NoDup_Permutation; [apply (np_unique_NoDup O2 HO2)| |].
  - assert (Hsub : forall v, In v (np_unique O1 l) -> In v l) by apply (np_unique_sub O1 HO1). pose proof (np_unique_NoDup O1 HO1 l) as Hnd. revert Hsub Hnd. generalize (np_unique O1 l) as k.
    induction k as [|x k IH]; intros Hsub Hnd; cbn; constructor; inversion Hnd; subst.
    + intros Hin. apply in_map_iff in Hin as (y & E & Hy). assert (y = x) by (apply Hi; [apply Hsub; right; exact Hy|apply Hsub; left; reflexivity|exact E]). subst. contradiction.
    + apply IH; [intros v Hv; apply Hsub; right; exact Hv|assumption].
  - intros y. split.
    + intros Hy. apply (np_unique_sub O2 HO2) in Hy. apply in_map_iff in Hy as (v & <- & Hv). apply in_map. apply (np_unique_In O1 HO1); [apply Hn1, Hv|exact Hv].
    + intros Hy. apply in_map_iff in Hy as (v & <- & Hv). apply (np_unique_sub O1 HO1) in Hv. apply (np_unique_In O2 HO2); [apply Hn2|]; apply in_map, Hv.
Qed.

(** ** C130 *)
Section Friedman.
  Context {C D V G1 G2 : Type} (O1 : cell_ops C) (O2 : cell_ops D) (N : num_ops V) (HO1 : cell_ok O1) (HO2 : cell_ok O2) (HN : num_ord_ok N)
          (H0 : n_isnan N (n_ofZ N 0) = false) (Rg1 : rng_ops G1) (Rg2 : rng_ops G2) (HR1 : rng_ok Rg1) (HR2 : rng_ok Rg2) (srt : sorter) (Hs : sorter_ok srt).

  (** any arithmetic, in particular doubles: the values agree exactly *)
  Theorem C130_friedman norm name code s1 a1 s1' g1 X1 s2 a2 s2' g2 X2 :
    wf_frame (a_X a1) -> fit O1 N Rg1 srt (Friedman norm) s1 a1 = (s1', Ok tt) -> m_X s1' = Some X1 -> explains O1 N a1 g1 X1 ->
    wf_frame (a_X a2) -> fit O2 N Rg2 srt (Friedman norm) s2 a2 = (s2', Ok tt) -> m_X s2' = Some X2 -> explains O2 N a2 g2 X2 ->
    recoded_data name code X1 X2 -> recoded_model code (length (f_cols X1)) g1 g2 -> all_features a2 = map name (all_features a1) ->
    (exists t1 t2, m_ovo s1' = Some t1 /\ m_ovo s2' = Some t2 /\ Permutation t2 (map (renamed name) t1))
    /\ (a_ova a1 = true -> a_ova a2 = true -> exists t1 t2, m_ova s1' = Some t1 /\ m_ova s2' = Some t2 /\ Permutation t2 (map (renamed1 name) t1)).
  Proof.
    intros W1 F1 E1 He1 W2 F2 E2 He2 (Hc & HRw & _) HM Hfs.
    assert (V2 : NoDup (f_cols X2)).
    { destruct (friedman_fit O2 N HO2 (no_isnan_nan N HN) Rg2 HR2 srt norm s2 a2 s2' g2 X2 W2 F2 E2 He2) as ((Hx & _) & _). exact Hx. }
    assert (V1 : forall r, In r (f_rows X1) -> length r = length (f_cols X1)).
    { destruct (friedman_fit O1 N HO1 (no_isnan_nan N HN) Rg1 HR1 srt norm s1 a1 s1' g1 X1 W1 F1 E1 He1) as (Hx & _). apply wf_rows, Hx. }
    assert (Pos : forall p f q, nth_error (f_cols X1) p = Some f -> nth_error (f_cols X2) q = Some (name f) -> q = p).
    { intros p f q Hp Hq. apply (proj1 (NoDup_nth_error _) V2); [apply nth_error_Some; congruence|]. rewrite Hq, Hc. symmetry. apply map_nth_error, Hp. }
    assert (Lt : forall p f, nth_error (f_cols X1) p = Some f -> p < length (f_cols X1)) by (intros p f H; apply nth_error_Some; congruence).
    split.
    - destruct (C12_friedman_pairs O1 N HO1 HN H0 Rg1 HR1 srt Hs norm s1 a1 s1' g1 X1 W1 F1 E1 He1) as (t1 & T1 & K1 & R1 & _).
      destruct (C12_friedman_pairs O2 N HO2 HN H0 Rg2 HR2 srt Hs norm s2 a2 s2' g2 X2 W2 F2 E2 He2) as (t2 & T2 & K2 & R2 & _).
      exists t1, t2. split; [exact T1|]. split; [exact T2|].
      apply (renamed_table (fun k => (name (fst k), name (snd k))) t1 t2).
      + rewrite K2, Hfs, combinations2_map. apply Permutation_map. symmetry. exact K1.
      + intros [f1 f2] v v2 I1 I2. cbn [fst snd] in I2. destruct (R1 _ _ _ I1) as (p & q & Hp & Hq & _ & ->). destruct (R2 _ _ _ I2) as (p' & q' & Hp' & Hq' & _ & ->).
        rewrite (Pos p f1 p' Hp Hp'), (Pos q f2 q' Hq Hq'). f_equal. unfold H_pair. pose proof (Lt p f1 Hp). pose proof (Lt q f2 Hq).
        apply (H_recoded code (length (f_cols X1)) (f_rows X1) (f_rows X2) V1 HRw); intros r1 r2 L H'; [eapply PD2_at_recoded|eapply PD1_at_recoded|eapply PD1_at_recoded]; eauto.
    - intros A1 A2.
      destruct (C13_friedman_ova O1 N HO1 HN H0 Rg1 HR1 srt Hs norm s1 a1 s1' g1 X1 W1 F1 E1 He1 A1) as (t1 & T1 & K1 & R1 & _).
      destruct (C13_friedman_ova O2 N HO2 HN H0 Rg2 HR2 srt Hs norm s2 a2 s2' g2 X2 W2 F2 E2 He2 A2) as (t2 & T2 & K2 & R2 & _).
      exists t1, t2. split; [exact T1|]. split; [exact T2|]. apply (renamed_table name t1 t2).
      + rewrite K2, Hfs. apply Permutation_map. symmetry. exact K1.
      + intros f v v2 I1 I2. destruct (R1 _ _ I1) as (p & Hp & ->). destruct (R2 _ _ I2) as (p' & Hp' & ->). rewrite (Pos p f p' Hp Hp'). f_equal. unfold H_all. pose proof (Lt p f Hp).
        apply (H_recoded code (length (f_cols X1)) (f_rows X1) (f_rows X2) V1 HRw); intros r1 r2 L H'; [apply HM; assumption|eapply PD1_at_recoded; eauto|eapply PDminus_recoded; eauto].
  Qed.
End Friedman.

Section Real.
  Context {C D G1 G2 : Type} (O1 : cell_ops C) (O2 : cell_ops D) (HO1 : cell_ok O1) (HO2 : cell_ok O2)
          (Rg1 : rng_ops G1) (Rg2 : rng_ops G2) (HR1 : rng_ok Rg1) (HR2 : rng_ok Rg2) (srt : sorter) (Hs : sorter_ok srt).
  Notation fin h := (fun r => Fin (h r)).

  (** exact arithmetic: any recoding that keeps different values different *)
  Theorem C130_importance k name code s1 a1 s1' h1 X1 s2 a2 s2' h2 X2 :
    wf_frame (a_X a1) -> fit O1 xR Rg1 srt k s1 a1 = (s1', Ok tt) -> m_X s1' = Some X1 -> explains O1 xR a1 (fin h1) X1 ->
    wf_frame (a_X a2) -> fit O2 xR Rg2 srt k s2 a2 = (s2', Ok tt) -> m_X s2' = Some X2 -> explains O2 xR a2 (fin h2) X2 ->
    recoded_data name code X1 X2 -> faithful code X1 -> recoded_model code (length (f_cols X1)) h1 h2 -> all_features a2 = map name (all_features a1) ->
    exists t1 t2, m_fi s1' = Some t1 /\ m_fi s2' = Some t2 /\ Permutation t2 (map (renamed1 name) t1).
  Proof.
    intros W1 F1 E1 He1 W2 F2 E2 He2 (Hc & HRw & Hnum) Hi HM Hfs.
    destruct (fit_complete O1 HO1 Rg1 HR1 srt k s1 a1 s1' _ X1 W1 F1 E1 He1) as (Wf1 & Cm1 & _). destruct (fit_complete O2 HO2 Rg2 HR2 srt k s2 a2 s2' _ X2 W2 F2 E2 He2) as (Wf2 & Cm2 & _).
    destruct (C20_fit_importance O1 HO1 Rg1 HR1 srt Hs k s1 a1 s1' h1 X1 W1 F1 E1 He1) as (t1 & T1 & K1 & R1 & _).
    destruct (C20_fit_importance O2 HO2 Rg2 HR2 srt Hs k s2 a2 s2' h2 X2 W2 F2 E2 He2) as (t2 & T2 & K2 & R2 & _).
    exists t1, t2. split; [exact T1|]. split; [exact T2|]. apply (renamed_table name t1 t2).
    - rewrite K2, Hfs. apply Permutation_map. symmetry. exact K1.
    - intros f v v2 I1 I2. destruct (R1 _ _ I1) as (p & Hp & ->). destruct (R2 _ _ I2) as (p' & Hp' & ->).
      assert (Hpc : nth_error (f_cols X2) p = Some (name f)) by (rewrite Hc; apply map_nth_error, Hp).
      assert (p' = p) as -> by (apply (proj1 (NoDup_nth_error _) (proj1 Wf2)); [eapply pos_lt; exact Hp'|congruence]).
      f_equal. rewrite (Hnum f (nth_error_In _ _ Hp)). rewrite <- (col_recoded code (f_rows X1) (f_rows X2) HRw).
      rewrite (Rspread_perm _ _ (map (PD1 Rmean h2 (f_rows X2) p) (map (code p) (np_unique O1 (col_at p (f_rows X1)))))).
      + rewrite map_map. f_equal. apply map_ext. intros u. eapply PD1_recoded; [apply wf_rows, Wf1|exact HRw|exact HM|eapply pos_lt; exact Hp].
      + apply Permutation_map, (values_recoded O1 O2 HO1 HO2); [intros u Hu; eapply Cm1; eassumption| |apply Hi].
        rewrite (col_recoded code (f_rows X1) (f_rows X2) HRw). intros u Hu. eapply Cm2; eassumption.
  Qed.

  Theorem C130_greenwell name code s1 a1 s1' h1 X1 s2 a2 s2' h2 X2 :
    wf_frame (a_X a1) -> fit O1 xR Rg1 srt Greenwell s1 a1 = (s1', Ok tt) -> m_X s1' = Some X1 -> explains O1 xR a1 (fin h1) X1 ->
    wf_frame (a_X a2) -> fit O2 xR Rg2 srt Greenwell s2 a2 = (s2', Ok tt) -> m_X s2' = Some X2 -> explains O2 xR a2 (fin h2) X2 ->
    recoded_data name code X1 X2 -> faithful code X1 -> recoded_model code (length (f_cols X1)) h1 h2 -> all_features a2 = map name (all_features a1) ->
    exists t1 t2, m_ovo s1' = Some t1 /\ m_ovo s2' = Some t2 /\ Permutation t2 (map (renamed name) t1).
  Proof.
    intros W1 F1 E1 He1 W2 F2 E2 He2 (Hc & HRw & Hnum) Hi HM Hfs.
    destruct (fit_complete O1 HO1 Rg1 HR1 srt _ s1 a1 s1' _ X1 W1 F1 E1 He1) as (Wf1 & Cm1 & KP). destruct (fit_complete O2 HO2 Rg2 HR2 srt _ s2 a2 s2' _ X2 W2 F2 E2 He2) as (Wf2 & Cm2 & _).
    destruct (C17_greenwell_pairs O1 HO1 Rg1 HR1 srt Hs s1 a1 s1' h1 X1 W1 F1 E1 He1) as (t1 & T1 & (k1 & K1 & KF1) & R1 & _).
    destruct (C17_greenwell_pairs O2 HO2 Rg2 HR2 srt Hs s2 a2 s2' h2 X2 W2 F2 E2 He2) as (t2 & T2 & (k2 & K2 & KF2) & R2 & _).
    assert (Inj : forall i j f, nth_error (f_cols X2) i = Some f -> nth_error (f_cols X2) j = Some f -> i = j) by (intros i j f A B; apply (proj1 (NoDup_nth_error _) (proj1 Wf2)); [eapply pos_lt; exact A|congruence]).
    assert (Up : forall i f, nth_error (f_cols X1) i = Some f -> nth_error (f_cols X2) i = Some (name f)) by (intros i f A; rewrite Hc; apply map_nth_error, A).
    set (m := fun k : string * string => (name (fst k), name (snd k))).
    exists t1, t2. split; [exact T1|]. split; [exact T2|]. apply (renamed_table m t1 t2).
    - rewrite K2, (Permutation_map m K1). rewrite Hfs, combinations2_map in KF2. fold m in KF2.
      assert (C1 : forall k, In k k1 -> exists p q, nth_error (f_cols X1) p = Some (fst k) /\ nth_error (f_cols X1) q = Some (snd k) /\ p < q).
      { intros k Hk. apply (Permutation_in _ (Permutation_sym K1)) in Hk. apply in_map_iff in Hk as ([[f g] v] & <- & Hv). destruct (R1 _ _ _ Hv) as (p & q & A & B & L & _). exists p, q. auto. }
      assert (C2 : forall k, In k k2 -> exists p q, nth_error (f_cols X2) p = Some (fst k) /\ nth_error (f_cols X2) q = Some (snd k) /\ p < q).
      { intros k Hk. apply (Permutation_in _ (Permutation_sym K2)) in Hk. apply in_map_iff in Hk as ([[f g] v] & <- & Hv). destruct (R2 _ _ _ Hv) as (p & q & A & B & L & _). exists p, q. auto. }
      replace k2 with (map m k1); [reflexivity|]. clear K1 K2 T1 T2 R1 R2. revert k1 KF1 k2 KF2 C1 C2. generalize (combinations2 (all_features a1)) as ps.
      induction ps as [|pr ps IH]; intros k1 KF1 k2 KF2 C1 C2; inversion KF1 as [|? x1 ? l1 Hx1 HF1]; subst; inversion KF2 as [|? x2 ? l2 Hx2 HF2]; subst; [reflexivity|]. cbn. f_equal.
      + destruct (C1 x1 (or_introl eq_refl)) as (p & q & A1 & A2 & A3). destruct (C2 x2 (or_introl eq_refl)) as (p' & q' & B1 & B2 & B3). apply Up in A1, A2.
        destruct Hx1 as [->| ->], Hx2 as [->| ->]; cbn [m fst snd] in *; try reflexivity; exfalso.
        * rewrite (Inj _ _ _ B1 A2), (Inj _ _ _ B2 A1) in B3. lia.
        * rewrite (Inj _ _ _ B1 A2), (Inj _ _ _ B2 A1) in B3. lia.
      + apply IH; auto; intros k Hk; [apply C1|apply C2]; right; exact Hk.
    - intros [f1 f2] v v2 I1 I2. change (In (name f1, name f2, v2) t2) in I2. destruct (R1 _ _ _ I1) as (p & q & Hp & Hq & _ & _ & _ & ->). destruct (R2 _ _ _ I2) as (p' & q' & Hp' & Hq' & _ & _ & _ & ->).
      rewrite (Inj _ _ _ Hp' (Up _ _ Hp)), (Inj _ _ _ Hq' (Up _ _ Hq)) in *. f_equal. rewrite (Hnum f1 (nth_error_In _ _ Hp)), (Hnum f2 (nth_error_In _ _ Hq)).
      assert (HV : forall i f, nth_error (f_cols X1) i = Some f -> Permutation (np_unique O2 (col_at i (f_rows X2))) (map (code i) (np_unique O1 (col_at i (f_rows X1))))).
      { intros i f Hf. rewrite <- (col_recoded code (f_rows X1) (f_rows X2) HRw). apply (values_recoded O1 O2 HO1 HO2); [intros u Hu; eapply Cm1; eassumption| |apply Hi].
        rewrite (col_recoded code (f_rows X1) (f_rows X2) HRw). intros u Hu. eapply Cm2; [apply Up; exact Hf|exact Hu]. }
      apply (Rgreenwell_recoded _ _ _ _ (code p) (code q)); [apply (HV p f1 Hp)|apply (HV q f2 Hq)|]. intros u v. eapply PD2_recoded; [apply wf_rows, Wf1|exact HRw|exact HM|eapply pos_lt; eassumption|eapply pos_lt; eassumption].
  Qed.

  Theorem C130_additivity name code s1 a1 s1' v1 h1 X1 s2 a2 s2' v2 h2 X2 :
    wf_frame (aa_X a1) -> add_fit O1 xR Rg1 s1 a1 = (s1', Ok v1) -> ad_X s1' = Some X1 -> add_explains O1 xR a1 (fin h1) X1 -> ~ In "centered_prediction" (f_cols (aa_X a1)) ->
    wf_frame (aa_X a2) -> add_fit O2 xR Rg2 s2 a2 = (s2', Ok v2) -> ad_X s2' = Some X2 -> add_explains O2 xR a2 (fin h2) X2 -> ~ In "centered_prediction" (f_cols (aa_X a2)) ->
    recoded_data name code X1 X2 -> recoded_model code (length (f_cols X1)) h1 h2 -> v2 = v1.
  Proof.
    intros W1 F1 E1 He1 Hc1 W2 F2 E2 He2 Hc2 (Hc & HRw & _) HM.
    destruct (index_real O1 HO1 Rg1 HR1 s1 a1 s1' v1 h1 X1 W1 F1 E1 He1 Hc1) as [L1 ->]. destruct (index_real O2 HO2 Rg2 HR2 s2 a2 s2' v2 h2 X2 W2 F2 E2 He2 Hc2) as [L2 ->].
    assert (El : length (f_cols X2) = length (f_cols X1)) by (rewrite Hc, map_length; reflexivity). rewrite El. set (w := length (f_cols X1)) in *.
    assert (Emu : map h2 (f_rows X2) = map h1 (f_rows X1)) by (apply (recoded_rows code w _ _ L1 HRw); intros r1 r2 _ L H; apply HM; assumption).
    f_equal. f_equal; f_equal.
    - unfold unexplained. f_equal. apply (recoded_rows code w _ _ L1 HRw). intros r1 r2 _ L H. rewrite (HM r1 r2 L H), Emu. f_equal. f_equal. unfold effects. f_equal. rewrite Emu. apply map_ext_in. intros p Hp. apply in_seq in Hp.
      f_equal. unfold RPD1_at. rewrite (H p). destruct (nth_error r1 p) as [u|]; [|reflexivity]. cbn. eapply PD1_recoded; eauto. lia.
    - unfold variation. f_equal. apply (recoded_rows code w _ _ L1 HRw). intros r1 r2 _ L H. rewrite (HM r1 r2 L H), Emu. reflexivity.
  Qed.
End Real.

(** ** Examples *)

(** [rX] of Props_Methods2.v with other names, the values of the first column in the opposite order and those of the others moved *)
Definition code3 (p : nat) (v : Z) : Z := if p =? 0 then (5 - 2 * v)%Z else (v + 7)%Z.
Definition name3 (f : string) : string := if String.eqb f "a" then "z" else if String.eqb f "b" then "y" else "x".
Definition rX3 : frame Z := {| f_cols := ["z"; "y"; "x"]; f_index := [1;2;3]%Z; f_num := ["y"; "z"; "x"]; f_rows := [[3;7;9];[5;8;8];[3;8;7]]%Z |}.
Definition rh3 (r : list Z) : R := match r with [x; y; z] => rh [(5 - x) / 2; y - 7; z - 7]%Z | _ => 0%R end.
Definition rargs3 : fargs Z (ext R) := mkargs (rP rh3) rX3 None true None.
Lemma rX3_wf : wf_frame rX3.
Proof. repeat constructor; cbn; intuition congruence. Qed.
Lemma rargs3_explains : explains Zcell xR rargs3 (fun r => Fin (rh3 r)) rX3.
Proof. split; [|exact I]. intros n rows ys E. injection E as <-. reflexivity. Qed.
Lemma rfit3_ok norm : exists s', fit Zcell xR rotR isort (Friedman norm) init0 rargs3 = (s', Ok tt) /\ m_X s' = Some rX3.
Proof.
  destruct (fit Zcell xR rotR isort (Friedman norm) init0 rargs3) as [s' r] eqn:E. exists s'.
  assert (r = Ok tt) as ->.
  { eapply (C66_fit_succeeds_partial Zcell xR Zcell_ok xR_ord rotR rotR_ok isort norm init0 rargs3 s' r _ rX3); [exact rX3_wf|reflexivity| |apply Z_complete|discriminate| | |exact E].
    - split; [exact (proj1 rargs3_explains)|]. split; [|exact I]. intros n rows. eexists. reflexivity.
    - repeat constructor; cbn; intuition congruence.
    - intros f Hf. exact Hf. }
  split; [reflexivity|]. exact (mX_ok Zcell xR rotR isort (Friedman norm) init0 rargs3 s' eq_refl E).
Qed.
Example C130_example_data : recoded_data name3 code3 rX rX3 /\ faithful code3 rX /\ recoded_model code3 3 rh rh3.
Proof.
  split; [split; [reflexivity|split]|split].
  - repeat constructor; intros [|[|[|[|p]]]]; reflexivity.
  - intros f [<-|[<-|[<-|[]]]]; reflexivity.
  - intros [|p] v v' _ _ E; unfold code3 in E; cbn [Nat.eqb] in E; lia.
  - intros r1 r2 L H. destruct r1 as [|x [|y [|z [|]]]]; try discriminate L. pose proof (recoded_length code3 _ _ H) as L2. destruct r2 as [|x2 [|y2 [|z2 [|]]]]; try discriminate L2.
    pose proof (H 0) as Hx. pose proof (H 1) as Hy. pose proof (H 2) as Hz. cbn [nth_error option_map] in Hx, Hy, Hz. unfold code3 in Hx, Hy, Hz; cbn [Nat.eqb] in Hx, Hy, Hz.
    assert (x2 = 5 - 2 * x)%Z as -> by congruence. assert (y2 = y + 7)%Z as -> by congruence. assert (z2 = z + 7)%Z as -> by congruence. unfold rh3. f_equal. f_equal; [|f_equal; [lia|f_equal; lia]].
    replace (5 - (5 - 2 * x))%Z with (x * 2)%Z by lia. apply Z.div_mul. lia.
Qed.
(** the pair a, b is the pair z, y, and the importance of c is that of x *)
Example C130_example norm : exists s1 s2 t1 t2 i1 i2 v w,
  fit Zcell xR rotR isort (Friedman norm) init0 (rargs rh true) = (s1, Ok tt) /\ fit Zcell xR rotR isort (Friedman norm) init0 rargs3 = (s2, Ok tt)
  /\ m_ovo s1 = Some t1 /\ m_ovo s2 = Some t2 /\ In ("a", "b", v) t1 /\ In ("z", "y", v) t2 /\ m_fi s1 = Some i1 /\ m_fi s2 = Some i2 /\ In ("c", w) i1 /\ In ("x", w) i2.
Proof.
  destruct (rfit_ok norm rh true) as (s1 & E1 & X1). destruct (rfit3_ok norm) as (s2 & E2 & X2). destruct C130_example_data as (HD & HI & HM).
  destruct (C130_friedman Zcell Zcell xR Zcell_ok Zcell_ok xR_ord eq_refl rotR rotR rotR_ok rotR_ok isort isort_ok norm name3 code3 init0 (rargs rh true) s1 _ rX init0 rargs3 s2 _ rX3 rX_wf E1 X1 (rargs_explains rh true) rX3_wf E2 X2 rargs3_explains HD)
    as ((t1 & t2 & T1 & T2 & K) & _); [intros r1 r2 L H; f_equal; apply HM; assumption|reflexivity|].
  destruct (C130_importance Zcell Zcell Zcell_ok Zcell_ok rotR rotR rotR_ok rotR_ok isort isort_ok (Friedman norm) name3 code3 init0 (rargs rh true) s1 rh rX init0 rargs3 s2 rh3 rX3 rX_wf E1 X1 (rargs_explains rh true) rX3_wf E2 X2 rargs3_explains HD HI HM eq_refl)
    as (i1 & i2 & I1 & I2 & KI).
  destruct (C12_friedman_pairs Zcell xR Zcell_ok xR_ord eq_refl rotR rotR_ok isort isort_ok norm init0 (rargs rh true) s1 _ rX rX_wf E1 X1 (rargs_explains rh true)) as (t & Ht & Hk & _). assert (t = t1) by congruence. subst t.
  destruct (C20_fit_importance Zcell Zcell_ok rotR rotR_ok isort isort_ok (Friedman norm) init0 (rargs rh true) s1 rh rX rX_wf E1 X1 (rargs_explains rh true)) as (i & Hi & Hki & _). assert (i = i1) by congruence. subst i.
  assert (Hin : In ("a", "b") (map fst t1)) by (rewrite Hk; cbn; auto). apply in_map_iff in Hin as ([[f g] v] & E & Hin). injection E as -> ->.
  assert (Hin2 : In "c" (map fst i1)) by (rewrite Hki; cbn; auto). apply in_map_iff in Hin2 as ([f w] & E & Hin2). cbn in E. subst f.
  exists s1, s2, t1, t2, i1, i2, v, w. repeat (split; [assumption|]). split; [apply (Permutation_in _ (Permutation_sym K)), (in_map (renamed name3) _ _ Hin)|].
  repeat (split; [assumption|]). apply (Permutation_in _ (Permutation_sym KI)), (in_map (renamed1 name3) _ _ Hin2).
Qed.
(** fits of Greenwell's method and of the index on [vX] of Props_Views.v and on the same data with other names and both columns in the opposite order *)
Definition vX3 : frame Z := {| f_cols := ["q"; "p"]; f_index := [0;1;2;3]%Z; f_num := ["q"]; f_rows := [[9;4];[9;2];[6;4];[6;2]]%Z |}.
Definition vP3 : nat -> list (list Z) -> result (list (ext Q)) := fun _ rows => Ok (map (fun r => match r with [x; y]%Z => vh 1 0 [(9 - x) / 3; (4 - y) / 2]%Z | _ => Fin 0%Q end) rows).
Example C130_example_run :
  (exists s1 s2 v w, fitQ Greenwell init0 (mkargs (vP 1 0) vX None true None) = (s1, Ok tt) /\ fitQ Greenwell init0 (mkargs vP3 vX3 None true None) = (s2, Ok tt)
     /\ m_ovo s1 = Some [("a", "b", v)] /\ m_ovo s2 = Some [("q", "p", v)] /\ m_fi s1 = Some [("a", w); ("b", Fin (1 # 8)%Q)] /\ m_fi s2 = Some [("q", w); ("p", Fin (1 # 8)%Q)])
  /\ snd (add_fit Zcell xQ rotR ad0 (mkadd (vP 1 0) vX)) = Ok (Fin (2 # 3)%Q) /\ snd (add_fit Zcell xQ rotR ad0 (mkadd vP3 vX3)) = Ok (Fin (2 # 3)%Q).
Proof.
  split; [|split; vm_compute; reflexivity]. eexists _, _, _, _. split; [vm_compute; reflexivity|]. split; [vm_compute; reflexivity|]. repeat split; vm_compute; reflexivity.
Qed.

Print Assumptions C130_friedman.
Print Assumptions C130_importance.
Print Assumptions C130_greenwell.
Print Assumptions C130_additivity.
