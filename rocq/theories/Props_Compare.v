(** Properties of the method comparator: C50 - C54, and C64. *)
From Verif Require Import Py Num NumR Sorting Frame CondDepth CompareFacts SplitScore SplitFacts Comparator Props_Split.
From Coq Require Import Ascii Reals Lra QArith.
Open Scope string_scope.
Open Scope nat_scope.
Open Scope list_scope.

(** ** Strings are totally ordered *)
Lemma ascii_cmp a b : Ascii.compare a b = N.compare (N_of_ascii a) (N_of_ascii b). Proof. reflexivity. Qed.
Lemma ascii_eq a b : Ascii.compare a b = Eq -> a = b.
Proof. rewrite ascii_cmp, N.compare_eq_iff. intros H. rewrite <- (ascii_N_embedding a), <- (ascii_N_embedding b), H. reflexivity. Qed.
Lemma string_lt_trans a b c : String.compare a b = Lt -> String.compare b c = Lt -> String.compare a c = Lt.
Proof.
  revert b c. induction a as [|x a IH]; intros [|y b] [|z c]; cbn; try congruence.
  destruct (Ascii.compare x y) eqn:E1; [|intros _|congruence].
  - apply ascii_eq in E1 as ->. destruct (Ascii.compare y z); try congruence. apply IH.
  - destruct (Ascii.compare y z) eqn:E2; [|intros _|congruence].
    + apply ascii_eq in E2 as ->. rewrite E1. congruence.
    + rewrite ascii_cmp, N.compare_lt_iff in *. assert (H : (N_of_ascii x < N_of_ascii z)%N) by lia. apply N.compare_lt_iff in H. rewrite H. reflexivity.
Qed.
Lemma Scell_ok : cell_ok Scell.
Proof.
  constructor; cbn.
  - intros a b H. apply String.eqb_eq, H.
  - intros a. unfold String.ltb. pose proof (String.compare_antisym a a) as H. destruct (String.compare a a); cbn in H; congruence.
  - intros a b c. unfold String.ltb. destruct (String.compare a b) eqn:E1; try discriminate. destruct (String.compare b c) eqn:E2; try discriminate. rewrite (string_lt_trans a b c E1 E2). reflexivity.
  - intros a b _ _ H. unfold String.ltb. pose proof (String.compare_antisym a b) as H1. pose proof (String.compare_eq_iff a b) as H2.
    destruct (String.compare a b); [exfalso; auto|left; reflexivity|]. right. cbn in H1. destruct (String.compare b a); cbn in H1; congruence.
Qed.
Lemma Snan s : c_isnan Scell s = false. Proof. unfold c_isnan. cbn. rewrite String.eqb_refl. reflexivity. Qed.

(** ** Codes *)
Lemma position_nth x l : In x l -> nth_error l (position x l) = Some x.
Proof.
  induction l as [|y t IH]; intros H; [destruct H|]. cbn. destruct (String.eqb_spec x y) as [->|Hn]; [reflexivity|]. destruct H as [->|H]; [congruence|]. cbn. apply IH, H.
Qed.
Lemma position_inj x y l : In x l -> In y l -> position x l = position y l -> x = y.
Proof. intros Hx Hy E. pose proof (position_nth x l Hx) as H1. pose proof (position_nth y l Hy) as H2. rewrite E in H1. congruence. Qed.
(** the code of a label is the number of smaller distinct labels *)
Lemma sorted_position l x : StronglySorted (fun a b => String.ltb a b = true) l -> In x l -> position x l = length (filter (fun y => String.ltb y x) l).
Proof.
  induction 1 as [|y l Hl IH Hy]; intros Hx; [destruct Hx|]. cbn. destruct (String.eqb_spec x y) as [->|Hn].
  - pose proof (ce_irrefl _ Scell_ok y) as E. cbn in E. rewrite E. symmetry. clear IH Hx. rewrite Forall_forall in Hy. induction l as [|z l IH]; [reflexivity|]. cbn.
    pose proof (Hy z (or_introl eq_refl)) as Hz. destruct (String.ltb z y) eqn:Ez; [pose proof (ce_trans _ Scell_ok y z y Hz Ez) as C; cbn in C; congruence|].
    apply IH; [inversion Hl; assumption|intros; apply Hy; right; assumption].
  - destruct Hx as [->|Hx]; [congruence|]. rewrite Forall_forall in Hy. rewrite (Hy x Hx). cbn. f_equal. apply IH, Hx.
Qed.
Lemma code_rank labels x : In x labels -> position x (np_unique Scell labels) = length (filter (fun y => String.ltb y x) (np_unique Scell labels)).
Proof.
  intros H. apply sorted_position; [apply (np_unique_sorted Scell Scell_ok); intros; apply Snan|]. apply (np_unique_In Scell Scell_ok); [apply Snan|exact H].
Qed.

(** ** C52: consistent codes *)
(** names without the separator *)
Fixpoint no_dash (s : string) : bool := match s with EmptyString => true | String c t => negb (Ascii.eqb c "-"%char) && no_dash t end.
Lemma dash_inj a b c d : no_dash a = true -> no_dash c = true -> String.append a (String.append "-" b) = String.append c (String.append "-" d) -> a = c /\ b = d.
Proof.
  revert c. induction a as [|x a IH]; intros [|y c] Ha Hc; cbn in *.
  - intros H. injection H as ->. auto.
  - intros H. injection H as <- _. cbn in Hc. discriminate.
  - intros H. injection H as -> _. cbn in Ha. discriminate.
  - intros H. injection H as -> H. apply andb_true_iff in Ha as [_ Ha]. apply andb_true_iff in Hc as [_ Hc]. destruct (IH c Ha Hc H) as [-> ->]. auto.
Qed.
Lemma label_sym a b : pair_label a b = pair_label b a.
Proof.
  unfold pair_label. destruct (String.leb a b) eqn:E1, (String.leb b a) eqn:E2; try reflexivity.
  - assert (a = b) as ->; [|reflexivity]. unfold String.leb in *. pose proof (String.compare_antisym a b) as H. pose proof (String.compare_eq_iff a b) as H2.
    destruct (String.compare a b), (String.compare b a); cbn in *; try discriminate; auto.
  - exfalso. unfold String.leb in *. pose proof (String.compare_antisym a b) as H. destruct (String.compare a b), (String.compare b a); cbn in *; discriminate.
Qed.
Definition plain_names {V} (t : list (string * string * V)) : Prop := forall r, In r t -> no_dash (fst (fst r)) = true /\ no_dash (snd (fst r)) = true.
Definition same_features {V} (r r' : string * string * V) : Prop := same_pair (fst (fst r)) (snd (fst r)) (fst (fst r')) (snd (fst r')).

Lemma label_pair {V} (r r' : string * string * V) : same_features r r' -> row_label r = row_label r'.
Proof. unfold same_features, row_label. intros [[-> ->]|[-> ->]]; [reflexivity|apply label_sym]. Qed.
Lemma label_pair_plain {V} (r r' : string * string * V) : no_dash (fst (fst r)) = true -> no_dash (snd (fst r)) = true -> no_dash (fst (fst r')) = true -> no_dash (snd (fst r')) = true ->
  (row_label r = row_label r' <-> same_features r r').
Proof.
  intros H1 H2 H3 H4. split; [|apply label_pair]. unfold row_label, pair_label, same_features, same_pair.
  destruct (String.leb _ _), (String.leb _ _); intros E; apply dash_inj in E; auto; intuition congruence.
Qed.

Lemma np_unique_same l k : (forall x, In x l <-> In x k) -> np_unique Scell l = np_unique Scell k.
Proof.
  intros H. assert (Hl : StronglySorted (fun a b => String.ltb a b = true) (np_unique Scell l)) by (apply (np_unique_sorted Scell Scell_ok); intros; apply Snan).
  assert (Hk : StronglySorted (fun a b => String.ltb a b = true) (np_unique Scell k)) by (apply (np_unique_sorted Scell Scell_ok); intros; apply Snan).
  assert (HI : forall x, In x (np_unique Scell l) <-> In x (np_unique Scell k)).
  { intros x. rewrite !(np_unique_In Scell Scell_ok) by apply Snan. apply H. }
  revert Hl Hk HI. generalize (np_unique Scell l) (np_unique Scell k). clear. intros l k Hl. revert k. induction Hl as [|x l Hl IH Hx]; intros k Hk HI.
  - destruct k as [|y k]; [reflexivity|]. destruct (proj2 (HI y) (or_introl eq_refl)).
  - destruct Hk as [|y k Hk Hy]; [destruct (proj1 (HI x) (or_introl eq_refl))|]. rewrite Forall_forall in Hx, Hy.
    assert (x = y) as <-.
    { destruct (proj1 (HI x) (or_introl eq_refl)) as [->|H1]; [reflexivity|]. destruct (proj2 (HI y) (or_introl eq_refl)) as [->|H2]; [reflexivity|].
      pose proof (ce_trans _ Scell_ok x y x (Hx y H2) (Hy x H1)) as C. cbn in C. pose proof (ce_irrefl _ Scell_ok x) as C'. cbn in C'. congruence. }
    f_equal. apply IH; [exact Hk|]. intros z. pose proof (ce_irrefl _ Scell_ok x) as C. cbn in C. split; intros Hz.
    + destruct (proj1 (HI z) (or_intror Hz)) as [<-|]; [|assumption]. specialize (Hx x Hz). congruence.
    + destruct (proj2 (HI z) (or_intror Hz)) as [<-|]; [|assumption]. specialize (Hy x Hz). congruence.
Qed.

Lemma codes_nth labels i : nth_error (cat_codes labels) i = option_map (fun x => position x (np_unique Scell labels)) (nth_error labels i).
Proof. unfold cat_codes. apply nth_error_map. Qed.

(** when the two tables list the same pairs, codes are equal exactly for equal pairs, within a
    table and across the tables *)
Theorem C52_codes_partial {V} (t1 t2 : list (string * string * V)) :
  plain_names t1 -> plain_names t2 ->
  (forall r, In r t1 -> exists r', In r' t2 /\ same_features r r') -> (forall r, In r t2 -> exists r', In r' t1 /\ same_features r r') ->
  forall ta tb i j r r', (ta = t1 \/ ta = t2) -> (tb = t1 \/ tb = t2) -> nth_error ta i = Some r -> nth_error tb j = Some r' ->
  (nth_error (cat_codes (map row_label ta)) i = nth_error (cat_codes (map row_label tb)) j <-> same_features r r').
Proof.
  intros P1 P2 H12 H21 ta tb i j r r' Ha Hb Er Er'. rewrite !codes_nth, !nth_error_map, Er, Er'. cbn [option_map].
  assert (HL : np_unique Scell (map row_label t1) = np_unique Scell (map row_label t2)).
  { apply np_unique_same. intros x. rewrite !in_map_iff. split; intros (q & <- & Hq); [destruct (H12 q Hq) as (q' & Hq' & Hs)|destruct (H21 q Hq) as (q' & Hq' & Hs)]; exists q'; (split; [symmetry; apply label_pair, Hs|exact Hq']). }
  assert (Ea : np_unique Scell (map row_label ta) = np_unique Scell (map row_label t1)) by (destruct Ha as [->| ->]; congruence).
  assert (Eb : np_unique Scell (map row_label tb) = np_unique Scell (map row_label t1)) by (destruct Hb as [->| ->]; congruence).
  assert (Hr : In r ta) by (apply (nth_error_In _ _ Er)). assert (Hr' : In r' tb) by (apply (nth_error_In _ _ Er')).
  assert (Pr : no_dash (fst (fst r)) = true /\ no_dash (snd (fst r)) = true) by (destruct Ha as [->| ->]; [apply P1|apply P2]; exact Hr).
  assert (Pr' : no_dash (fst (fst r')) = true /\ no_dash (snd (fst r')) = true) by (destruct Hb as [->| ->]; [apply P1|apply P2]; exact Hr').
  destruct Pr as [A1 A2]. destruct Pr' as [B1 B2]. rewrite <- (label_pair_plain r r' A1 A2 B1 B2).
  assert (L1 : In (row_label r) (np_unique Scell (map row_label t1))) by (rewrite <- Ea; apply (np_unique_In Scell Scell_ok); [apply Snan|apply in_map, Hr]).
  assert (L2 : In (row_label r') (np_unique Scell (map row_label t1))) by (rewrite <- Eb; apply (np_unique_In Scell Scell_ok); [apply Snan|apply in_map, Hr']).
  rewrite Ea, Eb. split; [|intros ->; reflexivity]. intros E. apply (position_inj _ _ _ L1 L2). congruence.
Qed.
Example C52_example : plain_names [("a", "b", 1); ("c", "a", 2)] /\ plain_names [("a", "c", 5); ("b", "a", 6)]
  /\ cat_codes (map row_label [("a", "b", 1); ("c", "a", 2)]) = [0; 1] /\ cat_codes (map row_label [("a", "c", 5); ("b", "a", 6)]) = [1; 0].
Proof. split; [intros r [<-|[<-|[]]]; split; reflexivity|]. split; [intros r [<-|[<-|[]]]; split; reflexivity|]. split; vm_compute; reflexivity. Qed.
(** different pairs may get the same code when names contain the separator *)
Theorem C52_codes_refuted : exists t : list (string * string * ext Q), exists r r', nth_error t 0 = Some r /\ nth_error t 1 = Some r' /\ ~ same_features r r'
  /\ nth_error (cat_codes (map row_label t)) 0 = nth_error (cat_codes (map row_label t)) 1.
Proof.
  exists [("a-b", "c", NaN); ("a", "b-c", NaN)]. eexists _, _. split; [reflexivity|]. split; [reflexivity|]. split; [|reflexivity].
  intros [[H _]|[H _]]; discriminate.
Qed.

(** ** C51: names *)
Definition relabel {V} (f : string -> string) (r : string * string * V) : string * string * V := (f (fst (fst r)), f (snd (fst r)), snd r).
Definition renamed {V} (f : string -> string) (m : mview V) : mview V :=
  {| mv_name := mv_name m; mv_ascending := mv_ascending m; mv_compare := do t <- mv_compare m; Ok (map (relabel f) t) |}.
Definition keeps_label_order {V} (f : string -> string) (t : list (string * string * V)) : Prop :=
  forall r r', In r t -> In r' t -> String.ltb (row_label (relabel f r)) (row_label (relabel f r')) = String.ltb (row_label r) (row_label r').

Lemma rank_count l x : NoDup l -> length (filter (fun y => String.ltb y x) (np_unique Scell l)) = length (filter (fun y => String.ltb y x) l).
Proof.
  intros H. apply Permutation_length. apply NoDup_Permutation.
  - apply NoDup_filter, (np_unique_NoDup Scell Scell_ok).
  - apply NoDup_filter, H.
  - intros y. rewrite !filter_In, (np_unique_In Scell Scell_ok) by apply Snan. reflexivity.
Qed.

(** codes depend only on the order of the labels *)
Lemma codes_order (A : Type) (la lb : A -> string) (l : list A) :
  (forall x y, In x l -> In y l -> String.ltb (la x) (la y) = String.ltb (lb x) (lb y)) -> cat_codes (map la l) = cat_codes (map lb l).
Proof.
  intros H. unfold cat_codes. rewrite !map_map. apply map_ext_in. intros x Hx. rewrite !code_rank by (apply in_map, Hx).
  assert (He : forall y z, In y l -> In z l -> (la y = la z <-> lb y = lb z)).
  { intros y z Hy Hz. pose proof (H y z Hy Hz) as H1. pose proof (H z y Hz Hy) as H2.
    assert (T : forall a b, a = b <-> String.ltb a b = false /\ String.ltb b a = false).
    { intros a b. split; [intros ->; pose proof (ce_irrefl _ Scell_ok b) as C; cbn in C; auto|]. intros [Hab Hba]. destruct (String.eqb_spec a b) as [|Hn]; [assumption|].
      destruct (ce_total _ Scell_ok a b (Snan a) (Snan b) Hn) as [C|C]; cbn in C; congruence. }
    rewrite !T, H1, H2. reflexivity. }
  assert (HX : exists reps, incl reps l /\ NoDup (map la reps) /\ forall y, In y l -> exists z, In z reps /\ la y = la z).
  { clear. induction l as [|y l (reps & H1 & H2 & H3)]; [exists []; split; [apply incl_refl|split; [constructor|intros ? []]]|].
    destruct (in_dec string_dec (la y) (map la reps)) as [Hi|Hi].
    - exists reps. split; [apply incl_tl, H1|]. split; [exact H2|]. intros z [<-|Hz]; [|auto]. apply in_map_iff in Hi as (z & E & Hz). exists z. auto.
    - exists (y :: reps). split; [apply incl_cons; [left; reflexivity|apply incl_tl, H1]|]. split; [constructor; assumption|].
      intros z [<-|Hz]; [exists y; split; [left|]; reflexivity|]. destruct (H3 z Hz) as (w & Hw & E). exists w. split; [right; exact Hw|exact E]. }
  destruct HX as (reps & R1 & R2 & R3).
  assert (G : forall lab, (forall y z, In y l -> In z l -> (la y = la z <-> lab y = lab z)) ->
              length (filter (fun w => String.ltb w (lab x)) (np_unique Scell (map lab l))) = length (filter (fun y => String.ltb (lab y) (lab x)) reps)).
  { intros lab Hlab.
    assert (HN : NoDup (map lab reps)).
    { clear R3. induction reps as [|y reps IH]; [constructor|]. cbn in *. inversion R2 as [|? ? Hy R2']; subst. constructor; [|apply IH; [intros z Hz; apply R1; right; exact Hz|exact R2']].
      intros Hi. apply Hy. apply in_map_iff in Hi as (z & E & Hz). apply in_map_iff. exists z. split; [|exact Hz]. apply Hlab; [apply R1; right; exact Hz|apply R1; left; reflexivity|exact E]. }
    assert (HS : forall w, In w (map lab l) <-> In w (map lab reps)).
    { intros w. rewrite !in_map_iff. split.
      - intros (y & <- & Hy). destruct (R3 y Hy) as (z & Hz & E). exists z. split; [|exact Hz]. symmetry. apply (Hlab y z Hy (R1 z Hz)), E.
      - intros (y & <- & Hy). exists y. split; [reflexivity|apply R1, Hy]. }
    rewrite (np_unique_same (map lab l) (map lab reps) HS), (rank_count _ _ HN). clear. induction reps as [|y reps IH]; [reflexivity|]. cbn. destruct (String.ltb (lab y) (lab x)); cbn; congruence. }
  rewrite (G la), (G lb); [|exact He|reflexivity]. f_equal. apply filter_ext_in. intros y Hy. apply H; [apply R1, Hy|exact Hx].
Qed.

(** renaming that keeps the alphabetical order of the labels changes nothing *)
Theorem C51_names_partial {V} (N : num_ops V) f (m1 m2 : mview V) t1 t2 c : mv_compare m1 = Ok t1 -> mv_compare m2 = Ok t2 ->
  keeps_label_order f t1 -> keeps_label_order f t2 -> correlation N (renamed f m1) (renamed f m2) c = correlation N m1 m2 c.
Proof.
  intros E1 E2 H1 H2. unfold correlation, renamed. cbn [mv_compare]. rewrite E1, E2. cbn [bind].
  assert (G : forall t : list (string * string * V), keeps_label_order f t -> cat_codes (map row_label (map (relabel f) t)) = cat_codes (map row_label t)).
  { intros t H. rewrite map_map. apply codes_order. exact H. }
  assert (Ee : encoded (map (relabel f) t1) (map (relabel f) t2) = encoded t1 t2).
  { destruct t1 as [|a t1], t2 as [|b t2]; try reflexivity. unfold encoded. cbn [map]. change (relabel f a :: map (relabel f) t1) with (map (relabel f) (a :: t1)).
    f_equal. f_equal; [exact (G (a :: t1) H1)|exact (G (b :: t2) H2)]. }
  rewrite Ee. reflexivity.
Qed.
Example C51_example : keeps_label_order (String.append "x") [("a", "b", 1); ("a", "c", 2); ("b", "c", 3)].
Proof. intros r r' [<-|[<-|[<-|[]]]] [<-|[<-|[<-|[]]]]; reflexivity. Qed.

Definition ex_view (t : list (string * string * ext Q)) : mview (ext Q) := {| mv_name := "m"; mv_ascending := false; mv_compare := Ok t |}.
Definition swap_ab (s : string) : string := if String.eqb s "a" then "b" else if String.eqb s "b" then "a" else s.
(** swapping two names changes the correlation from 1/2 to -1 *)
Theorem C51_names_refuted : exists (m1 m2 : mview (ext Q)) (f : string -> string), (forall x y, f x = f y -> x = y)
  /\ correlation xQ m1 m2 "pearson" = Ok (Fin (1 # 2)%Q) /\ correlation xQ (renamed f m1) (renamed f m2) "pearson" = Ok (Fin (-1 # 1)%Q).
Proof.
  exists (ex_view [("a", "b", Fin 3%Q); ("a", "c", Fin 2%Q); ("b", "c", Fin 1%Q)]), (ex_view [("a", "c", Fin 3%Q); ("a", "b", Fin 2%Q); ("b", "c", Fin 1%Q)]), swap_ab.
  split; [|vm_compute; auto]. intros x y. unfold swap_ab.
  destruct (String.eqb_spec x "a"), (String.eqb_spec x "b"), (String.eqb_spec y "a"), (String.eqb_spec y "b"); congruence.
Qed.

(** ** C50 *)
Section Real.
  Open Scope R_scope.
  Definition Rdot (u v : list R) : R := Rsum (map (fun p => fst p * snd p) (combine u v)).

  Lemma xR_dot u v : dot xR (map Fin u) (map Fin v) = Fin (Rdot u v).
  Proof.
    unfold dot, Rdot. rewrite <- xR_sum_fin_map. f_equal. revert v. induction u as [|a u IH]; intros [|b v]; cbn; [reflexivity..|]. f_equal. apply IH.
  Qed.
  Lemma Rdot_comm u v : Rdot u v = Rdot v u.
  Proof. unfold Rdot. revert v. induction u as [|a u IH]; intros [|b v]; [reflexivity..|]. cbn [combine map fst snd]. rewrite !Rsum_cons, IH. lra. Qed.
  Lemma Rdot_self u : Rdot u u = Rsum (map Rsqr u).
  Proof. unfold Rdot. induction u as [|a u IH]; [reflexivity|]. cbn [combine map fst snd]. rewrite !Rsum_cons, IH. unfold Rsqr. lra. Qed.
  Lemma Rdot_self_nonneg u : 0 <= Rdot u u. Proof. rewrite Rdot_self. apply Rsum_sqr_nonneg. Qed.

  Lemma Rdot_square a b u v : length u = length v ->
    0 <= a * a * Rdot u u - 2 * a * b * Rdot u v + b * b * Rdot v v.
  Proof.
    revert v. induction u as [|x u IH]; intros [|y v] H; try discriminate.
    - unfold Rdot. cbn. rewrite Rsum_nil. lra.
    - specialize (IH v (eq_add_S _ _ H)). unfold Rdot in *. cbn [combine map fst snd]. rewrite !Rsum_cons. pose proof (Rle_0_sqr (a * x - b * y)) as Hs. unfold Rsqr in Hs. nra.
  Qed.
  Lemma cauchy_schwarz u v : length u = length v -> Rdot u v * Rdot u v <= Rdot u u * Rdot v v.
  Proof.
    intros H. pose proof (Rdot_self_nonneg u) as Hu. pose proof (Rdot_self_nonneg v) as Hv. destruct (Req_dec (Rdot v v) 0) as [Ez|Ez].
    - assert (Z : Rdot u v = 0).
      { rewrite Rdot_self in Ez. unfold Rdot. assert (Hz : forall p, In p (combine u v) -> fst p * snd p = 0).
        { intros [a b] Hp. cbn. rewrite (Rsum_sqr_zero v Ez b (in_combine_r _ _ _ _ Hp)). lra. }
        rewrite (Rsum_map_ext (fun p => fst p * snd p) (fun _ => 0) _ Hz), Rsum_map_const. lra. }
      rewrite Z, Ez. lra.
    - pose proof (Rdot_square (Rdot v v) (Rdot u v) u v H) as Hs.
      assert (Hp : 0 < Rdot v v) by lra. assert (Hx : 0 <= Rdot v v * (Rdot u u * Rdot v v - Rdot u v * Rdot u v)) by nra.
      assert (Hy : 0 <= Rdot u u * Rdot v v - Rdot u v * Rdot u v) by (apply (Rmult_le_reg_l (Rdot v v)); [exact Hp|lra]). lra.
  Qed.

  Definition Rcosine (u v : list R) : ext R :=
    if Req_EM_T (sqrt (Rdot u u * Rdot v v)) 0 then NaN else Fin (Rdot u v / sqrt (Rdot u u * Rdot v v)).
  Lemma xR_eq0 x : n_eqb xR (Fin x) (n_ofZ xR 0) = if Req_EM_T x 0 then true else false.
  Proof.
    change (negb (Rltb x (IZR 0)) && negb (Rltb (IZR 0) x) = if Req_EM_T x 0 then true else false). unfold Rltb. repeat match goal with |- context [Rlt_dec ?a ?b] => destruct (Rlt_dec a b) end; destruct (Req_EM_T x 0); cbn; try reflexivity; exfalso; lra. Qed.
  Lemma xR_cosine u v : cosine xR (map Fin u) (map Fin v) = Rcosine u v.
  Proof.
    unfold cosine, Rcosine. rewrite !xR_dot. change (n_mul xR (Fin (Rdot u u)) (Fin (Rdot v v))) with (Fin (Rdot u u * Rdot v v)).
    rewrite xR_sqrt_fin by (apply Rmult_le_pos; apply Rdot_self_nonneg). rewrite xR_eq0. destruct (Req_EM_T _ 0) as [E|E]; [reflexivity|]. apply xR_div_fin, E.
  Qed.
  Lemma Rcosine_bounded u v r : length u = length v -> Rcosine u v = Fin r -> -1 <= r <= 1.
  Proof.
    intros H. unfold Rcosine. destruct (Req_EM_T _ 0) as [E|E]; [discriminate|]. intros Hr. injection Hr as <-.
    pose proof (sqrt_pos (Rdot u u * Rdot v v)) as Hp. assert (Hs : 0 < sqrt (Rdot u u * Rdot v v)) by lra.
    assert (Hq : 0 <= Rdot u u * Rdot v v) by (apply Rmult_le_pos; apply Rdot_self_nonneg).
    pose proof (cauchy_schwarz u v H) as HC. pose proof (sqrt_sqrt _ Hq) as HS.
    assert (HB : Rabs (Rdot u v) <= sqrt (Rdot u u * Rdot v v)).
    { rewrite <- sqrt_Rsqr_abs. apply sqrt_le_1_alt. exact HC. }
    pose proof (Rle_abs (Rdot u v)) as A1. pose proof (Rle_abs (- Rdot u v)) as A2. rewrite Rabs_Ropp in A2.
    split.
    - apply (Rmult_le_reg_r (sqrt (Rdot u u * Rdot v v))); [exact Hs|]. unfold Rdiv. rewrite Rmult_assoc, Rinv_l by lra. lra.
    - apply (Rmult_le_reg_r (sqrt (Rdot u u * Rdot v v))); [exact Hs|]. unfold Rdiv. rewrite Rmult_assoc, Rinv_l by lra. lra.
  Qed.
  Lemma Rcosine_comm u v : Rcosine u v = Rcosine v u.
  Proof. unfold Rcosine. rewrite (Rdot_comm u v), (Rmult_comm (Rdot u u)). reflexivity. Qed.
  Lemma Rcosine_self u : (exists x, In x u /\ x <> 0) -> Rcosine u u = Fin 1.
  Proof.
    intros (x & Hx & Hn). assert (Hp : 0 < Rdot u u).
    { pose proof (Rdot_self_nonneg u) as H0. destruct (Req_dec (Rdot u u) 0) as [E|E]; [|lra]. rewrite Rdot_self in E. pose proof (Rsum_sqr_zero u E x Hx). contradiction. }
    unfold Rcosine. rewrite sqrt_square by lra. destruct (Req_EM_T _ 0) as [E|E]; [lra|]. f_equal. apply Rinv_r. lra.
  Qed.
End Real.

(** the three correlations as normalised scalar products of real vectors *)
Definition rank2 (l : list nat) (x : nat) : nat := 2 * length (filter (fun y => y <? x) l) + length (filter (Nat.eqb x) l) + 1.
Definition vector (c : string) (l : list nat) : list R :=
  if String.eqb c "pearson" then Rcenter (map INR l)
  else if String.eqb c "kendall" then map IZR (signs l)
  else Rcenter (map (fun x => (INR (rank2 l x) / 2)%R) l).

Lemma xR_numbers l : codes_as_numbers xR l = map Fin (map INR l).
Proof. unfold codes_as_numbers. rewrite map_map. apply map_ext. intros x. cbn. rewrite INR_IZR. reflexivity. Qed.
Lemma xR_ranks l : avg_ranks xR l = map Fin (map (fun x => (INR (rank2 l x) / 2)%R) l).
Proof.
  unfold avg_ranks. rewrite map_map. apply map_ext. intros x. fold (rank2 l x). rewrite INR_IZR. apply xR_div_fin. lra.
Qed.
Lemma correlation_vectors m1 m2 t1 t2 c : mv_compare m1 = Ok t1 -> mv_compare m2 = Ok t2 -> In c correlation_methods ->
  correlation xR m1 m2 c = do rank <- encoded t1 t2; Ok (Rcosine (vector c (map fst rank)) (vector c (map snd rank))).
Proof.
  intros E1 E2 Hc. unfold correlation. rewrite E1, E2. cbn [bind]. destruct (encoded t1 t2) as [rank|]; [|reflexivity]. cbn [bind].
  destruct Hc as [<-|[<-|[<-|[]]]]; cbn [String.eqb Ascii.eqb Bool.eqb vector]; f_equal.
  - unfold pearson. rewrite !xR_numbers, !xR_center_fin. apply xR_cosine.
  - unfold kendall. rewrite <- xR_cosine. f_equal; rewrite map_map; reflexivity.
  - unfold spearman. rewrite !xR_ranks, !xR_center_fin. apply xR_cosine.
Qed.
Lemma signs_length l k : length l = length k -> length (signs l) = length (signs k).
Proof. revert k. induction l as [|x l IH]; intros [|y k] H; try discriminate; [reflexivity|]. cbn. rewrite !app_length, !map_length. injection H as H. rewrite H, (IH k H). reflexivity. Qed.
Lemma vector_length c l k : length l = length k -> length (vector c l) = length (vector c k).
Proof.
  intros H. unfold vector. destruct (String.eqb c "pearson"); [rewrite !Rcenter_length, !map_length; exact H|].
  destruct (String.eqb c "kendall"); [rewrite !map_length; apply signs_length, H|rewrite !Rcenter_length, !map_length; exact H].
Qed.

Theorem C50_bounded (m1 m2 : mview (ext R)) c r : In c correlation_methods -> correlation xR m1 m2 c = Ok r ->
  r = NaN \/ exists x, r = Fin x /\ (-1 <= x <= 1)%R.
Proof.
  intros Hc E. destruct (mv_compare m1) as [t1|] eqn:E1; [|unfold correlation in E; rewrite E1 in E; discriminate].
  destruct (mv_compare m2) as [t2|] eqn:E2; [|unfold correlation in E; rewrite E1, E2 in E; discriminate].
  rewrite (correlation_vectors m1 m2 t1 t2 c E1 E2 Hc) in E. destruct (encoded t1 t2) as [rank|]; [|discriminate]. cbn [bind] in E.
  assert (Er : Rcosine (vector c (map fst rank)) (vector c (map snd rank)) = r) by congruence. rewrite <- Er.
  destruct (Rcosine (vector c (map fst rank)) (vector c (map snd rank))) as [x| | |] eqn:Ex; [right|exfalso|exfalso|left; reflexivity].
  - exists x. split; [reflexivity|]. apply (Rcosine_bounded _ _ x (vector_length c (map fst rank) (map snd rank) ltac:(rewrite !map_length; reflexivity)) Ex).
  - unfold Rcosine in Ex. destruct (Req_EM_T _ _); discriminate.
  - unfold Rcosine in Ex. destruct (Req_EM_T _ _); discriminate.
Qed.

Lemma combine_swap {A B} (l : list A) (k : list B) : map fst (combine l k) = map snd (combine k l) /\ map snd (combine l k) = map fst (combine k l).
Proof. revert k. induction l as [|x l IH]; intros [|y k]; cbn; auto. destruct (IH k) as [-> ->]. auto. Qed.

Theorem C50_symmetric (m1 m2 : mview (ext R)) t1 t2 c : mv_compare m1 = Ok t1 -> mv_compare m2 = Ok t2 -> In c correlation_methods ->
  correlation xR m1 m2 c = correlation xR m2 m1 c.
Proof.
  intros E1 E2 Hc. rewrite (correlation_vectors m1 m2 t1 t2 c E1 E2 Hc), (correlation_vectors m2 m1 t2 t1 c E2 E1 Hc).
  unfold encoded. destruct t1 as [|a t1], t2 as [|b t2]; try reflexivity. cbn [bind].
  destruct (combine_swap (cat_codes (map row_label (a :: t1))) (cat_codes (map row_label (b :: t2)))) as [H1 H2]. rewrite H1, H2, Rcosine_comm. reflexivity.
Qed.

Lemma center_nonzero l x y : In x l -> In y l -> x <> y -> exists z, In z (Rcenter l) /\ z <> 0%R.
Proof.
  intros Hx Hy Hn. destruct (Req_dec (x - Rmean l) 0) as [E|E].
  - exists (y - Rmean l)%R. split; [unfold Rcenter; apply (in_map (fun x0 => (x0 - Rmean l)%R) l y Hy)|]. intros E'. apply Hn. lra.
  - exists (x - Rmean l)%R. split; [unfold Rcenter; apply (in_map (fun x0 => (x0 - Rmean l)%R) l x Hx)|exact E].
Qed.
Lemma signs_nonzero l x y : In x l -> In y l -> x <> y -> exists z, In z (signs l) /\ z <> 0%Z.
Proof.
  induction l as [|a l IH]; intros Hx Hy Hn; [destruct Hx|]. cbn.
  assert (G : forall b, In b l -> b <> a -> exists z, In z (map (fun y0 => if a <? y0 then 1%Z else if y0 <? a then (-1)%Z else 0%Z) l ++ signs l) /\ z <> 0%Z).
  { intros b Hb Hab. exists (if a <? b then 1%Z else if b <? a then (-1)%Z else 0%Z). split; [apply in_or_app; left; apply (in_map (fun y0 => if a <? y0 then 1%Z else if y0 <? a then (-1)%Z else 0%Z) l b Hb)|].
    destruct (Nat.ltb_spec a b); [discriminate|]. destruct (Nat.ltb_spec b a); [discriminate|lia]. }
  destruct Hx as [->|Hx], Hy as [->|Hy]; [congruence|apply (G y Hy); congruence|apply (G x Hx); congruence|].
  destruct (IH Hx Hy Hn) as (z & Hz & Hnz). exists z. split; [apply in_or_app; right; exact Hz|exact Hnz].
Qed.
Lemma rank2_lt l x y : In x l -> In y l -> x < y -> rank2 l x < rank2 l y.
Proof.
  intros Hx Hy H. unfold rank2.
  assert (Hle : length (filter (fun z => z <? x) l) + length (filter (Nat.eqb x) l) <= length (filter (fun z => z <? y) l)).
  { clear -H. induction l as [|z l IH]; [reflexivity|]. cbn [filter]. destruct (Nat.ltb_spec z x), (Nat.eqb_spec x z), (Nat.ltb_spec z y); cbn [length]; lia. }
  assert (Hx1 : 1 <= length (filter (Nat.eqb x) l)).
  { assert (Hin : In x (filter (Nat.eqb x) l)) by (apply filter_In; split; [exact Hx|apply Nat.eqb_refl]). destruct (filter (Nat.eqb x) l); [destruct Hin|cbn; lia]. }
  lia.
Qed.
Lemma vector_nonzero c l x y : In x l -> In y l -> x <> y -> exists z, In z (vector c l) /\ z <> 0%R.
Proof.
  intros Hx Hy Hn. unfold vector. destruct (String.eqb c "pearson"); [apply (center_nonzero _ (INR x) (INR y)); [apply in_map, Hx|apply in_map, Hy|]; intros E; apply INR_eq in E; contradiction|].
  destruct (String.eqb c "kendall").
  - destruct (signs_nonzero l x y Hx Hy Hn) as (z & Hz & Hnz). exists (IZR z). split; [apply in_map, Hz|]. intros E. apply eq_IZR in E. contradiction.
  - apply (center_nonzero _ (INR (rank2 l x) / 2)%R (INR (rank2 l y) / 2)%R).
    + apply (in_map (fun x0 => (INR (rank2 l x0) / 2)%R) l x Hx).
    + apply (in_map (fun x0 => (INR (rank2 l x0) / 2)%R) l y Hy).
    + intros E. assert (E' : INR (rank2 l x) = INR (rank2 l y)) by lra. apply INR_eq in E'.
      destruct (Nat.lt_trichotomy x y) as [H|[H|H]]; [pose proof (rank2_lt l x y Hx Hy H); lia|contradiction|pose proof (rank2_lt l y x Hy Hx H); lia].
Qed.

(** a method compared with itself: 1, provided it lists two pairs with different labels *)
Theorem C50_self_partial (m : mview (ext R)) t c r r' : mv_compare m = Ok t -> In r t -> In r' t -> row_label r <> row_label r' -> In c correlation_methods ->
  correlation xR m m c = Ok (Fin 1%R).
Proof.
  intros E Hr Hr' Hl Hc. rewrite (correlation_vectors m m t t c E E Hc). unfold encoded. destruct t as [|a t]; [destruct Hr|]. cbn [bind].
  set (L := map row_label (a :: t)) in *. assert (Ec : map fst (combine (cat_codes L) (cat_codes L)) = cat_codes L /\ map snd (combine (cat_codes L) (cat_codes L)) = cat_codes L).
  { split; [apply combine_map_fst|apply combine_map_snd]; reflexivity. }
  destruct Ec as [-> ->]. f_equal. apply Rcosine_self.
  assert (H1 : In (row_label r) L) by (apply in_map, Hr). assert (H2 : In (row_label r') L) by (apply in_map, Hr').
  apply (vector_nonzero c _ (position (row_label r) (np_unique Scell L)) (position (row_label r') (np_unique Scell L))).
  - unfold cat_codes. apply (in_map (fun x => position x (np_unique Scell L)) L _ H1).
  - unfold cat_codes. apply (in_map (fun x => position x (np_unique Scell L)) L _ H2).
  - intros Ep. apply Hl. apply (position_inj _ _ (np_unique Scell L)); [apply (np_unique_In Scell Scell_ok); [apply Snan|exact H1]|apply (np_unique_In Scell Scell_ok); [apply Snan|exact H2]|exact Ep].
Qed.
(** two different pairs of features without "-" in their names suffice *)
Theorem C50_self_plain_partial (m : mview (ext R)) t c r r' : mv_compare m = Ok t -> plain_names t -> In r t -> In r' t -> ~ same_features r r' -> In c correlation_methods ->
  correlation xR m m c = Ok (Fin 1%R).
Proof.
  intros E Hp Hr Hr' Hs Hc. apply (C50_self_partial m t c r r' E Hr Hr'); [|exact Hc]. destruct (Hp r Hr), (Hp r' Hr'). intros El. apply Hs. apply (label_pair_plain r r'); assumption.
Qed.
Example C50_example : correlation xQ (ex_view [("a", "b", Fin 3%Q); ("a", "c", Fin 2%Q)]) (ex_view [("c", "a", Fin 3%Q); ("a", "b", Fin 2%Q)]) "kendall" = Ok (Fin (-1)%Q)
  /\ correlation xQ (ex_view [("a", "b", Fin 3%Q); ("a", "c", Fin 2%Q)]) (ex_view [("c", "a", Fin 3%Q); ("a", "b", Fin 2%Q)]) "spearman" = Ok (Fin (-1)%Q)
  /\ correlation xQ (ex_view [("a", "b", Fin 3%Q); ("a", "c", Fin 2%Q)]) (ex_view [("a", "b", Fin 3%Q); ("a", "c", Fin 2%Q)]) "spearman" = Ok (Fin 1%Q).
Proof. vm_compute. auto. Qed.
(** two different pairs may share a label; the correlation is then missing *)
Theorem C50_self_refuted : exists (m : mview (ext Q)) t r r', mv_compare m = Ok t /\ In r t /\ In r' t /\ ~ same_features r r' /\ correlation xQ m m "pearson" = Ok NaN.
Proof.
  exists (ex_view [("a-b", "c", Fin 2%Q); ("a", "b-c", Fin 1%Q)]). eexists _, _, _. split; [reflexivity|]. split; [left; reflexivity|]. split; [right; left; reflexivity|].
  split; [intros [[H _]|[H _]]; discriminate|vm_compute; reflexivity].
Qed.

(** ** C53: the correlation box *)
Section Box.
  Context {V : Type} (N : num_ops V).

  (** summary shows the correlations of its methods, whatever happened before *)
  Theorem C53_summary_partial df (m1 m2 : mview V) p : snd (summary N df m1 m2) = Ok p ->
    exists c, correlations N m1 m2 = Ok c /\ cp_box p = Some c /\ fst (summary N df m1 m2) = Some c.
  Proof.
    unfold summary. destruct (mv_compare m1) as [t1|] eqn:E1; [|discriminate]. destruct (mv_compare m2) as [t2|] eqn:E2; [|discriminate].
    destruct (correlations N m1 m2) as [c|]; [|discriminate]. cbn [fst snd]. intros H. exists c. split; [reflexivity|]. split; [|reflexivity].
    unfold comparison_plot in H. rewrite E1, E2 in H. cbn [bind] in H. destruct t1; [discriminate|]. destruct t2; [discriminate|].
    match type of H with (do _ <- ?x; _) = _ => destruct x as [pts|] end; [|discriminate]. cbn [bind] in H. injection H as <-. reflexivity.
  Qed.
  (** so does comparison_plot before the first successful summary *)
  Theorem C53_first_plot_partial (m1 m2 : mview V) n p : comparison_plot N None m1 m2 n true = Ok p ->
    exists c, correlations N m1 m2 = Ok c /\ cp_box p = Some c.
  Proof.
    unfold comparison_plot. destruct (mv_compare m1) as [t1|] eqn:E1; [|discriminate]. cbn [bind]. destruct t1; [discriminate|]. destruct (mv_compare m2) as [t2|] eqn:E2; [|discriminate]. cbn [bind].
    destruct t2; [discriminate|]. destruct (mapM _ _) as [pts|]; [|discriminate]. cbn [bind]. destruct (correlations N m1 m2) as [c|]; [|discriminate]. cbn [bind].
    intros H. exists c. split; [reflexivity|]. assert (E : Ok (Some c) = Ok (cp_box p)) by (injection H as <-; reflexivity). congruence.
  Qed.
End Box.
(** afterwards comparison_plot shows the correlations of the methods summarised earlier *)
Theorem C53_box_refuted : exists (m1 m2 m3 m4 : mview (ext Q)) p c c', snd (summary xQ None m1 m2) = Ok p
  /\ correlations xQ m3 m4 = Ok c
  /\ exists q, comparison_plot xQ (fst (summary xQ None m1 m2)) m3 m4 3 true = Ok q /\ cp_box q = Some c' /\ c' <> c.
Proof.
  exists (ex_view [("a", "b", Fin 3%Q); ("a", "c", Fin 2%Q)]), (ex_view [("a", "c", Fin 3%Q); ("a", "b", Fin 2%Q)]), (ex_view [("a", "b", Fin 3%Q); ("a", "c", Fin 2%Q)]), (ex_view [("a", "b", Fin 3%Q); ("a", "c", Fin 2%Q)]).
  eexists _, _, _. split; [vm_compute; reflexivity|]. split; [vm_compute; reflexivity|]. eexists. split; [vm_compute; reflexivity|]. split; [reflexivity|discriminate].
Qed.

(** ** C54: the points of the comparison plot *)
Section Points.
  Context {V : Type} (N : num_ops V).

  Lemma interaction_value_ok (t : list (string * string * V)) f1 f2 :
    match interaction_value (Ok t) f1 f2 with Ok v => exists r, In r t /\ about f1 f2 r /\ snd r = v | Err e => e = IndexError /\ forall r, In r t -> ~ about f1 f2 r end.
  Proof.
    unfold interaction_value. cbn [bind]. match goal with |- context [filter ?p t] => set (q := p); destruct (filter q t) as [|r l] eqn:E end.
    - split; [reflexivity|]. intros r Hr Ha. apply about_bool in Ha. assert (Hin : In r (filter q t)) by (apply filter_In; split; assumption). rewrite E in Hin. destruct Hin.
    - assert (Hin : In r (filter q t)) by (rewrite E; left; reflexivity). apply filter_In in Hin as [H1 H2]. exists r. split; [exact H1|]. split; [apply about_bool, H2|reflexivity].
  Qed.

  (** the outcome for two fitted methods listing at least one pair each; [df] is a comparator
      in any state *)
  Theorem C54_points df (m1 m2 : mview V) t1 t2 n : mv_compare m1 = Ok t1 -> mv_compare m2 = Ok t2 -> t1 <> [] -> t2 <> [] -> forall add_box,
    match comparison_plot N df m1 m2 n add_box with
    | Ok p =>
        (* one point per row of method 1: its value, and a value of method 2 for the same features, the one reported by interaction_value *)
        Forall2 (fun r xy => fst xy = snd r /\ interaction_value (mv_compare m2) (fst (fst r)) (snd (fst r)) = Ok (snd xy)
                             /\ exists r2, In r2 t2 /\ about (fst (fst r)) (snd (fst r)) r2 /\ snd r2 = snd xy) t1 (cp_points p)
        (* the first n points are labelled with the names of their features *)
        /\ map snd (cp_labels p) = firstn n (cp_points p)
        /\ map fst (cp_labels p) = map (fun r => String.append (fst (fst r)) (String.append "-" (snd (fst r)))) (firstn n t1)
        (* each axis carries the name of its method, and is inverted where smaller is stronger *)
        /\ cp_invert_x p = mv_ascending m1 /\ cp_invert_y p = mv_ascending m2 /\ cp_axes p = (mv_name m1, mv_name m2)
        (* the box is drawn on request *)
        /\ (cp_box p = None <-> add_box = false)
    | Err e => e = IndexError /\ exists r, In r t1 /\ forall r2, In r2 t2 -> ~ about (fst (fst r)) (snd (fst r)) r2
    end.
  Proof.
    intros E1 E2 H1 H2 add_box. unfold comparison_plot. rewrite E1, E2. cbn [bind]. destruct t1 as [|a t1]; [congruence|]. destruct t2 as [|b t2]; [congruence|]. clear H1 H2.
    set (T1 := a :: t1) in *. set (T2 := b :: t2) in *. cbv iota.
    destruct (mapM (fun r => do y <- interaction_value (Ok T2) (fst (fst r)) (snd (fst r)); Ok (snd r, y)) T1) as [pts|e] eqn:Em; cbn [bind].
    - assert (Hc : exists c, correlations N m1 m2 = Ok c).
      { unfold correlations, correlation, correlation_methods. rewrite E1, E2. cbn [bind mapM]. unfold T1, T2. cbn [encoded bind]. eexists. reflexivity. }
      destruct Hc as (c & Ec). assert (Hb : exists box, (if add_box then match df with Some c0 => Ok (Some c0) | None => do c0 <- correlations N m1 m2; Ok (Some c0) end else Ok None) = Ok box).
      { rewrite Ec. destruct add_box, df; cbn; eauto. }
      destruct Hb as (box & Hb). assert (Hbox : box = None <-> add_box = false).
      { rewrite Ec in Hb. destruct add_box; [|split; [reflexivity|]; intros _; congruence]. split; [|discriminate]. intros ->. destruct df; discriminate. }
      rewrite Hb. cbn [bind cp_points cp_labels cp_invert_x cp_invert_y cp_axes cp_box].
      assert (HF : Forall2 (fun r xy => (do y <- interaction_value (Ok T2) (fst (fst r)) (snd (fst r)); Ok (snd r, y)) = Ok xy) T1 pts) by (apply mapM_Ok_inv; exact Em).
      split; [|split; [|split; [|split; [reflexivity|split; [reflexivity|split; [reflexivity|exact Hbox]]]]]].
      + clear -HF. induction HF as [|r xy l k H HF IH]; constructor; [|exact IH]. pose proof (interaction_value_ok T2 (fst (fst r)) (snd (fst r))) as Hi.
        destruct (interaction_value (Ok T2) (fst (fst r)) (snd (fst r))) as [v|]; [|discriminate]. cbn [bind] in H. injection H as <-. cbn [fst snd]. split; [reflexivity|]. split; [reflexivity|exact Hi].
      + rewrite <- firstn_map, map_map. cbn [snd]. f_equal. apply combine_map_snd. exact (Forall2_len _ _ _ HF).
      + rewrite <- firstn_map, map_map. cbn [fst]. rewrite <- firstn_map. f_equal. etransitivity; [|rewrite <- (combine_map_fst T1 pts (Forall2_len _ _ _ HF)) at 1; reflexivity].
        rewrite map_map. reflexivity.
    - assert (HE : exists r, In r T1 /\ interaction_value (Ok T2) (fst (fst r)) (snd (fst r)) = Err e).
      { clear -Em. revert Em. induction T1 as [|r l IH]; [discriminate|]. cbn [mapM]. destruct (interaction_value (Ok T2) (fst (fst r)) (snd (fst r))) as [v|e'] eqn:Ei; cbn [bind].
        - destruct (mapM _ l) as [|e'']; [discriminate|]. intros H. destruct (IH H) as (r' & Hr & Hv). exists r'. split; [right; exact Hr|exact Hv].
        - intros H. exists r. split; [left; reflexivity|]. rewrite Ei. congruence. }
      destruct HE as (r & Hr & Ei). pose proof (interaction_value_ok T2 (fst (fst r)) (snd (fst r))) as Hi. rewrite Ei in Hi. destruct Hi as [-> Hi]. split; [reflexivity|]. exists r. auto.
  Qed.

  (** methods that are not fitted are rejected, and the comparator is unchanged *)
  Theorem C54_not_fitted df (m1 m2 : mview V) t1 : mv_compare m1 = Err MethodNotFitted \/ (mv_compare m1 = Ok t1 /\ mv_compare m2 = Err MethodNotFitted) ->
    summary N df m1 m2 = (df, Err MethodNotFitted) /\ (forall c, correlation N m1 m2 c = Err MethodNotFitted).
  Proof. unfold summary, correlation. intros [->|[-> ->]]; cbn [bind]; auto. Qed.
  Theorem C54_plot_not_fitted df (m1 m2 : mview V) n b t1 : mv_compare m1 = Err MethodNotFitted \/ (mv_compare m1 = Ok t1 /\ t1 <> [] /\ mv_compare m2 = Err MethodNotFitted) ->
    comparison_plot N df m1 m2 n b = Err MethodNotFitted.
  Proof. unfold comparison_plot. intros [->|(-> & Ht & ->)]; cbn [bind]; [auto|]. destruct t1; [congruence|]. auto. Qed.
  (** tables without pairs are rejected *)
  Theorem C54_no_pairs df (m1 m2 : mview V) t1 t2 n b : mv_compare m1 = Ok t1 -> mv_compare m2 = Ok t2 -> t1 = [] \/ t2 = [] ->
    comparison_plot N df m1 m2 n b = Err ValueError /\ summary N df m1 m2 = (df, Err AttributeError).
  Proof.
    intros E1 E2 H. unfold summary, comparison_plot, correlations, correlation, correlation_methods. rewrite E1, E2. cbn [bind mapM]. destruct t1 as [|a t1]; [auto|]. destruct t2 as [|c t2]; [auto|]. destruct H; discriminate.
  Qed.
End Points.
Example C54_example : option_map (fun p => (cp_points p, map fst (cp_labels p)))
    (match comparison_plot xQ None (ex_view [("a", "b", Fin 3%Q); ("a", "c", Fin 2%Q)]) (ex_view [("c", "a", Fin 7%Q); ("a", "b", Fin 5%Q)]) 1 true with Ok p => Some p | Err _ => None end)
  = Some ([(Fin 3%Q, Fin 5%Q); (Fin 2%Q, Fin 7%Q)], ["a-b"])
  /\ comparison_plot xQ None (ex_view [("a", "b", Fin 3%Q); ("a", "c", Fin 2%Q)]) (ex_view [("c", "a", Fin 7%Q)]) 1 true = Err IndexError.
Proof. vm_compute. auto. Qed.

(** ** C64: labels on the left half circle *)
Theorem C64_left_half_circle u x y r : (0 <= u < 1)%R ->
  let p := point_left_side_circle u x y r in
  (sqrt ((fst p - x) * (fst p - x) + (snd p - y) * (snd p - y)) = Rabs r)%R /\ (0 <= r -> fst p <= x)%R.
Proof.
  intros [H0 H1]. cbn. set (a := (PI * u + PI / 2)%R). split.
  - replace ((r * cos a + x - x) * (r * cos a + x - x) + (r * sin a + y - y) * (r * sin a + y - y))%R with (Rsqr r * (Rsqr (sin a) + Rsqr (cos a)))%R by (unfold Rsqr; ring).
    rewrite sin2_cos2, Rmult_1_r. apply sqrt_Rsqr_abs.
  - intros Hr. assert (Hc : (cos a <= 0)%R).
    { pose proof PI_RGT_0 as HPI. apply cos_le_0; unfold a; [|nra]. assert (0 <= PI * u)%R by (apply Rmult_le_pos; lra). lra. }
    assert (r * cos a <= 0)%R by (apply Rmult_le_0_l || nra). lra.
Qed.
Example C64_example : point_left_side_circle 0 1 2 3 = ((3 * cos (PI * 0 + PI / 2) + 1)%R, (3 * sin (PI * 0 + PI / 2) + 2)%R) /\ (0 <= 0 < 1)%R.
Proof. split; [reflexivity|lra]. Qed.

Print Assumptions C52_codes_partial.
Print Assumptions C52_codes_refuted.
Print Assumptions C51_names_partial.
Print Assumptions C51_names_refuted.
Print Assumptions C50_bounded.
Print Assumptions C50_symmetric.
Print Assumptions C50_self_partial.
Print Assumptions C50_self_plain_partial.
Print Assumptions C50_self_refuted.
Print Assumptions C53_summary_partial.
Print Assumptions C53_first_plot_partial.
Print Assumptions C53_box_refuted.
Print Assumptions C54_points.
Print Assumptions C54_not_fitted.
Print Assumptions C54_no_pairs.
Print Assumptions C64_left_half_circle.

Print Assumptions C54_plot_not_fitted.
