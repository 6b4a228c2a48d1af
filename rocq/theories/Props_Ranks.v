(** C121: what a correlation of two methods says about their rankings. *)
From Verif Require Import Py Num NumR Sorting Frame SplitScore Comparator Props_Split Props_Compare Printed.
From Verif Require Import SplitFacts.
From Verif Require CompareFacts.
From Coq Require Import Reals Lra QArith Ascii.
Open Scope string_scope.
Open Scope nat_scope.
Open Scope list_scope.

(** ** Specification *)
(** each pair once *)
Definition each_once {V} (t : list (string * string * V)) : Prop := ForallOrdPairs (fun r r' => ~ same_features r r') t.
Definition same_pairs {V} (t1 t2 : list (string * string * V)) : Prop :=
  (forall r, In r t1 -> exists r', In r' t2 /\ same_features r r') /\ (forall r, In r t2 -> exists r', In r' t1 /\ same_features r r').
(** rankings of the same pairs, with names that cannot be confused (C52) *)
Record rankings {V} (t1 t2 : list (string * string * V)) : Prop := {
  rk_plain1 : plain_names t1; rk_plain2 : plain_names t2;
  rk_once1 : each_once t1; rk_once2 : each_once t2;
  rk_same : same_pairs t1 t2 }.
Definition same_order {V} (t1 t2 : list (string * string * V)) : Prop := Forall2 same_features t1 t2.

(** ** Vectors *)
Section Vectors.
  Open Scope R_scope.
  Lemma Rdot_diff u v : length u = length v -> Rsum (map (fun p => Rsqr (fst p - snd p)) (combine u v)) = Rdot u u - 2 * Rdot u v + Rdot v v.
  Proof.
    revert v. induction u as [|x u IH]; intros [|y v] H; try discriminate; unfold Rdot in *; cbn [combine map fst snd]; [rewrite Rsum_nil; lra|].
    rewrite !Rsum_cons, IH by (injection H; auto). unfold Rsqr. lra.
  Qed.
  Lemma Rcosine_equal u v D : Rdot u u = D -> Rdot v v = D -> 0 < D -> Rcosine u v = Fin (Rdot u v / D).
  Proof.
    intros Hu Hv HD. unfold Rcosine. rewrite Hu, Hv, sqrt_square by lra. destruct (Req_EM_T D 0); [lra|reflexivity].
  Qed.
  Lemma sum_seq n : Rsum (map INR (seq 0 n)) = INR n * (INR n - 1) / 2.
  Proof. induction n as [|n IH]; [cbn [seq map]; rewrite Rsum_nil; cbn; lra|]. rewrite seq_S, map_app, Rsum_app, IH. cbn [map]. rewrite Rsum_cons, Rsum_nil, S_INR. cbn [plus]. lra. Qed.
  Lemma sum_sqr_seq n : Rsum (map (fun x => Rsqr (INR x)) (seq 0 n)) = INR n * (INR n - 1) * (2 * INR n - 1) / 6.
  Proof. induction n as [|n IH]; [cbn [seq map]; rewrite Rsum_nil; cbn; lra|]. rewrite seq_S, map_app, Rsum_app, IH. cbn [map]. rewrite Rsum_cons, Rsum_nil, S_INR. cbn [plus]. unfold Rsqr. lra. Qed.
  Definition spread (n : nat) : R := INR n * (INR n * INR n - 1) / 12.
  Lemma spread_codes xs n : (0 < n)%nat -> Permutation xs (seq 0 n) -> Rdot (Rcenter (map INR xs)) (Rcenter (map INR xs)) = spread n.
  Proof.
    intros Hn HP. rewrite Rdot_self. assert (Hp : 0 < INR n) by (apply lt_0_INR, Hn).
    assert (Hm : Rmean (map INR xs) = (INR n - 1) / 2).
    { rewrite (Rmean_perm _ _ (Permutation_map INR HP)). unfold Rmean. rewrite sum_seq, map_length, seq_length. field. lra. }
    rewrite Rcenter_map, map_map, Hm.
    rewrite (Rsum_perm _ _ (Permutation_map (fun x => Rsqr (INR x - (INR n - 1) / 2)) HP)).
    rewrite (Rsum_map_ext _ (fun x => (Rsqr (INR x) - (INR n - 1) * INR x) + Rsqr ((INR n - 1) / 2))) by (intros; unfold Rsqr; field).
    rewrite Rsum_map_add, Rsum_map_sub, Rsum_map_mult, sum_sqr_seq, Rsum_map_const, seq_length.
    change (fun x : nat => INR x) with INR. rewrite sum_seq. unfold spread, Rsqr. field.
  Qed.
  Definition Zdist (xs ys : list nat) : Z := fold_right Z.add 0%Z (map (fun p => ((Z.of_nat (fst p) - Z.of_nat (snd p)) * (Z.of_nat (fst p) - Z.of_nat (snd p)))%Z) (combine xs ys)).
  Lemma Zdist_R xs ys c : Rsum (map (fun p => Rsqr (fst p - snd p)) (combine (map (fun x => INR x - c) xs) (map (fun x => INR x - c) ys))) = IZR (Zdist xs ys).
  Proof.
    unfold Zdist. revert ys. induction xs as [|x xs IH]; intros [|y ys]; cbn [map combine fold_right]; try (rewrite Rsum_nil; reflexivity). rewrite Rsum_cons, IH. cbn [fst snd].
    rewrite plus_IZR, mult_IZR, minus_IZR, <- !INR_IZR_INZ. unfold Rsqr. f_equal. ring.
  Qed.
End Vectors.

(** ** Integers *)
Lemma Zdist_nonneg xs ys : (0 <= Zdist xs ys)%Z.
Proof. unfold Zdist. generalize (combine xs ys). induction l as [|p l IH]; cbn [map fold_right]; [lia|]. pose proof (Z.square_nonneg (Z.of_nat (fst p) - Z.of_nat (snd p))). lia. Qed.
Lemma Zdist_zero xs ys : length xs = length ys -> Zdist xs ys = 0%Z -> xs = ys.
Proof.
  revert ys. induction xs as [|x xs IH]; intros [|y ys] H E; try discriminate; [reflexivity|]. unfold Zdist in E. cbn [combine map fold_right fst snd] in E. fold (Zdist xs ys) in E.
  pose proof (Zdist_nonneg xs ys). pose proof (Z.square_nonneg (Z.of_nat x - Z.of_nat y)). assert (Z.of_nat x = Z.of_nat y) by nia. f_equal; [lia|]. apply IH; [injection H; auto|lia].
Qed.
Definition Nsum (l : list nat) : Z := fold_right Z.add 0%Z (map Z.of_nat l).
Lemma Nsum_perm l k : Permutation l k -> Nsum l = Nsum k.
Proof. unfold Nsum. induction 1; cbn [map fold_right]; lia. Qed.
Lemma Zdist_even xs ys : length xs = length ys -> exists k, (Zdist xs ys = Nsum xs - Nsum ys + 2 * k)%Z.
Proof.
  revert ys. induction xs as [|x xs IH]; intros [|y ys] H; try discriminate; [exists 0%Z; reflexivity|]. destruct (IH ys) as (k & E); [injection H; auto|].
  unfold Zdist, Nsum in *. cbn [combine map fold_right fst snd]. rewrite E. set (d := (Z.of_nat x - Z.of_nat y)%Z).
  assert (Hd : exists j, (d * d = d + 2 * j)%Z).
  { destruct (Z.Even_or_Odd d) as [(j & ->)|(j & ->)]; [exists (2 * j * j - j)%Z|exists (2 * j * j + j)%Z]; lia. }
  destruct Hd as (j & Ej). exists (j + k)%Z. unfold d in *. lia.
Qed.
Lemma Zdist_gap xs ys : Permutation xs ys -> xs <> ys -> (2 <= Zdist xs ys)%Z.
Proof.
  intros HP Hn. pose proof (Permutation_length HP) as HL. destruct (Zdist_even xs ys HL) as (k & E). rewrite (Nsum_perm _ _ HP) in E.
  pose proof (Zdist_nonneg xs ys). destruct (Z.eq_dec (Zdist xs ys) 0) as [E0|]; [exfalso; apply Hn, Zdist_zero; assumption|lia].
Qed.

(** signs *)
Definition pm (z : Z) : Prop := z = 1%Z \/ z = (-1)%Z.
Lemma signs_pm l : NoDup l -> Forall pm (signs l).
Proof.
  induction 1 as [|x l Hx Hn IH]; [constructor|]. cbn [signs]. apply Forall_app. split; [|exact IH]. rewrite Forall_forall. intros z Hz. apply in_map_iff in Hz as (y & <- & Hy).
  destruct (Nat.ltb_spec x y); [left; reflexivity|]. destruct (Nat.ltb_spec y x); [right; reflexivity|]. exfalso. apply Hx. replace x with y by lia. exact Hy.
Qed.
Lemma signs_number l : (INR (length (signs l)) = INR (length l) * (INR (length l) - 1) / 2)%R.
Proof. induction l as [|x l IH]; [cbn; lra|]. cbn [signs length]. rewrite app_length, map_length, plus_INR, IH, S_INR. lra. Qed.
Lemma app_inj_len {A} (a b c d : list A) : length a = length c -> a ++ b = c ++ d -> a = c /\ b = d.
Proof. revert c. induction a as [|x a IH]; intros [|y c] H E; try discriminate; [auto|]. cbn in *. injection E as -> E. destruct (IH c) as [-> ->]; auto. Qed.
Lemma filter_perm' {A} (p : A -> bool) l k : Permutation l k -> Permutation (filter p l) (filter p k).
Proof.
  induction 1 as [|x l k H IH|x y l|l k m H1 IH1 H2 IH2]; cbn; [constructor| | |etransitivity; eassumption].
  - destruct (p x); [constructor|]; assumption.
  - destruct (p x), (p y); try apply Permutation_refl. apply perm_swap.
Qed.
(** fewer elements are above a larger one *)
Lemma count_above x y l : x < y -> In y l -> length (filter (fun z => y <? z) l) < length (filter (fun z => x <? z) l).
Proof.
  intros H. assert (W : forall k, length (filter (fun z => y <? z) k) <= length (filter (fun z => x <? z) k)).
  { induction k as [|z k IH]; [reflexivity|]. cbn [filter]. destruct (Nat.ltb_spec y z), (Nat.ltb_spec x z); cbn [length]; lia. }
  induction l as [|z l IH]; intros Hy; [destruct Hy|]. cbn [filter]. destruct Hy as [->|Hy].
  - rewrite Nat.ltb_irrefl. destruct (Nat.ltb_spec x y); [|lia]. cbn [length]. specialize (W l). lia.
  - specialize (IH Hy). destruct (Nat.ltb_spec y z), (Nat.ltb_spec x z); cbn [length]; lia.
Qed.
Lemma signs_inj xs ys : NoDup xs -> Permutation xs ys -> signs xs = signs ys -> xs = ys.
Proof.
  revert ys. induction xs as [|x xs IH]; intros ys Hn HP E; [symmetry; apply Permutation_nil, HP|].
  destruct ys as [|y ys]; [apply Permutation_sym, Permutation_nil in HP; discriminate|].
  assert (HL : length xs = length ys) by (apply Permutation_length in HP; injection HP; auto).
  cbn [signs] in E. apply app_inj_len in E as [E1 E2]; [|rewrite !map_length; exact HL].
  assert (Hny : NoDup (y :: ys)) by exact (Permutation_NoDup HP Hn).
  assert (C : forall a l, length (filter (fun z => a <? z) (a :: l)) = length (filter (fun z => Z.eqb z 1) (map (fun y => if a <? y then 1%Z else if y <? a then (-1)%Z else 0%Z) l))).
  { intros a l. cbn [filter]. rewrite Nat.ltb_irrefl. induction l as [|b l IHl]; [reflexivity|]. cbn [map filter]. destruct (a <? b); cbn [Z.eqb Pos.eqb length]; [congruence|]. destruct (b <? a); cbn [Z.eqb Pos.eqb]; exact IHl. }
  assert (Hxy : x = y).
  { pose proof (C x xs) as C1. pose proof (C y ys) as C2. rewrite E1 in C1. rewrite <- C2 in C1.
    assert (HF : forall a, Permutation (filter (fun z => a <? z) (x :: xs)) (filter (fun z => a <? z) (y :: ys))) by (intros a; apply filter_perm', HP).
    rewrite (Permutation_length (HF x)) in C1.
    assert (In x (y :: ys)) by (apply (Permutation_in _ HP); left; reflexivity).
    destruct (Nat.lt_trichotomy x y) as [H0|[H0|H0]]; [exfalso|exact H0|exfalso].
    - pose proof (count_above x y (y :: ys) H0 (or_introl eq_refl)). lia.
    - pose proof (count_above y x (y :: ys) H0 H). lia. }
  subst y. f_equal. apply IH; [inversion Hn; assumption|apply (Permutation_cons_inv HP)|exact E2].
Qed.

(** ** Codes of a ranking *)
Lemma each_once_labels {V} (t : list (string * string * V)) : plain_names t -> each_once t -> NoDup (map row_label t).
Proof.
  intros Hp H. induction H as [|r t Hr H IH]; [constructor|]. cbn [map]. constructor; [|apply IH; intros r' Hr'; apply Hp; right; exact Hr'].
  intros Hin. apply in_map_iff in Hin as (r' & E & Hr'). rewrite Forall_forall in Hr. apply (Hr r' Hr'). destruct (Hp r (or_introl eq_refl)), (Hp r' (or_intror Hr')). apply label_pair_plain; auto.
Qed.
Lemma positions_seq l : NoDup l -> map (fun x => position x l) l = seq 0 (length l).
Proof.
  intros Hn. assert (G : forall pre k, l = pre ++ k -> map (fun x => position x l) k = seq (length pre) (length k)).
  { intros pre k. revert pre. induction k as [|x k IH]; intros pre E; [reflexivity|]. cbn [map length seq]. f_equal.
    - assert (Hx : nth_error l (length pre) = Some x) by (rewrite E, nth_error_app2, Nat.sub_diag by lia; reflexivity).
      assert (Hin : In x l) by (eapply nth_error_In, Hx). rewrite NoDup_nth_error in Hn. apply Hn; [|rewrite (position_nth x l Hin), Hx; reflexivity].
      apply nth_error_Some. rewrite (position_nth x l Hin). discriminate.
    - rewrite (IH (pre ++ [x])); [rewrite app_length; cbn [length]; rewrite Nat.add_1_r; reflexivity|]. rewrite <- app_assoc. exact E. }
  apply (G [] l eq_refl).
Qed.
Lemma codes_perm L : NoDup L -> Permutation (cat_codes L) (seq 0 (length L)).
Proof.
  intros Hn. assert (HP : Permutation L (np_unique Scell L)).
  { apply NoDup_Permutation; [exact Hn|apply (np_unique_NoDup Scell Scell_ok)|]. intros x. rewrite (np_unique_In Scell Scell_ok) by apply Snan. reflexivity. }
  unfold cat_codes. rewrite (Permutation_length HP), <- (positions_seq (np_unique Scell L)) by apply (np_unique_NoDup Scell Scell_ok). apply Permutation_map, HP.
Qed.
Lemma codes_equal L1 L2 : (forall x, In x L1 <-> In x L2) -> (cat_codes L1 = cat_codes L2 <-> L1 = L2).
Proof.
  intros H. split; [|intros ->; reflexivity]. unfold cat_codes. rewrite (np_unique_same L2 L1) by (intros x; symmetry; apply H). set (U := np_unique Scell L1).
  assert (H1 : forall x, In x L1 -> In x U) by (intros x Hx; apply (np_unique_In Scell Scell_ok); [apply Snan|exact Hx]).
  assert (H2 : forall x, In x L2 -> In x U) by (intros x Hx; apply H1, H, Hx). clearbody U. clear H. revert L2 H2. induction L1 as [|x L1 IH]; intros [|y L2] H2 E; try discriminate; [reflexivity|].
  cbn [map] in E. injection E as E1 E2. f_equal; [apply (position_inj _ _ U); [apply H1; left; reflexivity|apply H2; left; reflexivity|exact E1]|].
  apply IH; [intros z Hz; apply H1; right; exact Hz|intros z Hz; apply H2; right; exact Hz|exact E2].
Qed.
Lemma rank2_code xs n x : Permutation xs (seq 0 n) -> In x xs -> rank2 xs x = 2 * x + 2.
Proof.
  intros HP Hx. apply (Permutation_in _ HP), in_seq in Hx. unfold rank2.
  rewrite (Permutation_length (filter_perm' (fun y => y <? x) _ _ HP)), (Permutation_length (filter_perm' (Nat.eqb x) _ _ HP)).
  replace n with (x + (1 + (n - x - 1))) by lia. rewrite !seq_app, !filter_app, !app_length. cbn [plus seq filter]. rewrite Nat.ltb_irrefl, Nat.eqb_refl. cbn [filter length].
  assert (A : forall (p : nat -> bool) l, (forall z, In z l -> p z = true) -> length (filter p l) = length l).
  { intros p l. induction l as [|z l IH]; intros H; [reflexivity|]. cbn. rewrite (H z (or_introl eq_refl)). cbn. f_equal. apply IH. intros w Hw. apply H. right. exact Hw. }
  assert (B : forall (p : nat -> bool) l, (forall z, In z l -> p z = false) -> length (filter p l) = 0).
  { intros p l. induction l as [|z l IH]; intros H; [reflexivity|]. cbn. rewrite (H z (or_introl eq_refl)). apply IH. intros w Hw. apply H. right. exact Hw. }
  rewrite (A (fun y => y <? x) (seq 0 x)) by (intros z Hz; apply in_seq in Hz; apply Nat.ltb_lt; lia).
  rewrite (B (fun y => y <? x)) by (intros z Hz; apply in_seq in Hz; apply Nat.ltb_ge; lia).
  rewrite (B (Nat.eqb x) (seq 0 x)) by (intros z Hz; apply in_seq in Hz; apply Nat.eqb_neq; lia).
  rewrite (B (Nat.eqb x)) by (intros z Hz; apply in_seq in Hz; apply Nat.eqb_neq; lia). rewrite seq_length. lia.
Qed.
(** on a permutation of the codes the average ranks are the codes plus one *)
Lemma vector_spearman xs n : Permutation xs (seq 0 n) -> vector "spearman" xs = vector "pearson" xs.
Proof.
  intros HP. unfold vector. cbn [String.eqb Ascii.eqb Bool.eqb].
  rewrite (map_ext_in (fun x => (INR (rank2 xs x) / 2)%R) (fun x => (INR x + 1)%R)).
  2:{ intros x Hx. rewrite (rank2_code xs n x HP Hx), plus_INR, mult_INR. cbn [INR]. lra. }
  rewrite !Rcenter_map. apply map_ext_in. intros x Hx. assert (Hne : xs <> []) by (intros E; rewrite E in Hx; destruct Hx).
  rewrite (Rmean_map_add INR (fun _ => 1%R)), (Rmean_map_const 1%R xs Hne). change (fun x0 => INR x0) with INR. lra.
Qed.

(** ** C121 *)
(** the largest correlation other than 1 is at least this far from it *)
Definition gap (c : string) (n : nat) : R :=
  (if String.eqb c "kendall" then 4 / (INR n * (INR n - 1)) else 12 / (INR n * (INR n * INR n - 1)))%R.

Lemma pm_gap s t : Forall pm s -> Forall pm t -> length s = length t ->
  (Rdot (map IZR s) (map IZR s) = INR (length s))%R /\ (s <> t -> Rdot (map IZR s) (map IZR t) <= INR (length s) - 2)%R /\ (Rdot (map IZR s) (map IZR t) <= INR (length s))%R.
Proof.
  intros Hs. revert t. induction Hs as [|x s Hx Hs IH]; intros t Ht HL; destruct t as [|y t]; try discriminate.
  - unfold Rdot. cbn. rewrite Rsum_nil. split; [reflexivity|]. split; [congruence|lra].
  - inversion Ht as [|? ? Hy Ht']; subst. destruct (IH t Ht' ltac:(injection HL; auto)) as (A & B & C). unfold Rdot in *. cbn [map combine fst snd length]. rewrite !Rsum_cons, S_INR.
    split; [rewrite A; destruct Hx as [-> | ->]; lra|]. split.
    + intros Hn. destruct Hx as [-> | ->], Hy as [-> | ->]; try lra.
      * assert (s <> t) by congruence. specialize (B H). lra.
      * assert (s <> t) by congruence. specialize (B H). lra.
    + destruct Hx as [-> | ->], Hy as [-> | ->]; lra.
Qed.

Lemma codes_cosine c xs ys n : 2 <= n -> Permutation xs (seq 0 n) -> Permutation ys (seq 0 n) -> In c correlation_methods ->
  exists r, Rcosine (vector c xs) (vector c ys) = Fin r /\ (xs = ys -> r = 1%R) /\ (xs <> ys -> (r <= 1 - gap c n)%R).
Proof.
  intros Hn Hx Hy Hc. assert (HP : Permutation xs ys) by (etransitivity; [exact Hx|symmetry; exact Hy]).
  assert (Hi : (2 <= INR n)%R) by (apply (le_INR 2), Hn).
  assert (HC : c = "kendall" \/ (c <> "kendall" /\ vector c xs = vector "pearson" xs /\ vector c ys = vector "pearson" ys)).
  { destruct Hc as [<-|[<-|[<-|[]]]]; [right|left; reflexivity|right]; (split; [discriminate|]); [auto|split; eapply vector_spearman; eassumption]. }
  destruct HC as [->|(Hk & -> & ->)].
  - assert (Nx : NoDup xs) by (apply (Permutation_NoDup (Permutation_sym Hx)), seq_NoDup). assert (Ny : NoDup ys) by exact (Permutation_NoDup HP Nx).
    assert (HL : length xs = n) by (rewrite (Permutation_length Hx), seq_length; reflexivity). assert (HL' : length ys = n) by (rewrite (Permutation_length Hy), seq_length; reflexivity).
    destruct (pm_gap (signs xs) (signs ys) (signs_pm xs Nx) (signs_pm ys Ny) (signs_length xs ys ltac:(congruence))) as (A & B & _).
    destruct (pm_gap (signs ys) (signs xs) (signs_pm ys Ny) (signs_pm xs Nx) (signs_length ys xs ltac:(congruence))) as (A' & _ & _).
    rewrite signs_number, HL in A, B. rewrite signs_number, HL' in A'. set (D := (INR n * (INR n - 1) / 2)%R) in *. assert (HD : (0 < D)%R) by (unfold D; nra).
    exists (Rdot (vector "kendall" xs) (vector "kendall" ys) / D)%R. split; [apply Rcosine_equal; assumption|]. split.
    + intros <-. change (vector "kendall" xs) with (map IZR (signs xs)). rewrite A. field. lra.
    + intros Hne. change (vector "kendall" xs) with (map IZR (signs xs)). change (vector "kendall" ys) with (map IZR (signs ys)).
      assert (Hs : signs xs <> signs ys) by (intros E; apply Hne, signs_inj; assumption). specialize (B Hs). unfold gap. cbn [String.eqb Ascii.eqb Bool.eqb].
      replace (1 - 4 / (INR n * (INR n - 1)))%R with ((D - 2) / D)%R by (unfold D; field; split; lra). apply Rmult_le_compat_r; [apply Rlt_le, Rinv_0_lt_compat, HD|exact B].
  - change (vector "pearson" xs) with (Rcenter (map INR xs)). change (vector "pearson" ys) with (Rcenter (map INR ys)).
    pose proof (spread_codes xs n ltac:(lia) Hx) as A. pose proof (spread_codes ys n ltac:(lia) Hy) as A'. set (D := spread n) in *. assert (HD : (0 < D)%R) by (unfold D, spread; nra).
    exists (Rdot (Rcenter (map INR xs)) (Rcenter (map INR ys)) / D)%R. split; [apply Rcosine_equal; assumption|].
    assert (Hd : IZR (Zdist xs ys) = (2 * D - 2 * Rdot (Rcenter (map INR xs)) (Rcenter (map INR ys)))%R).
    { pose proof (Rdot_diff (Rcenter (map INR xs)) (Rcenter (map INR ys)) ltac:(rewrite !Rcenter_length, !map_length; apply Permutation_length, HP)) as E. rewrite A, A' in E.
      rewrite !Rcenter_map, (Rmean_perm _ _ (Permutation_map INR HP)), Zdist_R in E. rewrite !Rcenter_map, (Rmean_perm _ _ (Permutation_map INR HP)). lra. }
    split.
    + intros <-. rewrite A. field. lra.
    + intros Hne. pose proof (Zdist_gap xs ys HP Hne) as Hz. apply IZR_le in Hz. unfold gap. apply String.eqb_neq in Hk. rewrite Hk.
      replace (1 - 12 / (INR n * (INR n * INR n - 1)))%R with ((D - 1) / D)%R by (unfold D, spread; field; split; nra). apply Rmult_le_compat_r; [apply Rlt_le, Rinv_0_lt_compat, HD|lra].
Qed.

(** rankings of the same pairs: the correlation is 1 exactly if they list them in the same order,
    and cannot come arbitrarily close to 1 otherwise *)
Theorem C121_same_order_partial (m1 m2 : mview (ext R)) t1 t2 c : mv_compare m1 = Ok t1 -> mv_compare m2 = Ok t2 -> rankings t1 t2 -> 2 <= length t1 -> In c correlation_methods ->
  exists r, correlation xR m1 m2 c = Ok (Fin r) /\ (r = 1%R <-> same_order t1 t2) /\ (~ same_order t1 t2 -> (r <= 1 - gap c (length t1))%R).
Proof.
  intros E1 E2 [P1 P2 O1 O2 [S1 S2]] Hn Hc. rewrite (correlation_vectors m1 m2 t1 t2 c E1 E2 Hc).
  set (L1 := map row_label t1). set (L2 := map row_label t2).
  assert (HI : forall x, In x L1 <-> In x L2).
  { intros x. unfold L1, L2. rewrite !in_map_iff. split; intros (q & <- & Hq); [destruct (S1 q Hq) as (q' & Hq' & Hs)|destruct (S2 q Hq) as (q' & Hq' & Hs)]; exists q'; (split; [symmetry; apply label_pair, Hs|exact Hq']). }
  assert (N1 : NoDup L1) by (apply each_once_labels; assumption). assert (N2 : NoDup L2) by (apply each_once_labels; assumption).
  assert (HL : length L2 = length L1) by (apply Permutation_length, NoDup_Permutation; [assumption..|intros x; symmetry; apply HI]).
  assert (Hlen : length L1 = length t1) by apply map_length.
  pose proof (codes_perm L1 N1) as C1. pose proof (codes_perm L2 N2) as C2. rewrite HL in C2. rewrite Hlen in C1, C2.
  assert (Een : encoded t1 t2 = Ok (combine (cat_codes L1) (cat_codes L2))).
  { unfold encoded. unfold L1, L2 in *. destruct t1; [cbn in Hn; lia|]. destruct t2; [cbn in HL; discriminate|reflexivity]. }
  rewrite Een. cbn [bind]. rewrite combine_map_fst, combine_map_snd by (unfold cat_codes; rewrite !map_length; congruence).
  destruct (codes_cosine c _ _ _ Hn C1 C2 Hc) as (r & Er & R1 & R2). exists r. split; [rewrite Er; reflexivity|].
  assert (Ho : same_order t1 t2 <-> cat_codes L1 = cat_codes L2).
  { rewrite (codes_equal L1 L2 HI). unfold L1, L2, same_order. clear -P1 P2 HL. fold L1 L2. split.
    - clear. intros H. unfold L1, L2. induction H as [|r r' t1 t2 Hr H IH]; [reflexivity|]. cbn [map]. f_equal; [apply label_pair, Hr|exact IH].
    - unfold L1, L2. clear HL L1 L2. revert t2 P2. induction t1 as [|r t1 IH]; intros [|r' t2] P2 E; try discriminate; [constructor|]. cbn [map] in E. injection E as E1 E2.
      destruct (P1 r (or_introl eq_refl)), (P2 r' (or_introl eq_refl)). constructor; [apply label_pair_plain; assumption|]. apply IH; [intros q Hq; apply P1; right; exact Hq|intros q Hq; apply P2; right; exact Hq|exact E2]. }
  assert (Hg : (0 < gap c (length t1))%R).
  { assert (Hi : (2 <= INR (length t1))%R) by (apply (le_INR 2), Hn). unfold gap. destruct (String.eqb c "kendall"); apply Rdiv_lt_0_compat; nra. }
  rewrite Ho. split; [|exact R2]. split; [|exact R1]. intros E. destruct (list_eq_dec Nat.eq_dec (cat_codes L1) (cat_codes L2)) as [H|H]; [exact H|]. specialize (R2 H). lra.
Qed.

(** the correlations only depend on the pairs of codes, not on their order *)
Definition sgn (x y : nat) : Z := if x <? y then 1%Z else if y <? x then (-1)%Z else 0%Z.
Lemma sgn_sym x y : sgn x y = (- sgn y x)%Z.
Proof. unfold sgn. destruct (Nat.ltb_spec x y), (Nat.ltb_spec y x); try reflexivity; lia. Qed.
Definition agree (p : list (nat * nat)) : Z :=
  (fix go p := match p with [] => 0 | a :: q => fold_right Z.add 0 (map (fun b => sgn (fst a) (fst b) * sgn (snd a) (snd b)) q) + go q end)%Z p.
Lemma combine_app {A B} (a c : list A) (b d : list B) : length a = length b -> combine (a ++ c) (b ++ d) = combine a b ++ combine c d.
Proof. revert b. induction a as [|x a IH]; intros [|y b] H; try discriminate; [reflexivity|]. cbn. f_equal. apply IH. injection H; auto. Qed.
Lemma sorted_unique l k : StronglySorted (fun a b => String.ltb a b = true) l -> StronglySorted (fun a b => String.ltb a b = true) k -> (forall x, In x l <-> In x k) -> l = k.
Proof.
  intros Hl. revert k. induction Hl as [|x l Hl IH Hx]; intros k Hk HI.
  - destruct k as [|y k]; [reflexivity|]. destruct (proj2 (HI y) (or_introl eq_refl)).
  - destruct Hk as [|y k Hk Hy]; [destruct (proj1 (HI x) (or_introl eq_refl))|]. rewrite Forall_forall in Hx, Hy.
    assert (x = y) as <-.
    { destruct (proj1 (HI x) (or_introl eq_refl)) as [->|H1]; [reflexivity|]. destruct (proj2 (HI y) (or_introl eq_refl)) as [->|H2]; [reflexivity|].
      pose proof (ce_trans _ Scell_ok x y x (Hx y H2) (Hy x H1)) as C. cbn in C. pose proof (ce_irrefl _ Scell_ok x) as C'. cbn in C'. congruence. }
    f_equal. apply IH; [exact Hk|]. intros z. pose proof (ce_irrefl _ Scell_ok x) as C. cbn in C. split; intros Hz.
    + destruct (proj1 (HI z) (or_intror Hz)) as [<-|]; [|assumption]. specialize (Hx x Hz). congruence.
    + destruct (proj2 (HI z) (or_intror Hz)) as [<-|]; [|assumption]. specialize (Hy x Hz). congruence.
Qed.
Lemma agree_dot p : Rdot (map IZR (signs (map fst p))) (map IZR (signs (map snd p))) = IZR (agree p).
Proof.
  induction p as [|a p IH]; [unfold Rdot; cbn; rewrite Rsum_nil; reflexivity|]. cbn [map signs agree]. fold (agree p). rewrite plus_IZR, <- IH, !map_app. unfold Rdot.
  rewrite combine_app by (rewrite !map_length; reflexivity). rewrite map_app, Rsum_app. f_equal. clear. induction p as [|b p IH]; [cbn; rewrite Rsum_nil; reflexivity|].
  cbn [map combine fst snd fold_right]. rewrite Rsum_cons, IH, plus_IZR, mult_IZR. reflexivity.
Qed.
Lemma agree_perm p q : Permutation p q -> agree p = agree q.
Proof.
  assert (S : forall (f : nat * nat -> Z) l k, Permutation l k -> fold_right Z.add 0%Z (map f l) = fold_right Z.add 0%Z (map f k)) by (intros f l k; induction 1; cbn [map fold_right]; lia).
  induction 1 as [|a p q H IH|a b p|p q r H1 IH1 H2 IH2]; [reflexivity| | |congruence].
  - cbn [agree]. fold (agree p). fold (agree q). rewrite IH, (S _ _ _ H). reflexivity.
  - cbn [agree map fold_right]. fold (agree p). rewrite (sgn_sym (fst a)), (sgn_sym (snd a)). ring.
Qed.
Lemma Rdot_pairs (f g : nat -> R) (p : list (nat * nat)) : Rdot (map f (map fst p)) (map g (map snd p)) = Rsum (map (fun x => f (fst x) * g (snd x))%R p).
Proof. unfold Rdot. induction p as [|a p IH]; [reflexivity|]. cbn [map combine fst snd]. rewrite !Rsum_cons, IH. reflexivity. Qed.
Lemma cosine_rows c p q : In c correlation_methods -> Permutation p q -> Rcosine (vector c (map fst p)) (vector c (map snd p)) = Rcosine (vector c (map fst q)) (vector c (map snd q)).
Proof.
  intros Hc HP. assert (HD : forall (f g f' g' : nat -> R), (forall x, f x = f' x) -> (forall x, g x = g' x) -> forall p q : list (nat * nat), Permutation p q ->
    Rdot (map f (map fst p)) (map g (map snd p)) = Rdot (map f' (map fst q)) (map g' (map snd q))).
  { intros f g f' g' Ef Eg p' q' H. rewrite !Rdot_pairs, (Rsum_map_ext _ (fun x => f' (fst x) * g' (snd x))%R) by (intros x _; cbn beta; rewrite Ef, Eg; reflexivity). apply Rsum_perm, Permutation_map, H. }
  assert (Hself : forall (f f' : nat -> R), (forall x, f x = f' x) -> forall l k : list nat, Permutation l k -> Rdot (map f l) (map f l) = Rdot (map f' k) (map f' k)).
  { intros f f' Ef l k H. rewrite !Rdot_self, !map_map, (Rsum_map_ext _ (fun x => Rsqr (f' x))) by (intros x _; cbn beta; rewrite Ef; reflexivity). apply Rsum_perm, Permutation_map, H. }
  assert (HC : forall (f f' g g' : nat -> R), (forall x, f x = f' x) -> (forall x, g x = g' x) ->
    Rcosine (Rcenter (map f (map fst p))) (Rcenter (map g (map snd p))) = Rcosine (Rcenter (map f' (map fst q))) (Rcenter (map g' (map snd q)))).
  { intros f f' g g' Ef Eg. rewrite !Rcenter_map.
    rewrite (Rmean_map_ext f f' (map fst p) (fun x _ => Ef x)), (Rmean_map_ext g g' (map snd p) (fun x _ => Eg x)).
    rewrite (Rmean_perm _ _ (Permutation_map f' (Permutation_map fst HP))), (Rmean_perm _ _ (Permutation_map g' (Permutation_map snd HP))). unfold Rcosine.
    rewrite (Hself (fun x => f x - Rmean (map f' (map fst q)))%R (fun x => f' x - Rmean (map f' (map fst q)))%R ltac:(intros; cbn beta; rewrite Ef; reflexivity) _ _ (Permutation_map fst HP)).
    rewrite (Hself (fun x => g x - Rmean (map g' (map snd q)))%R (fun x => g' x - Rmean (map g' (map snd q)))%R ltac:(intros; cbn beta; rewrite Eg; reflexivity) _ _ (Permutation_map snd HP)).
    rewrite (HD (fun x => f x - Rmean (map f' (map fst q)))%R (fun x => g x - Rmean (map g' (map snd q)))%R (fun x => f' x - Rmean (map f' (map fst q)))%R (fun x => g' x - Rmean (map g' (map snd q)))%R ltac:(intros; cbn beta; rewrite Ef; reflexivity) ltac:(intros; cbn beta; rewrite Eg; reflexivity) _ _ HP). reflexivity. }
  destruct Hc as [<-|[<-|[<-|[]]]]; unfold vector; cbn [String.eqb Ascii.eqb Bool.eqb].
  - apply HC; reflexivity.
  - assert (K : forall l k : list nat, Permutation l k -> Rdot (map IZR (signs l)) (map IZR (signs l)) = Rdot (map IZR (signs k)) (map IZR (signs k))).
    { intros l k H. assert (E : forall m : list nat, Rdot (map IZR (signs m)) (map IZR (signs m)) = IZR (agree (map (fun x => (x, x)) m))) by (intros m; rewrite <- agree_dot, !map_map; cbn [fst snd]; rewrite map_id; reflexivity).
      rewrite !E, (agree_perm _ _ (Permutation_map _ H)). reflexivity. }
    unfold Rcosine. rewrite (K _ _ (Permutation_map fst HP)), (K _ _ (Permutation_map snd HP)), !agree_dot, (agree_perm _ _ HP). reflexivity.
  - assert (Er : forall l k, Permutation l k -> forall x, (INR (rank2 l x) / 2 = INR (rank2 k x) / 2)%R).
    { intros l k H x. unfold rank2. rewrite (Permutation_length (filter_perm' (fun y => y <? x) _ _ H)), (Permutation_length (filter_perm' (Nat.eqb x) _ _ H)). reflexivity. }
    apply HC; apply Er; [apply (Permutation_map fst HP)|apply (Permutation_map snd HP)].
Qed.

(** the correlation of the ranks: every pair with its position in the one and in the other list *)
Definition rank_correlation {V} (c : string) (t1 t2 : list (string * string * V)) : ext R :=
  let L1 := map row_label t1 in let L2 := map row_label t2 in
  Rcosine (vector c (map (fun x => position x L1) L1)) (vector c (map (fun x => position x L2) L1)).
(** this is what is reported if the first method lists the pairs alphabetically *)
Theorem C121_alphabetical_partial (m1 m2 : mview (ext R)) t1 t2 c : mv_compare m1 = Ok t1 -> mv_compare m2 = Ok t2 -> rankings t1 t2 -> t1 <> [] -> In c correlation_methods ->
  StronglySorted (fun r r' => String.ltb (row_label r) (row_label r') = true) t1 -> correlation xR m1 m2 c = Ok (rank_correlation c t1 t2).
Proof.
  intros E1 E2 [P1 P2 O1 O2 [S1 S2]] Hn Hc Hsort. rewrite (correlation_vectors m1 m2 t1 t2 c E1 E2 Hc). unfold rank_correlation.
  set (L1 := map row_label t1). set (L2 := map row_label t2).
  assert (HI : forall x, In x L1 <-> In x L2).
  { intros x. unfold L1, L2. rewrite !in_map_iff. split; intros (q & <- & Hq); [destruct (S1 q Hq) as (q' & Hq' & Hs)|destruct (S2 q Hq) as (q' & Hq' & Hs)]; exists q'; (split; [symmetry; apply label_pair, Hs|exact Hq']). }
  assert (N1 : NoDup L1) by (apply each_once_labels; assumption). assert (N2 : NoDup L2) by (apply each_once_labels; assumption).
  assert (HP : Permutation L2 L1) by (apply NoDup_Permutation; [assumption..|intros x; symmetry; apply HI]).
  assert (HU : np_unique Scell L1 = L1).
  { apply sorted_unique; [apply (np_unique_sorted Scell Scell_ok); intros; apply Snan| |intros x; apply (np_unique_In Scell Scell_ok), Snan].
    unfold L1. clear -Hsort. induction Hsort as [|r t H IH Hr]; [constructor|]. cbn [map]. constructor; [exact IH|]. rewrite Forall_forall in *. intros x Hx. apply in_map_iff in Hx as (r' & <- & Hr'). apply Hr, Hr'. }
  assert (Een : encoded t1 t2 = Ok (combine (cat_codes L1) (cat_codes L2))).
  { unfold encoded. pose proof (Permutation_length HP) as HL. unfold L1, L2 in *. destruct t1; [congruence|]. destruct t2; [cbn in HL; discriminate|reflexivity]. }
  rewrite Een. cbn [bind]. f_equal. unfold cat_codes. rewrite (np_unique_same L2 L1) by (intros x; symmetry; apply HI). rewrite HU.
  pose proof (Permutation_length HP) as HL. rewrite combine_map_fst, combine_map_snd by (rewrite !map_length; congruence).
  (* the codes of the second list, row by row, against the row *)
  rewrite (positions_seq L1 N1). replace (seq 0 (length L1)) with (map (fun x => position x L2) L2) by (rewrite (positions_seq L2 N2), HL; reflexivity).
  pose proof (cosine_rows c (map (fun x => (position x L2, position x L1)) L2) (map (fun x => (position x L2, position x L1)) L1) Hc (Permutation_map _ HP)) as E.
  rewrite !map_map in E. cbn [fst snd] in E. rewrite E, Rcosine_comm. f_equal. rewrite (positions_seq L1 N1), (positions_seq L2 N2), HL. reflexivity.
Qed.
(** in general opposite rankings need not have a negative correlation *)
Definition view_of {V} (t : list (string * string * V)) : mview V := {| mv_name := "m"; mv_ascending := false; mv_compare := Ok t |}.
Theorem C121_opposite_refuted : exists t1 t2 : list (string * string * ext Q), rankings t1 t2 /\ same_order t1 (rev t2)
  /\ correlation xQ (view_of t1) (view_of t2) "pearson" = Ok (Fin (1 # 2)%Q) /\ correlation xQ (view_of t1) (view_of t2) "spearman" = Ok (Fin (1 # 2)%Q)
  /\ correlation xQ (view_of t1) (view_of t2) "kendall" = Ok (Fin (1 # 3)%Q).
Proof.
  exists [("a", "c", Fin 3%Q); ("a", "b", Fin 2%Q); ("b", "c", Fin 1%Q)], [("b", "c", Fin 9%Q); ("a", "b", Fin 8%Q); ("a", "c", Fin 7%Q)].
  split; [|split; [|vm_compute; auto]].
  - assert (N : forall a b c d, (a, b) <> (c, d) -> (a, b) <> (d, c) -> ~ CompareFacts.same_pair a b c d) by (intros a b c d Ha Hb [[]|[]]; congruence).
    constructor; try (intros r [<-|[<-|[<-|[]]]]; split; reflexivity); try (repeat constructor; unfold same_features; cbn; apply N; discriminate).
    split; intros r [<-|[<-|[<-|[]]]].
    + eexists. split; [right; right; left; reflexivity|left; auto].
    + eexists. split; [right; left; reflexivity|left; auto].
    + eexists. split; [left; reflexivity|left; auto].
    + eexists. split; [right; right; left; reflexivity|left; auto].
    + eexists. split; [right; left; reflexivity|left; auto].
    + eexists. split; [left; reflexivity|left; auto].
  - cbn. repeat constructor; left; auto.
Qed.

(** ** Examples: one exchange of neighbours; the bound is attained *)
Definition rk1 : list (string * string * ext R) := [("a", "b", Fin 3%R); ("a", "c", Fin 2%R); ("b", "c", Fin 1%R)].
Definition rk2 : list (string * string * ext R) := [("c", "a", Fin 3%R); ("a", "b", Fin 2%R); ("b", "c", Fin 1%R)].
Example C121_example : rankings rk1 rk2 /\ ~ same_order rk1 rk2 /\ StronglySorted (fun r r' => String.ltb (row_label r) (row_label r') = true) rk1
  /\ correlation xR (view_of rk1) (view_of rk2) "kendall" = Ok (Fin (1 / 3)%R) /\ gap "kendall" (length rk1) = (2 / 3)%R.
Proof.
  split; [|split; [|split; [|split]]].
  - assert (N : forall a b c d, (a, b) <> (c, d) -> (a, b) <> (d, c) -> ~ CompareFacts.same_pair a b c d) by (intros a b c d Ha Hb [[]|[]]; congruence).
    constructor; try (intros r [<-|[<-|[<-|[]]]]; split; reflexivity); try (repeat constructor; unfold same_features; cbn; apply N; discriminate).
    split; intros r [<-|[<-|[<-|[]]]].
    + eexists. split; [right; left; reflexivity|left; auto].
    + eexists. split; [left; reflexivity|right; auto].
    + eexists. split; [right; right; left; reflexivity|left; auto].
    + eexists. split; [right; left; reflexivity|right; auto].
    + eexists. split; [left; reflexivity|left; auto].
    + eexists. split; [right; right; left; reflexivity|left; auto].
  - intros H. inversion H as [|? ? ? ? H0 _]; subst. destruct H0 as [[E _]|[_ E]]; discriminate E.
  - repeat constructor.
  - rewrite (correlation_vectors (view_of rk1) (view_of rk2) rk1 rk2 "kendall" eq_refl eq_refl) by (cbn; auto). replace (encoded rk1 rk2) with (@Ok (list (nat * nat)) [(0, 1); (1, 0); (2, 2)]) by (vm_compute; reflexivity). cbn [bind map fst snd]. f_equal.
    rewrite (Rcosine_equal _ _ 3%R); unfold vector; cbn; unfold Rdot; cbn; rewrite ?Rsum_cons, ?Rsum_nil; try lra. f_equal. lra.
  - unfold gap. cbn. lra.
Qed.

Print Assumptions C121_same_order_partial.
Print Assumptions C121_alphabetical_partial.
Print Assumptions C121_opposite_refuted.
