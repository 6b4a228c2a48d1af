(** Two layouts of the same data: the rows in another order or each repeated equally often, the
    columns in another order.  Specification and lemmas for C85-C87. *)
From Verif Require Import Py Num NumR Sorting Frame Rng PdCalc PdSpec PdFacts PdProofs PdTheorems PdErrors PdApi PdMethods MethodSpec
  PdMethodFacts PdMethodRun PdMethodReal PdMethodReal2 GreenwellFacts Props_Pd Props_Methods Props_Methods2 Props_Additivity.
From Coq Require Import Reals Lra.
Open Scope string_scope.
Open Scope nat_scope.
Open Scope list_scope.

(** ** Specification *)

Definition repeated {A} (n : nat) (l : list A) : list A := concat (repeat l n).

(** the same cells under the same names *)
Definition rearranged {C} (c1 c2 : list string) (r1 r2 : list C) : Prop :=
  length r1 = length c1 /\ length r2 = length c2
  /\ forall f p q, nth_error c1 p = Some f -> nth_error c2 q = Some f -> nth_error r1 p = nth_error r2 q.

(** related rows, up to their order and up to repeating all of them *)
Definition viewed {A B} (P : A -> B -> Prop) (rows1 : list A) (rows2 : list B) : Prop :=
  exists m n l1 l2, Permutation (repeated (S m) rows1) l1 /\ Forall2 P l1 l2 /\ Permutation l2 (repeated (S n) rows2).

Definition same_data {C} (X1 X2 : frame C) : Prop :=
  Permutation (f_cols X1) (f_cols X2)
  /\ (forall f, In f (f_cols X1) -> str_in f (f_num X1) = str_in f (f_num X2))
  /\ viewed (rearranged (f_cols X1) (f_cols X2)) (f_rows X1) (f_rows X2).

(** a model that reads its input by column names *)
Definition same_model {C V} (c1 c2 : list string) (h1 h2 : list C -> V) : Prop :=
  forall r1 r2, rearranged c1 c2 r1 r2 -> h1 r1 = h2 r2.

(** ** Means *)

Lemma repeated_In {A} n (l : list A) x : In x (repeated (S n) l) <-> In x l.
Proof.
  unfold repeated. rewrite in_concat. split.
  - intros (y & Hy & Hx). apply repeat_spec in Hy. subst y. exact Hx.
  - intros Hx. exists l. split; [left; reflexivity|exact Hx].
Qed.
Lemma repeated_mean {A} n (l : list A) (f : A -> R) : Rmean (map f (repeated (S n) l)) = Rmean (map f l).
Proof.
  destruct l as [|a l'] eqn:El.
  - unfold repeated. induction n as [|n IH]; [reflexivity|]. exact IH.
  - rewrite <- El. assert (Hl : l <> []) by (rewrite El; discriminate). clear El.
    assert (E : Rsum (map f (repeated (S n) l)) = (INR (S n) * Rsum (map f l))%R /\ INR (length (map f (repeated (S n) l))) = (INR (S n) * INR (length (map f l)))%R).
    { induction n as [|n [IH1 IH2]]; [unfold repeated; cbn [repeat concat]; rewrite app_nil_r; cbn [INR]; lra|].
      change (repeated (S (S n)) l) with (l ++ repeated (S n) l). rewrite map_app, Rsum_app, app_length, plus_INR, IH1, IH2, !(S_INR (S n)). lra. }
    destruct E as [E1 E2]. unfold Rmean. rewrite E1, E2.
    assert (0 < INR (S n))%R by (apply lt_0_INR; lia). assert (0 < INR (length (map f l)))%R by (apply INR_pos_length; destruct l; [congruence|discriminate]). field. lra.
Qed.
Lemma mean_view {A B} (P : A -> B -> Prop) rows1 rows2 (f : A -> R) (g : B -> R) : viewed P rows1 rows2 ->
  (forall a b, In a rows1 -> In b rows2 -> P a b -> f a = g b) -> Rmean (map f rows1) = Rmean (map g rows2).
Proof.
  intros (m & n & l1 & l2 & H1 & HF & H2) Hfg. rewrite <- (repeated_mean m rows1), <- (repeated_mean n rows2).
  rewrite (Rmean_perm _ _ (Permutation_map f H1)), <- (Rmean_perm _ _ (Permutation_map g H2)). f_equal.
  assert (I1 : forall a, In a l1 -> In a rows1) by (intros a Ha; apply (repeated_In m), (Permutation_in _ (Permutation_sym H1)), Ha).
  assert (I2 : forall b, In b l2 -> In b rows2) by (intros b Hb; apply (repeated_In n), (Permutation_in _ H2), Hb).
  clear -HF Hfg I1 I2. induction HF as [|a b l1 l2 Hab HF IH]; [reflexivity|]. cbn [map]. f_equal; [apply Hfg; cbn in *; auto|]. apply IH; intros; cbn in *; auto.
Qed.
Lemma view_l {A B} (P : A -> B -> Prop) rows1 rows2 a : viewed P rows1 rows2 -> In a rows1 -> exists b, In b rows2 /\ P a b.
Proof.
  intros (m & n & l1 & l2 & H1 & HF & H2) Ha. apply (repeated_In m) in Ha. apply (Permutation_in _ H1) in Ha.
  destruct (Forall2_In_l _ _ _ HF a Ha) as (b & Hb & HP). exists b. split; [|exact HP]. apply (repeated_In n), (Permutation_in _ H2), Hb.
Qed.
Lemma view_r {A B} (P : A -> B -> Prop) rows1 rows2 b : viewed P rows1 rows2 -> In b rows2 -> exists a, In a rows1 /\ P a b.
Proof.
  intros (m & n & l1 & l2 & H1 & HF & H2) Hb. apply (repeated_In n) in Hb. apply (Permutation_in _ (Permutation_sym H2)) in Hb.
  destruct (Forall2_In_r _ _ _ HF b Hb) as (a & Ha & HP). exists a. split; [|exact HP]. apply (repeated_In m), (Permutation_in _ (Permutation_sym H1)), Ha.
Qed.
Lemma view_nil {A B} (P : A -> B -> Prop) rows1 rows2 : viewed P rows1 rows2 -> rows1 = [] <-> rows2 = [].
Proof.
  intros H. split; intros ->.
  - destruct rows2 as [|b t]; [reflexivity|]. destruct (view_r P [] (b :: t) b H (or_introl eq_refl)) as (a & [] & _).
  - destruct rows1 as [|a t]; [reflexivity|]. destruct (view_l P (a :: t) [] a H (or_introl eq_refl)) as (b & [] & _).
Qed.
Lemma viewed_refl {A} (P : A -> A -> Prop) rows : (forall a, In a rows -> P a a) -> viewed P rows rows.
Proof.
  intros H. exists 0, 0, (repeated 1 rows), (repeated 1 rows). split; [reflexivity|]. split; [|reflexivity].
  assert (H' : forall a, In a (repeated 1 rows) -> P a a) by (intros a Ha; apply H, (repeated_In 0), Ha). revert H'. generalize (repeated 1 rows). clear.
  induction l as [|a l IH]; intros H; constructor; [apply H; left; reflexivity|apply IH; intros; apply H; right; assumption].
Qed.

(** ** Division and H-statistics *)
Lemma x_div_scale k a b : (0 < k)%R -> n_div xR (Fin (k * a)%R) (Fin (k * b)%R) = n_div xR (Fin a) (Fin b).
Proof.
  intros Hk. assert (Hs : forall x, f_sgn baseR (k * x)%R = f_sgn baseR x).
  { intros x. destruct (Rtotal_order x 0) as [H|[->|H]].
    - rewrite !sgn_neg; [reflexivity|exact H|]. rewrite <- (Rmult_0_r k). apply Rmult_lt_compat_l; assumption.
    - rewrite Rmult_0_r. reflexivity.
    - rewrite !sgn_pos; [reflexivity|exact H|]. apply Rmult_lt_0_compat; assumption. }
  assert (Hb : b <> 0%R -> (k * a / (k * b) = a / b)%R) by (intros; field; lra).
  cbn [n_div xR ext_ops x_div]. rewrite !Hs. destruct (sgn_cases b) as [[-> H]|[[-> H]|[-> H]]]; try reflexivity; cbn [f_div baseR]; f_equal; apply Hb; lra.
Qed.

Lemma Rsum_mean {A} (f : A -> R) l : Rsum (map f l) = (INR (length l) * Rmean (map f l))%R.
Proof.
  unfold Rmean. rewrite map_length. destruct l as [|a t]; [cbn; rewrite Rsum_nil; lra|]. assert (0 < INR (length (a :: t)))%R by (apply INR_pos_length; discriminate). field. lra.
Qed.

Section View.
  Context {A B : Type} (P : A -> B -> Prop) (rows1 : list A) (rows2 : list B) (HV : viewed P rows1 rows2).
  Notation agree f g := (forall a b, In a rows1 -> In b rows2 -> P a b -> f a = g b).

  Lemma dev_view (f : A -> R) (g : B -> R) : agree f g -> agree (rdev rows1 f) (rdev rows2 g).
  Proof. intros H a b Ha Hb Hab. unfold rdev. rewrite (H a b Ha Hb Hab), (mean_view P rows1 rows2 f g HV H). reflexivity. Qed.

  Lemma sum_view (f : A -> R) (g : B -> R) : agree f g -> exists x, Rsum (map f rows1) = (INR (length rows1) * x)%R /\ Rsum (map g rows2) = (INR (length rows2) * x)%R.
  Proof. intros H. exists (Rmean (map f rows1)). split; [apply Rsum_mean|]. rewrite (mean_view P rows1 rows2 f g HV H). apply Rsum_mean. Qed.
  Lemma ratio_view (f1 f2 : A -> R) (g1 g2 : B -> R) : agree f1 g1 -> agree f2 g2 ->
    n_div xR (Fin (Rsum (map f1 rows1))) (Fin (Rsum (map f2 rows1))) = n_div xR (Fin (Rsum (map g1 rows2))) (Fin (Rsum (map g2 rows2))).
  Proof.
    intros H1 H2. destruct (sum_view f1 g1 H1) as (x & -> & ->). destruct (sum_view f2 g2 H2) as (y & -> & ->).
    destruct rows1 as [|a t] eqn:E1.
    - destruct (view_nil P [] rows2) as [E _]; [exact HV|]. rewrite (E eq_refl). reflexivity.
    - destruct rows2 as [|b u] eqn:E2; [destruct (view_nil P (a :: t) []) as [_ E]; [exact HV|discriminate (E eq_refl)]|].
      rewrite !x_div_scale; [reflexivity|apply INR_pos_length; discriminate..].
  Qed.
End View.

Lemma H_view {C D} (P : list C -> list D -> Prop) rows1 rows2 norm f12 f1 f2 g12 g1 g2 h12 h1 h2 k12 k1 k2 : viewed P rows1 rows2 ->
  is_fin rows1 f12 h12 -> is_fin rows1 f1 h1 -> is_fin rows1 f2 h2 -> is_fin rows2 g12 k12 -> is_fin rows2 g1 k1 -> is_fin rows2 g2 k2 ->
  (forall a b, In a rows1 -> In b rows2 -> P a b -> h12 a = k12 b) -> (forall a b, In a rows1 -> In b rows2 -> P a b -> h1 a = k1 b) ->
  (forall a b, In a rows1 -> In b rows2 -> P a b -> h2 a = k2 b) ->
  H_value xR rows1 norm f12 f1 f2 = H_value xR rows2 norm g12 g1 g2.
Proof.
  intros HV F12 F1 F2 G12 G1 G2 E12 E1 E2. rewrite (H_value_fin rows1 norm _ _ _ _ _ _ F12 F1 F2), (H_value_fin rows2 norm _ _ _ _ _ _ G12 G1 G2).
  pose proof (dev_view P rows1 rows2 HV _ _ E12) as D12. pose proof (dev_view P rows1 rows2 HV _ _ E1) as D1. pose proof (dev_view P rows1 rows2 HV _ _ E2) as D2.
  assert (En : forall a b, In a rows1 -> In b rows2 -> P a b -> Rsqr (rdev rows1 h12 a - rdev rows1 h1 a - rdev rows1 h2 a) = Rsqr (rdev rows2 k12 b - rdev rows2 k1 b - rdev rows2 k2 b)).
  { intros a b Ha Hb Hab. rewrite (D12 a b), (D1 a b), (D2 a b) by assumption. reflexivity. }
  destruct norm.
  - apply (ratio_view P rows1 rows2 HV); [exact En|]. intros a b Ha Hb Hab. rewrite (D12 a b) by assumption. reflexivity.
  - f_equal. assert (EL : forall (T : Type) (l : list T), INR (length l) = Rsum (map (fun _ => 1%R) l)) by (intros; rewrite Rsum_map_const; lra).
    rewrite !EL. apply (ratio_view P rows1 rows2 HV); [exact En|reflexivity].
Qed.

(** ** Rearranged rows *)
Section Rearranged.
  Context {C : Type} (c1 c2 : list string) (N1 : NoDup c1) (N2 : NoDup c2) (HP : Permutation c1 c2).

  Lemma rearranged_with (r1 r2 : list C) f p q v : rearranged c1 c2 r1 r2 -> nth_error c1 p = Some f -> nth_error c2 q = Some f ->
    rearranged c1 c2 (with_value p v r1) (with_value q v r2).
  Proof.
    intros (L1 & L2 & H) Hp Hq. assert (Lp : p < length r1) by (rewrite L1; apply nth_error_Some; congruence). assert (Lq : q < length r2) by (rewrite L2; apply nth_error_Some; congruence).
    split; [rewrite with_value_length; assumption|]. split; [rewrite with_value_length; assumption|]. intros g i j Hi Hj.
    rewrite !with_value_nth by assumption. destruct (Nat.eqb_spec i p) as [->|Hip].
    - assert (f = g) by congruence. subst g. assert (j = q) by (apply (proj1 (NoDup_nth_error c2) N2); [apply nth_error_Some; congruence|congruence]). subst j. rewrite Nat.eqb_refl. reflexivity.
    - destruct (Nat.eqb_spec j q) as [->|Hjq]; [|eapply H; eassumption]. exfalso. apply Hip. assert (f = g) by congruence. subst g.
      apply (proj1 (NoDup_nth_error c1) N1); [apply nth_error_Some; congruence|congruence].
  Qed.
  Lemma rearranged_refl c (r : list C) : NoDup c -> length r = length c -> rearranged c c r r.
  Proof. intros Hnd L. split; [exact L|]. split; [exact L|]. intros f p q Hp Hq. f_equal. apply (proj1 (NoDup_nth_error c) Hnd); [apply nth_error_Some; congruence|congruence]. Qed.

  Context (rows1 rows2 : list (list C)) (HV : viewed (rearranged c1 c2) rows1 rows2) (h1 h2 : list C -> R) (Hh : same_model c1 c2 h1 h2).
  Context (W1 : forall r, In r rows1 -> length r = length c1) (W2 : forall r, In r rows2 -> length r = length c2).

  Lemma PD1_view f p q v : nth_error c1 p = Some f -> nth_error c2 q = Some f -> PD1 Rmean h1 rows1 p v = PD1 Rmean h2 rows2 q v.
  Proof. intros Hp Hq. apply (mean_view _ _ _ _ _ HV). intros a b _ _ Hab. apply Hh. eapply rearranged_with; eassumption. Qed.
  Lemma PD2_view f g p q p' q' v u : nth_error c1 p = Some f -> nth_error c2 p' = Some f -> nth_error c1 q = Some g -> nth_error c2 q' = Some g ->
    PD2 Rmean h1 rows1 p q v u = PD2 Rmean h2 rows2 p' q' v u.
  Proof. intros Hp Hp' Hq Hq'. apply (mean_view _ _ _ _ _ HV). intros a b _ _ Hab. apply Hh. eapply rearranged_with; [|eassumption..]. eapply rearranged_with; eassumption. Qed.
  Lemma RPD1_view f p q a b : nth_error c1 p = Some f -> nth_error c2 q = Some f -> rearranged c1 c2 a b -> RPD1_at rows1 h1 p a = RPD1_at rows2 h2 q b.
  Proof. intros Hp Hq (_ & _ & H). unfold RPD1_at. rewrite (H f p q Hp Hq). destruct (nth_error b q); [|reflexivity]. eapply PD1_view; eassumption. Qed.
  Lemma RPD2_view f g p q p' q' a b : nth_error c1 p = Some f -> nth_error c2 p' = Some f -> nth_error c1 q = Some g -> nth_error c2 q' = Some g -> rearranged c1 c2 a b ->
    RPD2_at rows1 h1 p q a = RPD2_at rows2 h2 p' q' b.
  Proof.
    intros Hp Hp' Hq Hq' (_ & _ & H). unfold RPD2_at. rewrite (H f p p' Hp Hp'), (H g q q' Hq Hq'). destruct (nth_error b p'); [|reflexivity]. destruct (nth_error b q'); [|reflexivity]. eapply PD2_view; eassumption.
  Qed.
  Lemma RPDminus_view f p q a b : nth_error c1 p = Some f -> nth_error c2 q = Some f -> rearranged c1 c2 a b -> RPDminus rows1 h1 p a = RPDminus rows2 h2 q b.
  Proof.
    intros Hp Hq Hab. apply (mean_view _ _ _ _ _ HV). intros r s _ _ (_ & _ & H). rewrite (H f p q Hp Hq). destruct (nth_error s q); [|reflexivity]. apply Hh. eapply rearranged_with; eassumption.
  Qed.

  Lemma lt_of {T} (c : list T) p x : nth_error c p = Some x -> p < length c. Proof. intros H. apply nth_error_Some. congruence. Qed.

  Lemma H_pair_view norm f g p q p' q' : nth_error c1 p = Some f -> nth_error c2 p' = Some f -> nth_error c1 q = Some g -> nth_error c2 q' = Some g ->
    H_pair xR (fun r => Fin (h1 r)) rows1 norm p q = H_pair xR (fun r => Fin (h2 r)) rows2 norm p' q'.
  Proof.
    intros Hp Hp' Hq Hq'. unfold H_pair. pose proof (lt_of _ _ _ Hp). pose proof (lt_of _ _ _ Hp'). pose proof (lt_of _ _ _ Hq). pose proof (lt_of _ _ _ Hq').
    eapply (H_view (rearranged c1 c2)); [exact HV|eapply PD2_at_fin; eauto|eapply PD1_at_fin; eauto|eapply PD1_at_fin; eauto|eapply PD2_at_fin; eauto|eapply PD1_at_fin; eauto|eapply PD1_at_fin; eauto|..].
    - intros a b _ _ Hab. eapply RPD2_view; eassumption.
    - intros a b _ _ Hab. eapply RPD1_view; eassumption.
    - intros a b _ _ Hab. eapply RPD1_view; eassumption.
  Qed.
  Lemma H_all_view norm f p q : nth_error c1 p = Some f -> nth_error c2 q = Some f ->
    H_all xR (fun r => Fin (h1 r)) rows1 norm p = H_all xR (fun r => Fin (h2 r)) rows2 norm q.
  Proof.
    intros Hp Hq. unfold H_all. pose proof (lt_of _ _ _ Hp). pose proof (lt_of _ _ _ Hq).
    eapply (H_view (rearranged c1 c2)); [exact HV|intros r _; reflexivity|eapply PD1_at_fin; eauto|eapply PDminus_at_fin; eauto|intros r _; reflexivity|eapply PD1_at_fin; eauto|eapply PDminus_at_fin; eauto|..].
    - intros a b _ _ Hab. apply Hh, Hab.
    - intros a b _ _ Hab. eapply RPD1_view; eassumption.
    - intros a b _ _ Hab. eapply RPDminus_view; eassumption.
  Qed.

  Lemma col_view f p q v : nth_error c1 p = Some f -> nth_error c2 q = Some f -> In v (col_at p rows1) <-> In v (col_at q rows2).
  Proof.
    intros Hp Hq. rewrite !col_at_In. split; intros (r & Hr & Hv).
    - destruct (view_l _ _ _ r HV Hr) as (s & Hs & (_ & _ & H)). exists s. split; [exact Hs|]. rewrite <- (H f p q Hp Hq). exact Hv.
    - destruct (view_r _ _ _ r HV Hr) as (s & Hs & (_ & _ & H)). exists s. split; [exact Hs|]. rewrite (H f p q Hp Hq). exact Hv.
  Qed.

  Lemma variation_view : n_div xR (Fin (unexplained rows1 (length c1) h1)) (Fin (variation rows1 h1)) = n_div xR (Fin (unexplained rows2 (length c2) h2)) (Fin (variation rows2 h2)).
  Proof.
    assert (Em : Rmean (map h1 rows1) = Rmean (map h2 rows2)) by (apply (mean_view _ _ _ _ _ HV); intros a b _ _ Hab; apply Hh, Hab).
    apply (ratio_view _ _ _ HV).
    - intros a b Ha Hb Hab. rewrite (Hh a b Hab), Em. f_equal. f_equal. unfold effects. rewrite Em.
      set (e2 := fun q => (RPD1_at rows2 h2 q b - Rmean (map h2 rows2))%R).
      assert (HQ : forall p, p < length c1 -> exists q, q < length c2 /\ exists f, nth_error c1 p = Some f /\ nth_error c2 q = Some f).
      { intros p Hlt. destruct (nth_error c1 p) as [f|] eqn:Ef; [|apply nth_error_None in Ef; lia]. assert (Hin : In f c2) by (apply (Permutation_in _ HP); eapply nth_error_In, Ef).
        apply In_nth_error in Hin as (q & Hq). exists q. split; [apply (lt_of _ _ _ Hq)|]. exists f. auto. }
      (* both sums run over the names of the columns *)
      assert (HN : forall (c : list string) (F : string -> R) (e : nat -> R), (forall p f, nth_error c p = Some f -> e p = F f) -> map e (seq 0 (length c)) = map F c).
      { clear. intros c F e. assert (G : forall k, (forall p f, nth_error c p = Some f -> e (k + p) = F f) -> map e (seq k (length c)) = map F c); [|intros H; apply (G 0); exact H].
        induction c as [|f c IH]; intros k H; [reflexivity|]. cbn [length seq map]. f_equal; [rewrite <- (H 0 f eq_refl); f_equal; lia|]. apply IH. intros p g Hg. rewrite <- (H (S p) g Hg). f_equal. lia. }
      set (F := fun f => match col_pos c2 f with Some q => e2 q | None => 0%R end).
      assert (EF : forall q f, nth_error c2 q = Some f -> F f = e2 q) by (intros q f Hq; unfold F; rewrite (col_pos_NoDup c2 f q N2 Hq); reflexivity).
      rewrite (HN c1 F), (HN c2 F).
      + apply Rsum_perm, Permutation_map, HP.
      + intros q f Hq. symmetry. apply EF, Hq.
      + intros p f Hp. destruct (HQ p (lt_of _ _ _ Hp)) as (q & _ & f' & Hf & Hq). assert (f' = f) by congruence. subst f'. rewrite (EF q f Hq). unfold e2. f_equal. eapply RPD1_view; eassumption.
    - intros a b _ _ Hab. rewrite (Hh a b Hab), Em. reflexivity.
  Qed.
End Rearranged.

(** ** Distinct values *)
Lemma sorted_ext {C} (O : cell_ops C) (HO : cell_ok O) (l1 l2 : list C) :
  StronglySorted (fun a b => c_ltb O a b = true) l1 -> StronglySorted (fun a b => c_ltb O a b = true) l2 -> (forall v, In v l1 <-> In v l2) -> l1 = l2.
Proof.
  intros H1. revert l2. induction H1 as [|x t Hs IH Hf]; intros l2 H2 HI.
  - destruct l2 as [|y u]; [reflexivity|]. destruct (proj2 (HI y) (or_introl eq_refl)).
  - destruct H2 as [|y u Hs2 Hf2]; [destruct (proj1 (HI x) (or_introl eq_refl))|]. rewrite Forall_forall in Hf, Hf2.
    assert (x = y).
    { destruct (proj1 (HI x) (or_introl eq_refl)) as [E|Hx]; [auto|]. destruct (proj2 (HI y) (or_introl eq_refl)) as [E|Hy]; [auto|].
      pose proof (ce_trans O HO _ _ _ (Hf y Hy) (Hf2 x Hx)) as E. rewrite (ce_irrefl O HO) in E. discriminate. }
    subst y. f_equal. apply IH; [exact Hs2|]. intros v. split; intros Hv.
    + destruct (proj1 (HI v) (or_intror Hv)) as [E|Hv']; [|exact Hv']. subst v. specialize (Hf x Hv). rewrite (ce_irrefl O HO) in Hf. discriminate.
    + destruct (proj2 (HI v) (or_intror Hv)) as [E|Hv']; [|exact Hv']. subst v. specialize (Hf2 x Hv). rewrite (ce_irrefl O HO) in Hf2. discriminate.
Qed.
Lemma unique_ext {C} (O : cell_ops C) (HO : cell_ok O) (l1 l2 : list C) : (forall v, In v l1 -> c_isnan O v = false) -> (forall v, In v l1 <-> In v l2) -> np_unique O l1 = np_unique O l2.
Proof.
  intros Hn HI. assert (Hn2 : forall v, In v l2 -> c_isnan O v = false) by (intros v Hv; apply Hn, HI, Hv).
  apply (sorted_ext O HO); [apply np_unique_sorted; assumption|apply np_unique_sorted; assumption|]. intros v. split; intros Hv; pose proof (np_unique_sub O HO _ _ Hv) as Hin.
  - apply (np_unique_In O HO); [apply Hn, Hin|apply HI, Hin].
  - apply (np_unique_In O HO); [apply Hn2, Hin|apply HI, Hin].
Qed.
Lemma Rgreenwell_ext {C} n1 n2 (F G : C -> C -> R) gp gq : (forall v u, F v u = G v u) -> Rgreenwell n1 n2 F gp gq = Rgreenwell n1 n2 G gp gq.
Proof.
  intros H. unfold Rgreenwell. f_equal. f_equal; f_equal; apply map_ext; intros v; f_equal; apply map_ext; intros u; apply H.
Qed.
Lemma Rgreenwell_swap {C} n1 n2 (F G : C -> C -> R) gp gq : (forall v u, F v u = G u v) -> Rgreenwell n1 n2 F gp gq = Rgreenwell n2 n1 G gq gp.
Proof.
  intros H. unfold Rgreenwell. rewrite Rplus_comm. f_equal. f_equal; f_equal; apply map_ext; intros v; f_equal; apply map_ext; intros u; apply H.
Qed.
