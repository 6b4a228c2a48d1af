(** C122: the numbers printed in the correlation box; C123: the numbers printed on the edges of the
    interaction graph. *)
From Verif Require Import Py Num NumR Sorting Frame SplitScore Comparator Props_Split Props_Compare Printed SplitFacts Props_Ranks.
From Verif Require Import PdCalc PdMethods PdMethodReal Props_Pd Props_Methods Props_Methods2 Visual Props_EndToEnd Props_EndToEnd5.
From Verif Require CompareFacts.
From Coq Require Import Reals Lra QArith Ascii.
Open Scope string_scope.
Open Scope nat_scope.
Open Scope list_scope.

(** ** Rounding to the nearest integer *)
Section Rint.
  Open Scope R_scope.
  Lemma Rabs_def2' a b : Rabs a <= b -> - b <= a <= b.
  Proof. intros H. unfold Rabs in H. destruct (Rcase_abs a); lra. Qed.
  Lemma rint_near x : Rabs (IZR (rint x) - x) <= 1 / 2.
  Proof.
    unfold rint. destruct (archimed x) as [A1 A2]. assert (F : IZR (up x - 1) = IZR (up x) - 1) by apply minus_IZR.
    destruct (Rlt_dec _ _) as [H|H]; [|destruct (Rlt_dec _ _) as [H'|H']; [|destruct (Z.even _)]]; rewrite ?plus_IZR, ?F in *; apply Rabs_le; lra.
  Qed.
  Lemma rint_Z z : rint (IZR z) = z.
  Proof. pose proof (rint_near (IZR z)) as H. rewrite <- minus_IZR, <- abs_IZR in H. assert (HZ : (Z.abs (rint (IZR z) - z) < 1)%Z) by (apply lt_IZR; lra). lia. Qed.
  (** the direction of ties is determined by parity *)
  Lemma rint_tie x : Rabs (IZR (rint x) - x) = 1 / 2 -> Z.even (rint x) = true.
  Proof.
    unfold rint. destruct (archimed x) as [A1 A2]. assert (F : IZR (up x - 1) = IZR (up x) - 1) by apply minus_IZR.
    destruct (Rlt_dec _ _) as [H|H]; [|destruct (Rlt_dec _ _) as [H'|H']; [|destruct (Z.even (up x - 1)) eqn:E]]; rewrite ?plus_IZR, ?F in *; intros HA; try exact E.
    - exfalso. unfold Rabs in HA. destruct (Rcase_abs _); lra.
    - exfalso. unfold Rabs in HA. destruct (Rcase_abs _); lra.
    - rewrite Z.even_add, E. reflexivity.
  Qed.
  Lemma rint_mono x y : x <= y -> (rint x <= rint y)%Z.
  Proof.
    intros H. pose proof (rint_near x) as Hx. pose proof (rint_near y) as Hy. apply Rabs_def2' in Hx. apply Rabs_def2' in Hy.
    destruct (Z_le_gt_dec (rint x) (rint y)) as [|G]; [assumption|exfalso].
    assert (G' : IZR (rint y) + 1 <= IZR (rint x)) by (rewrite <- (plus_IZR _ 1); apply IZR_le; lia).
    (* both are ties, of neighbouring integers *)
    assert (Ex : IZR (rint x) - x = 1 / 2) by lra. assert (Ey : IZR (rint y) - y = - (1 / 2)) by lra. assert (E : rint x = (rint y + 1)%Z) by (apply eq_IZR; rewrite plus_IZR; lra).
    assert (Tx : Z.even (rint x) = true) by (apply rint_tie; rewrite Ex, Rabs_right; lra). assert (Ty : Z.even (rint y) = true) by (apply rint_tie; rewrite Ey, Rabs_left; lra).
    rewrite E, Z.even_add, Ty in Tx. discriminate.
  Qed.
End Rint.

Section Round.
  Open Scope R_scope.
  Lemma ten_pos d : 0 < 10 ^ d. Proof. apply pow_lt. lra. Qed.
  Lemma np_round_near d x : Rabs (np_round d x - x) <= / (2 * 10 ^ d).
  Proof.
    unfold np_round. pose proof (ten_pos d) as H. pose proof (rint_near (x * 10 ^ d)) as Hr.
    replace (IZR (rint (x * 10 ^ d)) / 10 ^ d - x) with ((IZR (rint (x * 10 ^ d)) - x * 10 ^ d) / 10 ^ d) by (field; lra).
    unfold Rdiv. rewrite Rabs_mult, (Rabs_right (/ 10 ^ d)) by (apply Rle_ge, Rlt_le, Rinv_0_lt_compat, H).
    rewrite Rinv_mult. apply Rmult_le_compat_r; [apply Rlt_le, Rinv_0_lt_compat, H|]. lra.
  Qed.
  Lemma np_round_mono d x y : x <= y -> np_round d x <= np_round d y.
  Proof.
    intros Hxy. unfold np_round. pose proof (ten_pos d) as H. apply Rmult_le_compat_r; [apply Rlt_le, Rinv_0_lt_compat, H|]. apply IZR_le, rint_mono. apply Rmult_le_compat_r; lra.
  Qed.
  Lemma np_round_decimal d z : np_round d (IZR z / 10 ^ d) = IZR z / 10 ^ d.
  Proof. unfold np_round. pose proof (ten_pos d) as H. replace (IZR z / 10 ^ d * 10 ^ d) with (IZR z) by (field; lra). rewrite rint_Z. reflexivity. Qed.
  Lemma np_round_1 d : np_round d 1 = 1.
  Proof. pose proof (ten_pos d) as H. replace 1 with (IZR (10 ^ Z.of_nat d) / 10 ^ d) at 1; [rewrite np_round_decimal|]; rewrite <- pow_IZR; field; lra. Qed.
  Lemma np_round_opp1 d : np_round d (-1) = -1.
  Proof. pose proof (ten_pos d) as H. replace (-1) with (IZR (- 10 ^ Z.of_nat d) / 10 ^ d) at 1; [rewrite np_round_decimal|]; rewrite opp_IZR, <- pow_IZR; field; lra. Qed.
End Round.

(** ** C122 *)
Lemma classic_order {V} (t1 t2 : list (string * string * V)) : same_order t1 t2 \/ ~ same_order t1 t2.
Proof.
  revert t2. induction t1 as [|r t1 IH]; intros [|r' t2]; [left; constructor|right; intros H; inversion H|right; intros H; inversion H|].
  destruct (CompareFacts.same_pairb (fst (fst r)) (snd (fst r)) (fst (fst r')) (snd (fst r'))) eqn:E.
  - apply CompareFacts.same_pairb_iff in E. destruct (IH t2) as [H|H]; [left; constructor; assumption|right; intros H'; inversion H'; contradiction].
  - right. intros H. inversion H as [|? ? ? ? H0 _]; subst. apply CompareFacts.same_pairb_iff in H0. congruence.
Qed.
(** the lines of the box: the three correlations of the methods, to three digits *)
Theorem C122_box df (m1 m2 : mview (ext R)) p : snd (summary xR df m1 m2) = Ok p ->
  exists c lines, cp_box p = Some c /\ box_lines c = Ok lines /\ map fst lines = ["Pearson"; "Kendall"; "Spearman"]
    /\ Forall2 (fun l m => exists v, correlation xR m1 m2 m = Ok v
         /\ ((v = NaN /\ snd l = NaN) \/ exists x y, v = Fin x /\ snd l = Fin y /\ (Rabs (y - x) <= 1 / 2000 /\ -1 <= y <= 1)%R)) lines ["pearson"; "kendall"; "spearman"].
Proof.
  intros H. destruct (C53_summary_partial xR df m1 m2 p H) as (c & Ec & Eb & _). unfold correlations in Ec. cbn [mapM correlation_methods] in Ec.
  destruct (correlation xR m1 m2 "pearson") as [v1|] eqn:E1; [|discriminate]. destruct (correlation xR m1 m2 "kendall") as [v2|] eqn:E2; [|discriminate]. destruct (correlation xR m1 m2 "spearman") as [v3|] eqn:E3; [|discriminate].
  cbn [bind] in Ec. assert (Ec' : c = [("pearson", v1); ("kendall", v2); ("spearman", v3)]) by congruence. subst c.
  exists [("pearson", v1); ("kendall", v2); ("spearman", v3)], [("Pearson", printed 3 v1); ("Kendall", printed 3 v2); ("Spearman", printed 3 v3)].
  split; [exact Eb|]. split; [reflexivity|]. split; [reflexivity|].
  assert (G : forall m v, In m correlation_methods -> correlation xR m1 m2 m = Ok v ->
    (v = NaN /\ printed 3 v = NaN) \/ exists x y, v = Fin x /\ printed 3 v = Fin y /\ (Rabs (y - x) <= 1 / 2000 /\ -1 <= y <= 1)%R).
  { intros m v Hm E. destruct (C50_bounded m1 m2 m v Hm E) as [->|(x & -> & Hx)]; [left; auto|right]. exists x, (np_round 3 x). split; [reflexivity|]. split; [reflexivity|].
    split; [|split; [rewrite <- (np_round_opp1 3)|rewrite <- (np_round_1 3)]; apply np_round_mono; lra]. eapply Rle_trans; [apply np_round_near|]. lra. }
  repeat constructor; cbn [snd]; [exists v1|exists v2|exists v3]; (split; [assumption|]); eapply G; try eassumption; cbn; auto.
Qed.

(** 1.0 in the box means the same ranking, if there are few pairs: 89 for Kendall (13 features),
    28 for the others (8 features) *)
Theorem C122_one_partial (m1 m2 : mview (ext R)) t1 t2 c v : mv_compare m1 = Ok t1 -> mv_compare m2 = Ok t2 -> rankings t1 t2 -> 2 <= length t1 -> In c correlation_methods ->
  length t1 <= (if String.eqb c "kendall" then 89 else 28) -> correlation xR m1 m2 c = Ok v -> (printed 3 v = Fin 1%R <-> same_order t1 t2).
Proof.
  intros E1 E2 Hr Hn Hc Hl E. destruct (C121_same_order_partial m1 m2 t1 t2 c E1 E2 Hr Hn Hc) as (r & Er & H1 & H2). rewrite Er in E. assert (E' : v = Fin r) by congruence. subst v. cbn [printed]. split.
  - intros Ep. assert (Ep' : np_round 3 r = 1%R) by congruence. destruct (classic_order t1 t2) as [Ho|Ho]; [exact Ho|]. specialize (H2 Ho). exfalso.
    pose proof (np_round_near 3 r) as Hx. rewrite Ep' in Hx. apply Rabs_def2' in Hx.
    assert (Hg : (/ (2 * 10 ^ 3) < gap c (length t1))%R).
    { assert (Hi : (2 <= INR (length t1))%R) by (apply (le_INR 2), Hn). apply le_INR in Hl. unfold gap. destruct (String.eqb c "kendall").
      - replace (INR 89) with 89%R in Hl by (cbn; lra). apply (Rmult_lt_reg_r (INR (length t1) * (INR (length t1) - 1))%R); [nra|]. unfold Rdiv. rewrite (Rmult_assoc 4), Rinv_l by nra. nra.
      - replace (INR 28) with 28%R in Hl by (cbn; lra). assert (HP : (INR (length t1) * INR (length t1) <= 784)%R) by nra.
        apply (Rmult_lt_reg_r (INR (length t1) * (INR (length t1) * INR (length t1) - 1))%R); [nra|]. unfold Rdiv. rewrite (Rmult_assoc 12), Rinv_l by nra. nra. }
    lra.
  - intros Ho. rewrite (proj2 H1 Ho), np_round_1. reflexivity.
Qed.

(** with 14 features one exchange of neighbours is not visible in any of the three numbers *)
Definition many_names : list string := ["a"; "b"; "c"; "d"; "e"; "f"; "g"; "h"; "i"; "j"; "k"; "l"; "m"; "n"].
Definition ranked (l : list (string * string)) : list (string * string * ext R) := map (fun p => (p, Fin 1%R)) l.
Definition swap2 {A} (l : list A) : list A := match l with x :: y :: t => y :: x :: t | _ => l end.
Definition many1 := ranked (combinations2 many_names).
Definition many2 := ranked (swap2 (combinations2 many_names)).

Fixpoint fop_b {A} (f : A -> A -> bool) (l : list A) : bool := match l with [] => true | x :: t => forallb (f x) t && fop_b f t end.
Lemma fop_b_ok {A} (f : A -> A -> bool) (P : A -> A -> Prop) l : (forall x y, f x y = true -> P x y) -> fop_b f l = true -> ForallOrdPairs P l.
Proof.
  intros H. induction l as [|x l IH]; [constructor|]. cbn. intros E. apply andb_true_iff in E as [E1 E2]. constructor; [|apply IH, E2]. rewrite forallb_forall in E1. rewrite Forall_forall. intros y Hy. apply H, E1, Hy.
Qed.
Lemma once_b l : fop_b (fun p q => negb (CompareFacts.same_pairb (fst p) (snd p) (fst q) (snd q))) l = true -> each_once (ranked l).
Proof.
  intros E. apply (fop_b_ok _ (fun p q => ~ CompareFacts.same_pair (fst p) (snd p) (fst q) (snd q))) in E.
  - unfold each_once, ranked. induction E as [|x l Hx E IH]; [constructor|]. cbn [map]. constructor; [|exact IH]. rewrite Forall_forall in *. intros y Hy. apply in_map_iff in Hy as (q & <- & Hq). apply Hx, Hq.
  - intros p q H Hs. apply negb_true_iff in H. apply CompareFacts.same_pairb_iff in Hs. congruence.
Qed.
Lemma plain_b l : forallb (fun p => no_dash (fst p) && no_dash (snd p)) l = true -> plain_names (ranked l).
Proof.
  intros E r Hr. apply in_map_iff in Hr as (p & <- & Hp). rewrite forallb_forall in E. apply E, andb_true_iff in Hp. exact Hp.
Qed.
Lemma exact_pearson xs ys n : 2 <= n -> Permutation xs (seq 0 n) -> Permutation ys (seq 0 n) -> Rcosine (vector "pearson" xs) (vector "pearson" ys) = Fin (1 - IZR (Zdist xs ys) / (2 * spread n))%R.
Proof.
  intros Hn Hx Hy. assert (HP : Permutation xs ys) by (etransitivity; [exact Hx|symmetry; exact Hy]). assert (Hi : (2 <= INR n)%R) by (apply (le_INR 2), Hn).
  change (vector "pearson" xs) with (Rcenter (map INR xs)). change (vector "pearson" ys) with (Rcenter (map INR ys)).
  pose proof (spread_codes xs n ltac:(lia) Hx) as A. pose proof (spread_codes ys n ltac:(lia) Hy) as A'. set (D := spread n) in *. assert (HD : (0 < D)%R) by (unfold D, spread; nra).
  rewrite (Rcosine_equal _ _ D A A' HD). f_equal.
  pose proof (Rdot_diff (Rcenter (map INR xs)) (Rcenter (map INR ys)) ltac:(rewrite !Rcenter_length, !map_length; apply Permutation_length, HP)) as E. rewrite A, A' in E.
  rewrite !Rcenter_map, (Rmean_perm _ _ (Permutation_map INR HP)), Zdist_R in E. rewrite E, !Rcenter_map, (Rmean_perm _ _ (Permutation_map INR HP)). field. lra.
Qed.
Lemma exact_kendall xs ys n : 2 <= n -> Permutation xs (seq 0 n) -> Permutation ys (seq 0 n) -> Rcosine (vector "kendall" xs) (vector "kendall" ys) = Fin (IZR (agree (combine xs ys)) / (INR n * (INR n - 1) / 2))%R.
Proof.
  intros Hn Hx Hy. assert (HP : Permutation xs ys) by (etransitivity; [exact Hx|symmetry; exact Hy]). assert (Hi : (2 <= INR n)%R) by (apply (le_INR 2), Hn).
  assert (Nx : NoDup xs) by (apply (Permutation_NoDup (Permutation_sym Hx)), seq_NoDup). assert (Ny : NoDup ys) by exact (Permutation_NoDup HP Nx).
  assert (HL : length xs = n) by (rewrite (Permutation_length Hx), seq_length; reflexivity). assert (HL' : length ys = n) by (rewrite (Permutation_length Hy), seq_length; reflexivity).
  destruct (pm_gap (signs xs) (signs ys) (signs_pm xs Nx) (signs_pm ys Ny) (signs_length xs ys ltac:(congruence))) as (A & _).
  destruct (pm_gap (signs ys) (signs xs) (signs_pm ys Ny) (signs_pm xs Nx) (signs_length ys xs ltac:(congruence))) as (A' & _).
  rewrite signs_number, HL in A. rewrite signs_number, HL' in A'. change (vector "kendall" xs) with (map IZR (signs xs)). change (vector "kendall" ys) with (map IZR (signs ys)).
  rewrite (Rcosine_equal _ _ _ A A') by nra. rewrite <- agree_dot, combine_map_fst, combine_map_snd by congruence. reflexivity.
Qed.
Lemma np_round_near_1 x : (1 - / 2000 < x <= 1)%R -> np_round 3 x = 1%R.
Proof.
  intros H. apply Rle_antisym; [rewrite <- (np_round_1 3); apply np_round_mono; lra|]. unfold np_round.
  assert (Hr : (999 < rint (x * 10 ^ 3))%Z) by (apply lt_IZR; pose proof (rint_near (x * 10 ^ 3)) as Hn; apply Rabs_def2' in Hn; lra).
  assert (Hr' : (1000 <= IZR (rint (x * 10 ^ 3)))%R) by (apply IZR_le; lia). lra.
Qed.
Theorem C122_one_refuted : exists m1 m2 t1 t2, mv_compare m1 = Ok t1 /\ mv_compare m2 = Ok t2 /\ rankings t1 t2 /\ ~ same_order t1 t2 /\ length t1 = 91
  /\ forall c, In c correlation_methods -> exists v, correlation xR m1 m2 c = Ok v /\ printed 3 v = Fin 1%R.
Proof.
  exists (view_of many1), (view_of many2), many1, many2. split; [reflexivity|]. split; [reflexivity|].
  assert (HR : rankings many1 many2).
  { constructor; [apply plain_b; vm_compute; reflexivity|apply plain_b; vm_compute; reflexivity|apply once_b; vm_compute; reflexivity|apply once_b; vm_compute; reflexivity|].
    assert (Hs : forall r, In r many1 <-> In r many2).
    { intros r. unfold many1, many2, ranked. rewrite !in_map_iff. assert (Hsw : forall (l : list (string * string)) x, In x l <-> In x (swap2 l)) by (intros [|x [|y l]] z; cbn; tauto).
      split; intros (p & E & Hp); exists p; (split; [exact E|]); apply Hsw; exact Hp. }
    split; intros r Hr; exists r; (split; [apply Hs, Hr|left; auto]). }
  split; [exact HR|]. split; [|split; [vm_compute; reflexivity|]].
  { intros H. unfold many1, many2, ranked in H. cbn [combinations2 many_names map app swap2] in H. inversion H as [|? ? ? ? H0 _]; subst. destruct H0 as [[_ E]|[E _]]; discriminate E. }
  intros c Hc. set (xs := seq 0 91). set (ys := swap2 (seq 0 91)).
  assert (Px : Permutation xs (seq 0 91)) by reflexivity. assert (Py : Permutation ys (seq 0 91)) by (unfold ys; cbn [seq swap2]; apply perm_swap).
  rewrite (correlation_vectors (view_of many1) (view_of many2) many1 many2 c eq_refl eq_refl Hc).
  replace (encoded many1 many2) with (@Ok (list (nat * nat)) (combine xs ys)) by (vm_compute; reflexivity). cbn [bind]. rewrite combine_map_fst, combine_map_snd by reflexivity. eexists. split; [reflexivity|].
  assert (G : c = "kendall" \/ (vector c xs = vector "pearson" xs /\ vector c ys = vector "pearson" ys)).
  { destruct Hc as [<-|[<-|[<-|[]]]]; [right; auto|left; reflexivity|right; split; apply (vector_spearman _ 91); assumption]. }
  destruct G as [->|[-> ->]].
  - rewrite (exact_kendall xs ys 91 ltac:(lia) Px Py). replace (agree (combine xs ys)) with 4093%Z by (vm_compute; reflexivity). cbn [printed]. f_equal. apply np_round_near_1. replace (INR 91) with 91%R by (cbn; lra). lra.
  - rewrite (exact_pearson xs ys 91 ltac:(lia) Px Py). replace (Zdist xs ys) with 2%Z by (vm_compute; reflexivity). cbn [printed]. f_equal. apply np_round_near_1. unfold spread. replace (INR 91) with 91%R by (cbn; lra). lra.
Qed.
Example C122_example : rankings rk1 rk2 /\ 2 <= length rk1 <= 28 /\ correlation xR (view_of rk1) (view_of rk2) "kendall" = Ok (Fin (1 / 3)%R) /\ printed 3 (Fin (1 / 3)%R) = Fin (333 / 1000)%R.
Proof.
  destruct C121_example as (H & _ & _ & E & _). split; [exact H|]. split; [cbn; lia|]. split; [exact E|]. cbn [printed]. unfold np_round. f_equal.
  assert (Er : rint (1 / 3 * 10 ^ 3) = 333%Z).
  { pose proof (rint_near (1 / 3 * 10 ^ 3)) as Hn. apply Rabs_def2' in Hn. assert ((332 < rint (1 / 3 * 10 ^ 3))%Z) by (apply lt_IZR; lra). assert ((rint (1 / 3 * 10 ^ 3) < 334)%Z) by (apply lt_IZR; lra). lia. }
  rewrite Er. lra.
Qed.

(** ** C123 *)
Theorem C123_labels fs val thr w n edges labels : graph_shows fs val thr w n edges labels ->
  Forall2 (fun l t => fst t = fst l /\ exists x y, val (fst (fst l)) (snd (fst l)) (Fin x) /\ snd t = Fin y /\ (Rabs (y - x) <= 1 / 200)%R
                      (* 0.0 is read exactly for values up to 0.005 *)
                      /\ (0 <= y)%R /\ (y = 0 <-> x <= 1 / 200)%R /\ (1 / 200 < thr -> 0 < y)%R) labels (label_texts labels)
  (* strongest first as printed *)
  /\ StronglySorted (fun a b => exists x y, snd a = Fin x /\ snd b = Fin y /\ (y <= x)%R) (label_texts labels).
Proof.
  intros [_ _ _ _ Hl Hs _ _ _].
  assert (Hz : forall x, (0 < x)%R -> (0 <= np_round 2 x)%R /\ (np_round 2 x = 0 <-> x <= 1 / 200)%R).
  { intros x Hx. assert (H0 : np_round 2 0 = 0%R) by (pose proof (np_round_decimal 2 0) as E; replace (0 / 10 ^ 2)%R with 0%R in E by lra; exact E). split; [rewrite <- H0; apply np_round_mono; lra|].
    assert (Hr : (0 <= IZR (rint (x * 10 ^ 2)))%R) by (rewrite <- (rint_Z 0); apply IZR_le, rint_mono; lra). split.
    - intros E. unfold np_round in E. assert (E' : IZR (rint (x * 10 ^ 2)) = 0%R) by lra. pose proof (rint_near (x * 10 ^ 2)) as Hn. rewrite E' in Hn. apply Rabs_def2' in Hn. lra.
    - intros Hle. unfold np_round. assert (E' : rint (x * 10 ^ 2) = 0%Z).
      { pose proof (rint_near (x * 10 ^ 2)) as Hn. pose proof Hn as Hn'. apply Rabs_def2' in Hn. apply le_IZR in Hr. assert (Hlt : (rint (x * 10 ^ 2) < 2)%Z) by (apply lt_IZR; lra).
        destruct (Z.eq_dec (rint (x * 10 ^ 2)) 1) as [E1|]; [|lia]. exfalso. pose proof (rint_tie (x * 10 ^ 2)) as Ht. rewrite E1 in Ht, Hn. assert (HE : (1 - x * 10 ^ 2 = 1 / 2)%R) by lra. rewrite HE, Rabs_right in Ht by lra. specialize (Ht eq_refl). discriminate. }
      rewrite E'. lra. }
  split.
  - assert (G : forall l, (forall r, In r l -> exists x, val (fst (fst r)) (snd (fst r)) (Fin x) /\ snd r = Fin x /\ (0 < x)%R /\ (thr <= x)%R) ->
      Forall2 (fun l t => fst t = fst l /\ exists x y, val (fst (fst l)) (snd (fst l)) (Fin x) /\ snd t = Fin y /\ (Rabs (y - x) <= 1 / 200)%R /\ (0 <= y)%R /\ (y = 0 <-> x <= 1 / 200)%R /\ (1 / 200 < thr -> 0 < y)%R) l (label_texts l)).
    { induction l as [|r l IH]; intros H; [constructor|]. cbn [label_texts map]. constructor; [|apply IH; intros q Hq; apply H; right; exact Hq]. split; [reflexivity|].
      destruct (H r (or_introl eq_refl)) as (x & Hv & Er & Hx & Ht). cbn [snd]. exists x, (np_round 2 x). rewrite Er. destruct (Hz x Hx) as [Hz1 Hz2]. split; [exact Hv|]. split; [reflexivity|].
      split; [eapply Rle_trans; [apply np_round_near|]; lra|]. split; [exact Hz1|]. split; [exact Hz2|]. intros Hthr. destruct Hz1 as [Hp|He]; [exact Hp|]. symmetry in He. apply Hz2 in He. lra. }
    apply G, Hl.
  - clear -Hl Hs. induction Hs as [|r l Hs IH Hr]; [constructor|]. cbn [label_texts map]. constructor; [apply IH; intros q Hq; apply Hl; right; exact Hq|].
    rewrite Forall_forall in *. intros t Ht. apply in_map_iff in Ht as (q & <- & Hq). destruct (Hl r (or_introl eq_refl)) as (x & _ & Ex & _). destruct (Hl q (or_intror Hq)) as (y & _ & Ey & _).
    specialize (Hr q Hq). rewrite Ex, Ey in *. cbn [snd printed]. exists (np_round 2 x), (np_round 2 y). split; [reflexivity|]. split; [reflexivity|]. apply np_round_mono.
    assert (Hr' : Rltb x y = false) by exact Hr. apply Rltb_false in Hr'. exact Hr'.
Qed.
Example C123_example : exists edges labels, graph_shows ["a"; "b"; "c"] (pair_value Zcell rh rX (Friedman true)) (1 / 100) 20 5 edges labels
  /\ exists r, In r (label_texts labels) /\ Props_Split.about "a" "c" r /\ snd r = Fin (4 / 100)%R.
Proof.
  destruct C119_example as (s' & edges & nodes & labels & _ & _ & Hsh & _). exists edges, labels. split; [exact Hsh|].
  destruct (sh_rest _ _ _ _ _ _ _ Hsh "a" "c" (1 / 28)%R ltac:(cbn; tauto) ltac:(cbn; tauto) ltac:(discriminate) ex_ac ltac:(lra) ltac:(lra)) as [(r & Hr & Hab)|[H5 _]].
  - exists (fst r, printed 2 (snd r)). split; [apply (in_map (fun r => (fst r, printed 2 (snd r)))), Hr|]. split; [exact Hab|]. destruct (sh_labels _ _ _ _ _ _ _ Hsh r Hr) as (x & Hx & Er & _). cbn [snd]. rewrite Er.
    assert (Ex : Fin x = Fin (1 / 28)%R).
    { apply (pair_value_unique Zcell rh rX (Friedman true) "a" "c"); [apply rX_wf| |exact ex_ac]. destruct Hab as [[E1 E2]|[E1 E2]]; rewrite E1, E2 in Hx; [exact Hx|apply pair_value_sym, Hx]. }
    rewrite Ex. cbn [printed]. f_equal. unfold np_round.
    assert (E4 : rint (1 / 28 * 10 ^ 2) = 4%Z).
    { pose proof (rint_near (1 / 28 * 10 ^ 2)) as Hn. apply Rabs_def2' in Hn. assert ((3 < rint (1 / 28 * 10 ^ 2))%Z) by (apply lt_IZR; lra). assert ((rint (1 / 28 * 10 ^ 2) < 5)%Z) by (apply lt_IZR; lra). lia. }
    rewrite E4. lra.
  - exfalso. (* three pairs, each labelled at most once *)
    set (nm := fun r : string * string * ext R => if String.leb (fst (fst r)) (snd (fst r)) then fst r else (snd (fst r), fst (fst r))).
    assert (Hin : incl (map nm labels) [("a", "b"); ("a", "c"); ("b", "c")]).
    { intros q Hq. apply in_map_iff in Hq as ([[f1 f2] v] & <- & Hr). destruct (sh_labels _ _ _ _ _ _ _ Hsh _ Hr) as (x & (i & j & Hij & _ & Hn) & _). cbn [fst snd] in Hn.
      assert (Hc : forall i f, nth_error (f_cols rX) i = Some f -> (i = 0 /\ f = "a") \/ (i = 1 /\ f = "b") \/ (i = 2 /\ f = "c")).
      { intros i0 f Hf. do 3 (destruct i0 as [|i0]; [cbn in Hf; injection Hf as <-; auto|]). destruct i0; discriminate Hf. }
      destruct Hn as [[H1 H2]|[H1 H2]]; apply Hc in H1, H2; destruct H1 as [[-> ->]|[[-> ->]|[-> ->]]], H2 as [[-> ->]|[[-> ->]|[-> ->]]]; try lia; vm_compute; auto. }
    assert (Hnd : NoDup (map nm labels)).
    { pose proof (sh_once _ _ _ _ _ _ _ Hsh) as Ho. clear -Ho. unfold Props_Visual4.one_edge_each in Ho. induction Ho as [|r l Hr Ho IH]; [constructor|]. cbn [map]. constructor; [|exact IH].
      intros Hq. apply in_map_iff in Hq as (q & E & Hq). rewrite Forall_forall in Hr. apply (Hr q Hq). unfold Props_Visual4.same_pair. destruct r as [[a b] v], q as [[a' b'] v']. unfold nm in E. cbn [fst snd] in *.
      destruct (String.leb a' b'), (String.leb a b); injection E as -> ->; auto. }
    pose proof (NoDup_incl_length Hnd Hin) as Hlen. rewrite map_length, H5 in Hlen. cbn in Hlen. lia.
Qed.

Print Assumptions C122_box.
Print Assumptions C122_one_partial.
Print Assumptions C122_one_refuted.
Print Assumptions C123_labels.
