(** C139: what the permutation based values are on average over the random draws, and what they
    are for models whose features do not interact. *)
From Verif Require Import SplitScore Comparator Compared Py Num NumR Sorting Frame Rng PdCalc PdSpec PdFacts PdProofs PdMethods MethodSpec PdMethodReal PdMethodReal2 Perm ForestFacts PermFacts PermRun Props_Perm Props_EndToEnd Props_EndToEnd2 Props_Noise Props_Float2 Props_Accuracy.
From Coq Require Import Reals Lra Lia.
Open Scope string_scope.
Open Scope nat_scope.
Open Scope list_scope.
Notation rearranged := PermFacts.rearranged.
Notation included := Props_Perm.included.

(** ** Specification *)
(** the score of one row: squared error, or whether the prediction is right *)
Definition row_score (c : scoring) (y z : R) : R := match c with ByAccuracy => if Req_EM_T y z then 1%R else 0%R | _ => Rsqr (z - y) end.
(** mean score when the values at the positions [sel] of every row are replaced by those of every
    row of the data *)
Definition mixed_score {C} (c : scoring) (h : list C -> R) (rows : list (list C)) (ys : list R) (sel : list nat) : R :=
  Rmean (map (fun ry => Rmean (map (fun r' => row_score c (snd ry) (h (graft sel (fst ry) r'))) rows)) (combine rows ys)).
(** joint effect less single effects, for scores of mixed rows *)
Definition mixed_contrast {C} (c : scoring) (h : list C -> R) (rows : list (list C)) (ys : list R) (p1 p2 : nat) : R :=
  (mixed_score c h rows ys [p1; p2] - mixed_score c h rows ys [p1] - mixed_score c h rows ys [p2] + score_on c h ys rows)%R.
(** the value of [f] at position [p] of a row, and covariance over rows *)
Definition effect {C} (p : nat) (f : C -> R) (r : list C) : R := match nth_error r p with Some v => f v | None => 0%R end.
Definition covariance {A} (a b : A -> R) (l : list A) : R := (Rmean (map (fun x => a x * b x) l) - Rmean (map a l) * Rmean (map b l))%R.
(** [seeds] are states of the generator whose first [K] permutations of [n] entries, each taken
    over all states, bring every entry equally often to every place *)
Definition evenly {G} (Rg : rng_ops G) (n K : nat) (seeds : list G) : Prop :=
  seeds <> [] /\ forall i k j, i < K -> k < n -> j < n -> n * length (filter (fun g => nth k (nth_perm Rg n g i) 0 =? j) seeds) = length seeds.

(** ** Sums *)
Lemma Rsum_indicator (F : nat -> R) q n s : s <= q < s + n -> Rsum (map (fun j => if q =? j then F j else 0%R) (seq s n)) = F q.
Proof.
  revert s. induction n as [|n IH]; intros s H; [lia|]. cbn [seq map]. rewrite Rsum_cons. destruct (Nat.eqb_spec q s) as [->|Hq].
  - rewrite (Rsum_map_ext _ (fun _ => 0%R)); [rewrite Rsum_map_const; lra|]. intros j Hj. apply in_seq in Hj. destruct (Nat.eqb_spec s j); [lia|reflexivity].
  - rewrite IH by lia. lra.
Qed.
Lemma Rsum_counts {G} (F : nat -> R) (q : G -> nat) n seeds : (forall g, In g seeds -> q g < n) ->
  Rsum (map (fun g => F (q g)) seeds) = Rsum (map (fun j => INR (length (filter (fun g => q g =? j) seeds)) * F j)%R (seq 0 n)).
Proof.
  induction seeds as [|g t IH]; intros H.
  - cbn [map filter length]. rewrite Rsum_nil, (Rsum_map_ext _ (fun _ => 0%R)); [rewrite Rsum_map_const; lra|]. intros. cbn [INR]. lra.
  - cbn [map]. rewrite Rsum_cons, IH by (intros; apply H; right; assumption). rewrite <- (Rsum_indicator F (q g) n 0) by (specialize (H g (or_introl eq_refl)); lia). rewrite <- Rsum_map_add. apply Rsum_map_ext. intros j _.
    cbn [filter]. destruct (q g =? j); cbn [length]; rewrite ?S_INR; lra.
Qed.
Lemma Rmean_even {G} (F : nat -> R) (q : G -> nat) n seeds : seeds <> [] -> 0 < n -> (forall g, In g seeds -> q g < n) ->
  (forall j, j < n -> n * length (filter (fun g => q g =? j) seeds) = length seeds) -> Rmean (map (fun g => F (q g)) seeds) = Rmean (map F (seq 0 n)).
Proof.
  intros Hne Hn Hq He. unfold Rmean. rewrite !map_length, seq_length, (Rsum_counts F q n seeds Hq).
  assert (P : (0 < INR (length seeds))%R) by (apply INR_pos_length, Hne). assert (Pn : (0 < INR n)%R) by (apply lt_0_INR; lia).
  rewrite (Rsum_map_ext _ (fun j => INR (length seeds) / INR n * F j)%R).
  - rewrite Rsum_map_mult. field. lra.
  - intros j Hj. apply in_seq in Hj. specialize (He j ltac:(lia)). apply (f_equal INR) in He. rewrite mult_INR in He. rewrite <- He. field. lra.
Qed.
Lemma Rmean_pos {A} (f : A -> R) (l : list A) a : l <> [] -> (forall x, In x l -> 0 <= f x)%R -> In a l -> (0 < f a)%R -> (0 < Rmean (map f l))%R.
Proof.
  intros Hne H0 Ha Hf. unfold Rmean. apply Rdiv_lt_0_compat; [|apply INR_pos_length; destruct l; [congruence|discriminate]].
  clear Hne. induction l as [|x t IH]; [destruct Ha|]. cbn [map]. rewrite Rsum_cons. destruct Ha as [->|Ha].
  - assert (0 <= Rsum (map f t))%R by (apply Rsum_nonneg; intros v Hv; apply in_map_iff in Hv as (y & <- & Hy); apply H0; right; exact Hy). lra.
  - specialize (IH (fun y Hy => H0 y (or_intror Hy)) Ha). specialize (H0 x (or_introl eq_refl)). lra.
Qed.

(** ** Scores *)
Lemma score_rows c ys zs : c <> ByRMSE -> length ys = length zs -> score_value c ys zs = Rmean (map (fun p => row_score c (fst p) (snd p)) (combine ys zs)).
Proof.
  intros Hc Hl. destruct c; [reflexivity|congruence|]. cbn [score_value row_score]. unfold Raccuracy, Rmean, hits. rewrite map_length, combine_length, <- Hl, Nat.min_id. f_equal.
  induction (combine ys zs) as [|[y z] t IH]; [cbn [map filter length INR]; rewrite Rsum_nil; reflexivity|]. cbn [map filter fst snd]. rewrite Rsum_cons, <- IH. destruct (Req_EM_T y z); cbn [length]; rewrite ?S_INR; lra.
Qed.

Section Average.
  Context {C : Type} (c : scoring) (Hc : c <> ByRMSE) (h : list C -> R) (rows : list (list C)) (ys : list R) (Hl : length ys = length rows).
  Notation n := (length rows).
  Notation L sel k j := (row_score c (nth k ys 0%R) (h (graft sel (nth k rows []) (nth j rows [])))).

  Lemma shuffled_rows sel p : Permutation p (seq 0 n) -> score_on c h ys (rearranged rows sel p) = Rmean (map (fun k => L sel k (nth k p 0)) (seq 0 n)).
  Proof.
    intros Hp. unfold score_on. rewrite score_rows by (try exact Hc; rewrite map_length, rearranged_length; assumption). f_equal.
    assert (Lp : length p = n) by (rewrite (Permutation_length Hp); apply seq_length).
    apply nth_error_eq; [rewrite !map_length, combine_length, map_length, rearranged_length, seq_length, Hl by exact Hp; apply Nat.min_id|].
    intros i Hi. rewrite map_length, combine_length, map_length, rearranged_length, Hl, Nat.min_id in Hi by exact Hp.
    assert (Hpi : nth i p 0 < n) by (eapply perm_seq_lt; [exact Hp|]; apply nth_In; lia).
    rewrite !nth_error_map, nth_error_combine, nth_error_map, (nth_error_nth' ys 0%R) by lia.
    rewrite (rearranged_nth rows sel p i (nth i rows []) (nth i p 0) (nth (nth i p 0) rows [])); [|exact Hp|apply nth_error_nth'; lia|apply nth_error_nth'; lia|apply nth_error_nth'; exact Hpi].
    rewrite (nth_error_nth' (seq 0 n) 0) by (rewrite seq_length; exact Hi). rewrite seq_nth by exact Hi. reflexivity.
  Qed.
  Lemma mixed_rows sel : mixed_score c h rows ys sel = Rmean (map (fun k => Rmean (map (fun j => L sel k j) (seq 0 n))) (seq 0 n)).
  Proof.
    unfold mixed_score. f_equal. apply nth_error_eq; [rewrite !map_length, combine_length, seq_length, Hl; apply Nat.min_id|].
    intros i Hi. rewrite map_length, combine_length, Hl, Nat.min_id in Hi. rewrite !nth_error_map, nth_error_combine, (nth_error_nth' ys 0%R), (nth_error_nth' rows []) by lia.
    rewrite (nth_error_nth' (seq 0 n) 0) by (rewrite seq_length; exact Hi). rewrite seq_nth by exact Hi. cbn [plus option_map fst snd]. f_equal. f_equal. symmetry.
    apply (map_nth_seq (fun r' => row_score c (nth i ys 0%R) (h (graft sel (nth i rows []) r'))) rows []).
  Qed.

  Context (Hne : rows <> []) {G : Type} (Rg : rng_ops G) (HR : rng_ok Rg).
  Lemma shuffled_average K seeds sel i : evenly Rg n K seeds -> i < K ->
    Rmean (map (fun g => score_on c h ys (rearranged rows sel (nth_perm Rg n g i))) seeds) = mixed_score c h rows ys sel.
  Proof.
    intros [Hs He] Hi. assert (Hn : 0 < n) by (destruct rows; [congruence|cbn; lia]).
    rewrite (Rmean_map_ext _ (fun g => Rmean (map (fun k => L sel k (nth k (nth_perm Rg n g i) 0)) (seq 0 n)))) by (intros g _; apply shuffled_rows, nth_perm_ok, HR).
    rewrite Rmean_swap, mixed_rows. apply Rmean_map_ext. intros k Hk. apply in_seq in Hk. apply (Rmean_even (fun j => L sel k j) (fun g => nth k (nth_perm Rg n g i) 0) n seeds Hs Hn).
    - intros g _. apply (perm_seq_lt _ _ _ (nth_perm_ok Rg n g i HR)), nth_In. rewrite (Permutation_length (nth_perm_ok Rg n g i HR)), seq_length. lia.
    - intros j Hj. apply He; [exact Hi|lia|exact Hj].
  Qed.
End Average.

(** ** Additive models under the squared error *)
Section Additive.
  Context {C : Type} (rows : list (list C)) (ys : list R) (w p1 p2 : nat) (Hl : length ys = length rows) (Hne : rows <> []) (Hw : forall r, In r rows -> length r = w) (H12 : p1 <> p2) (Hp1 : p1 < w) (Hp2 : p2 < w).
  (** the model: an effect of the one feature, an effect of the other, a part that uses neither *)
  Context (h : list C -> R) (f1 f2 : C -> R) (g : list C -> R) (Hg1 : forall r v, length r = w -> g (with_value p1 v r) = g r) (Hg2 : forall r v, length r = w -> g (with_value p2 v r) = g r)
          (Hh : forall r, length r = w -> h r = (effect p1 f1 r + effect p2 f2 r + g r)%R).
  Notation a := (effect p1 f1).
  Notation b := (effect p2 f2).

  Lemma g_graft sel r r' : (forall k, In k sel -> k = p1 \/ k = p2) -> length r = w -> length r' = w -> g (graft sel r r') = g r.
  Proof.
    intros Hs H H'. assert (K : Fin (g (graft sel r r')) = Fin (g r)); [|congruence]. apply (graft_unaffected w (fun r => Fin (g r)) sel r r' H H').
    intros k Hk x v Hx. f_equal. destruct (Hs k Hk) as [->| ->]; auto.
  Qed.
  Lemma effect_graft p f sel r r' : length r = length r' -> effect p f (graft sel r r') = if existsb (Nat.eqb p) sel then effect p f r' else @effect C p f r.
  Proof. intros H. unfold effect. rewrite graft_nth by exact H. destruct (existsb (Nat.eqb p) sel); reflexivity. Qed.

  Notation data := (combine rows ys).
  Notation u d := (g (fst d) - snd d)%R.
  Lemma data_rows : map fst data = rows.
  Proof. clear - Hl. revert ys Hl. induction rows as [|r t IH]; intros [|y ys'] H; try discriminate; [reflexivity|]. cbn [combine map fst]. f_equal. apply IH. cbn in H. lia. Qed.
  Lemma data_ne : data <> []. Proof. intros E. pose proof data_rows as D. rewrite E in D. cbn in D. congruence. Qed.
  Lemma data_width d : In d data -> length (fst d) = w.
  Proof. intros H. apply Hw. rewrite <- data_rows. apply in_map, H. Qed.
  Lemma mixed_data sel : mixed_score ByMSE h rows ys sel = Rmean (map (fun d => Rmean (map (fun d' => Rsqr (h (graft sel (fst d) (fst d')) - snd d)) data)) data).
  Proof.
    unfold mixed_score. apply Rmean_map_ext. intros d _. rewrite <- data_rows at 1. rewrite map_map. reflexivity.
  Qed.
  Lemma base_data : score_on ByMSE h ys rows = Rmean (map (fun d => Rsqr (h (fst d) - snd d)) data).
  Proof.
    unfold score_on. cbn [score_value]. unfold Rmse. f_equal. clear - Hl. revert ys Hl. induction rows as [|r t IH]; intros [|y ys'] H; try discriminate; [reflexivity|]. cbn [combine map fst snd]. f_equal. apply IH. cbn in H. lia.
  Qed.

  Lemma additive_contrast : mixed_contrast ByMSE h rows ys p1 p2 = (4 * covariance a b rows)%R.
  Proof.
    pose proof data_ne as Hd.
    assert (Q : forall x y : list C * R -> R, Rmean (map (fun d => Rsqr (x d + y d)) data) = (Rmean (map (fun d => Rsqr (x d)) data) + 2 * Rmean (map (fun d => x d * y d) data) + Rmean (map (fun d => Rsqr (y d)) data))%R).
    { intros x y. rewrite <- Rmean_map_mult, <- !Rmean_map_add. apply Rmean_map_ext. intros d _. unfold Rsqr. ring. }
    assert (D : forall (F : list C * R -> list C * R -> R) (x y : list C * R -> R), (forall d d', In d data -> In d' data -> F d d' = Rsqr (x d' + y d)%R) ->
      Rmean (map (fun d => Rmean (map (F d) data)) data) = (Rmean (map (fun d => Rsqr (x d)) data) + 2 * (Rmean (map x data) * Rmean (map y data)) + Rmean (map (fun d => Rsqr (y d)) data))%R).
    { intros F x y HF. rewrite (Rmean_map_ext _ (fun d => Rmean (map (fun d => Rsqr (x d)) data) + (2 * Rmean (map x data) * y d + Rsqr (y d)))%R).
      - rewrite !Rmean_map_add, Rmean_map_const, Rmean_map_mult by exact Hd. ring.
      - intros d Id. rewrite (Rmean_map_ext _ (fun d' => Rsqr (x d') + (2 * y d * x d' + Rsqr (y d)))%R) by (intros d' Id'; rewrite HF by assumption; unfold Rsqr; ring).
        rewrite !Rmean_map_add, Rmean_map_const, Rmean_map_mult by exact Hd. ring. }
    assert (Hs : forall sel d d', In d data -> In d' data -> (forall k, In k sel -> k = p1 \/ k = p2) ->
      h (graft sel (fst d) (fst d')) = ((if existsb (Nat.eqb p1) sel then a (fst d') else a (fst d)) + (if existsb (Nat.eqb p2) sel then b (fst d') else b (fst d)) + g (fst d))%R).
    { intros sel d d' Id Id' Hsel. pose proof (data_width d Id). pose proof (data_width d' Id'). rewrite Hh by (rewrite graft_length; congruence). rewrite g_graft, !effect_graft by (try assumption; congruence). reflexivity. }
    assert (N1 : (p1 =? p2) = false) by (apply Nat.eqb_neq; assumption). assert (N2 : (p2 =? p1) = false) by (apply Nat.eqb_neq; congruence).
    unfold mixed_contrast. rewrite !mixed_data, base_data.
    rewrite (D _ (fun d => a (fst d) + b (fst d))%R (fun d => u d)); [|intros d d' Id Id'; rewrite Hs by (try assumption; cbn; intuition); cbn [existsb]; rewrite !Nat.eqb_refl, N2; cbn [orb]; f_equal; ring].
    rewrite (D _ (fun d => a (fst d)) (fun d => b (fst d) + u d)%R); [|intros d d' Id Id'; rewrite Hs by (try assumption; cbn; intuition); cbn [existsb]; rewrite !Nat.eqb_refl, N2; cbn [orb]; f_equal; ring].
    rewrite (D _ (fun d => b (fst d)) (fun d => a (fst d) + u d)%R); [|intros d d' Id Id'; rewrite Hs by (try assumption; cbn; intuition); cbn [existsb]; rewrite !Nat.eqb_refl, N1; cbn [orb]; f_equal; ring].
    rewrite (Rmean_map_ext (fun d => Rsqr (h (fst d) - snd d)) (fun d => Rsqr ((a (fst d) + b (fst d)) + u d)%R)) by (intros d Id; rewrite Hh by (apply data_width, Id); f_equal; ring).
    rewrite !(Q (fun d => a (fst d) + b (fst d))%R), !Q, !(Rmean_map_add (fun d => a (fst d))), !(Rmean_map_add (fun d => b (fst d))).
    rewrite (Rmean_map_ext (fun d => (a (fst d) + b (fst d)) * u d)%R (fun d => a (fst d) * u d + b (fst d) * u d)%R) by (intros; ring). rewrite Rmean_map_add.
    assert (W : forall f : list C -> R, Rmean (map f rows) = Rmean (map (fun d => f (fst d)) data)) by (intros f; rewrite <- data_rows at 1; rewrite map_map; reflexivity).
    unfold covariance. rewrite !W. ring.
  Qed.
End Additive.

(** ** Mixed rows do not depend on the order of the pair *)
Lemma graft_swap {C} p1 p2 (r r' : list C) : length r = length r' -> graft [p1; p2] r r' = graft [p2; p1] r r'.
Proof.
  intros H. apply nth_error_eq; [rewrite !graft_length by exact H; reflexivity|]. intros i _. rewrite !graft_nth by exact H. cbn [existsb]. rewrite !orb_false_r, orb_comm. reflexivity.
Qed.
Lemma contrast_swap {C} c h (rows : list (list C)) ys w p1 p2 : (forall r, In r rows -> length r = w) -> mixed_contrast c h rows ys p1 p2 = mixed_contrast c h rows ys p2 p1.
Proof.
  intros Hw. unfold mixed_contrast. assert (E : mixed_score c h rows ys [p1; p2] = mixed_score c h rows ys [p2; p1]); [|rewrite E; ring].
  unfold mixed_score. apply Rmean_map_ext. intros [r y] Hr. apply in_combine_l in Hr. apply Rmean_map_ext. intros r' Hr'. cbn [fst snd]. rewrite graft_swap by (rewrite (Hw r Hr), (Hw r' Hr'); reflexivity). reflexivity.
Qed.

Section Draws.
  Context {C G : Type} (Rg : rng_ops G) (HR : rng_ok Rg) (srt : sorter) (Hs : sorter_ok srt) (c : scoring) (h : list C -> R) (X : frame C) (ys : list R).
  Notation rows := (f_rows X).

  (** the score after shuffling columns, averaged over the draws *)
  Theorem C139_shuffled K seeds sel i : c <> ByRMSE -> length ys = length rows -> rows <> [] -> evenly Rg (length rows) K seeds -> i < K ->
    Rmean (map (fun g => shuffled_score Rg c h X ys g sel i) seeds) = mixed_score c h rows ys sel.
  Proof. intros Hc Hl Hne He Hi. exact (shuffled_average c Hc h rows ys Hl Hne Rg HR K seeds sel i He Hi). Qed.

  Lemma importance_average n (fs : list string) seeds k p : c <> ByRMSE -> length ys = length rows -> rows <> [] -> 0 < n -> k < length fs -> evenly Rg (length rows) (n * length fs) seeds ->
    Rmean (map (fun g => loss c h X ys (Rmean (map (fun j => shuffled_score Rg c h X ys g [p] (j * length fs + k)) (seq 0 n)))) seeds) = loss c h X ys (mixed_score c h rows ys [p]).
  Proof.
    intros Hc Hl Hne Hn Hkl He. pose proof (proj1 He) as Hseeds.
    assert (Em : Rmean (map (fun g => Rmean (map (fun j => shuffled_score Rg c h X ys g [p] (j * length fs + k)) (seq 0 n))) seeds) = mixed_score c h rows ys [p]).
    { rewrite Rmean_swap, (Rmean_map_ext _ (fun _ => mixed_score c h rows ys [p])); [apply Rmean_map_const; destruct n; [lia|discriminate]|].
      intros j Hj. apply in_seq in Hj. apply (C139_shuffled (n * length fs)); try assumption. assert ((j + 1) * length fs <= n * length fs) by (apply Nat.mul_le_mono_r; lia). lia. }
    rewrite <- Em. set (m := fun g => Rmean (map (fun j => shuffled_score Rg c h X ys g [p] (j * length fs + k)) (seq 0 n))). unfold loss. destruct c; rewrite Rmean_map_sub, Rmean_map_const by exact Hseeds; reflexivity.
  Qed.

  (** the permutation importance returned for a feature, averaged over the draws *)
  Theorem C139_importance b idx P n fs seeds s s' t f p v : c <> ByRMSE -> wf_frame X -> length ys = length rows -> rows <> [] -> rowwise P (fun r => Fin (h r)) -> NoDup fs -> 0 < n ->
    evenly Rg (length rows) (n * length fs) seeds -> nth_error (f_cols X) p = Some f ->
    (forall g, In g seeds -> p_rng (s g) = g /\ permutation_importance xR Rg srt (Some P) (scoring_metric c) X (fin_target b idx ys) n (Some fs) (s g) = (s' g, Ok (t g)) /\ In (f, Fin (v g)) (t g)) ->
    Rmean (map v seeds) = loss c h X ys (mixed_score c h rows ys [p]).
  Proof.
    intros Hc HX Hl Hne HP Hd Hn He Hp Hrun. pose proof (proj1 He) as Hseeds.
    assert (Hf : In f fs).
    { destruct seeds as [|g0 tl]; [congruence|]. destruct (Hrun g0 (or_introl eq_refl)) as (E1 & E2 & E3). destruct (C31_importance_values Rg HR srt Hs (scoring_metric c) X _ n fs g0 (s g0) (s' g0) (t g0) P _ _ HX HP (scores_scoring c X b idx ys h Hl Hne) Hn E1 E2) as (_ & Hin & _). apply Hin. exact (in_map fst _ _ E3). }
    apply In_nth_error in Hf as (k & Hk). assert (Hkl : k < length fs) by (apply nth_error_Some; congruence).
    assert (Ev : forall g, In g seeds -> v g = loss c h X ys (Rmean (map (fun j => shuffled_score Rg c h X ys g [p] (j * length fs + k)) (seq 0 n)))).
    { intros g Hg. destruct (Hrun g Hg) as (E1 & E2 & E3). destruct (C31_importance_values Rg HR srt Hs (scoring_metric c) X _ n fs g (s g) (s' g) (t g) P _ _ HX HP (scores_scoring c X b idx ys h Hl Hne) Hn E1 E2) as (_ & _ & Hv & _).
      destruct (Hv f (Fin (v g)) p E3 Hp) as [E _]. rewrite (shuffles_seq _ _ _ _ Hd Hk), map_map in E. apply (f_equal (fun x => match x with Fin r => r | _ => 0%R end)) in E. cbn beta iota in E. rewrite E.
      unfold loss, penalty, shuffled_score, score_on. destruct c; cbn; lra. }
    rewrite (Rmean_map_ext _ _ _ Ev). apply importance_average; assumption.
  Qed.

  (** the interaction value returned for a pair, averaged over the draws *)
  Theorem C139_pairs (a : sargs C (ext R)) e seeds s s' log f1 f2 p1 p2 v : c <> ByRMSE -> (forall g, In g seeds -> sj_input Rg (s g) a h X ys g) ->
    evenly Rg (length rows) (3 * sa_repeat a * length (combinations2 (included a))) seeds ->
    In f1 (included a) -> In f2 (included a) -> f1 <> f2 -> nth_error (f_cols X) p1 = Some f1 -> nth_error (f_cols X) p2 = Some f2 ->
    (forall g, In g seeds -> sj_fit xR Rg srt (scoring_metric c) (e g) (s g) a = (s' g, Ok tt, log g) /\ interaction_value (mv_compare (sj_compared xR srt (s' g))) f1 f2 = Ok (Fin (v g))) ->
    (Rabs (mixed_contrast c h rows ys p1 p2) <= Rmean (map v seeds))%R.
  Proof.
    intros Hc Hin He I1 I2 I12 Hp1 Hp2 Hrun. pose proof (proj1 He) as Hseeds.
    assert (K : forall g, In g seeds -> wf_frame X /\ oh_pair Rg c h X ys (sa_repeat a) (included a) g f1 f2 (Fin (v g))).
    { intros g Hg. destruct (Hrun g Hg) as (E1 & E2). split; [destruct (sj_fit_output Rg HR srt Hs c (s g) a h X ys g (e g) (Hin g Hg)) as (_ & _ & _ & _ & _ & F2 & _); exact F2|].
      destruct (C115_value Rg HR srt Hs c (s g) a h X ys g (e g) f1 f2 (Hin g Hg)) as (s1 & l1 & F1 & F2 & _). rewrite E1 in F1. injection F1 as <- _. destruct (F2 I1 I2 I12) as (x & F3 & F4). rewrite E2 in F3. injection F3 as <-. exact F4. }
    assert (exists g0, In g0 seeds) as (g0 & Hg0) by (destruct seeds as [|g0 tl]; [congruence|]; exists g0; left; reflexivity).
    destruct (K g0 Hg0) as (HX & i & x & y & q1 & q2 & Hi & Hxy & H1 & H2 & _). pose proof (Hin g0 Hg0) as [_ _ Hl Hne _ Hrep Hd _ _].
    assert (Hil : i < length (combinations2 (included a))) by (apply nth_error_Some; congruence).
    destruct HX as (HXd & HXw & _); rewrite Forall_forall in HXw. set (n := sa_repeat a) in *.
    assert (Ec : mixed_contrast c h rows ys p1 p2 = mixed_contrast c h rows ys q1 q2).
    { destruct Hxy as [[-> ->]|[-> ->]].
      - rewrite (nth_once _ _ _ _ HXd Hp1 H1), (nth_once _ _ _ _ HXd Hp2 H2). reflexivity.
      - rewrite (nth_once _ _ _ _ HXd Hp1 H2), (nth_once _ _ _ _ HXd Hp2 H1). exact (contrast_swap c h rows ys _ _ _ HXw). }
    rewrite Ec. assert (Ev : forall g, In g seeds -> v g = oh_statistic Rg c h X ys n g q1 q2 i).
    { intros g Hg. destruct (K g Hg) as (_ & Hv). assert (Hv' : oh_pair Rg c h X ys n (included a) g f1 f2 (Fin (oh_statistic Rg c h X ys n g q1 q2 i))) by (exists i, x, y, q1, q2; tauto).
      pose proof (oh_pair_unique _ _ _ _ _ _ _ _ _ _ _ _ HXd Hd Hv Hv') as E. apply (f_equal (fun x => match x with Fin r => r | _ => 0%R end)) in E. exact E. }
    rewrite (Rmean_map_ext _ _ _ Ev). unfold oh_statistic. rewrite Rmean_swap. cbv zeta.
    set (D := fun j g => (shuffled_score Rg c h X ys g [q1; q2] (3 * n * i + 3 * j + 2) - shuffled_score Rg c h X ys g [q1] (3 * n * i + 3 * j) - shuffled_score Rg c h X ys g [q2] (3 * n * i + 3 * j + 1) + score_on c h ys rows)%R).
    assert (Hsq : seq 0 n <> []) by (destruct n; [lia|discriminate]).
    assert (Em : Rmean (map (fun j => Rmean (map (D j) seeds)) (seq 0 n)) = mixed_contrast c h rows ys q1 q2).
    { rewrite (Rmean_map_ext _ (fun _ => mixed_contrast c h rows ys q1 q2)); [apply Rmean_map_const, Hsq|]. intros j Hj. apply in_seq in Hj. unfold D.
      assert (B : 3 * n * (i + 1) <= 3 * n * length (combinations2 (included a))) by (apply Nat.mul_le_mono_l; lia).
      rewrite Rmean_map_add, !Rmean_map_sub, Rmean_map_const by exact Hseeds. rewrite !(C139_shuffled (3 * n * length (combinations2 (included a)))) by (try assumption; lia). reflexivity. }
    rewrite <- Em. eapply Rle_trans; [apply Rmean_abs_le, Hsq|]. apply Rmean_le; [exact Hsq|]. intros j _. apply Rmean_abs_le, Hseeds.
  Qed.
  (** the importances that [fit] stores *)
  Theorem C139_fit_importance (a : sargs C (ext R)) seeds s s' log t g0 f p v : c <> ByRMSE -> (forall g, In g seeds -> sj_input Rg (s g) a h X ys (g0 g)) ->
    evenly Rg (length rows) (sa_repeat a * length (included a)) seeds -> nth_error (f_cols X) p = Some f ->
    (forall g, In g seeds -> sj_fit xR Rg srt (scoring_metric c) g (s g) a = (s' g, Ok tt, log g) /\ sj_fi (s' g) = Some (t g) /\ In (f, Fin (v g)) (t g)) ->
    Rmean (map v seeds) = loss c h X ys (mixed_score c h rows ys [p]).
  Proof.
    intros Hc Hin He Hp Hrun. pose proof (proj1 He) as Hseeds. assert (exists g1, In g1 seeds) as (g1 & Hg1) by (destruct seeds as [|g1 tl]; [congruence|]; exists g1; left; reflexivity).
    destruct (sj_fit_output Rg HR srt Hs c (s g1) a h X ys (g0 g1) g1 (Hin g1 Hg1)) as (_ & _ & _ & _ & _ & HX & _).
    pose proof (Hin g1 Hg1) as [_ _ Hl Hne _ Hrep Hd _ Htwo]. destruct (In_nth_error _ _ Hg1) as (_ & _).
    assert (K : forall g, In g seeds -> exists k, nth_error (included a) k = Some f /\ v g = loss c h X ys (Rmean (map (fun j => shuffled_score Rg c h X ys g [p] (j * length (included a) + k)) (seq 0 (sa_repeat a))))).
    { intros g Hg. destruct (Hrun g Hg) as (E1 & E2 & E3). destruct (sj_fit_output Rg HR srt Hs c (s g) a h X ys (g0 g) g (Hin g Hg)) as (s1 & t1 & fi & l1 & F1 & _ & F3). rewrite E1 in F1. injection F1 as <- _.
      pose proof (so_fi _ _ _ _ _ _ _ _ _ _ _ F3) as Q. rewrite E2 in Q. injection Q as <-. destruct (so_importance _ _ _ _ _ _ _ _ _ _ _ F3 f _ E3) as (k & q & Hk & Hq & Ev).
      exists k. split; [exact Hk|]. rewrite <- (nth_once _ _ _ _ (proj1 HX) Hp Hq) in Ev. apply (f_equal (fun x => match x with Fin r => r | _ => 0%R end)) in Ev. exact Ev. }
    destruct (K g1 Hg1) as (k & Hk & _). assert (Hkl : k < length (included a)) by (apply nth_error_Some; congruence).
    rewrite (Rmean_map_ext v (fun g => loss c h X ys (Rmean (map (fun j => shuffled_score Rg c h X ys g [p] (j * length (included a) + k)) (seq 0 (sa_repeat a)))))) by (intros g Hg; destruct (K g Hg) as (k' & Hk' & ->); rewrite (nth_once _ _ _ _ Hd Hk' Hk); reflexivity).
    exact (importance_average (sa_repeat a) (included a) seeds k p Hc Hl Hne Hrep Hkl He).
  Qed.
End Draws.

(** a model of rows of [w] values in which the features at [p1] and [p2] do not interact: an effect
    of the one, an effect of the other, and a part that uses neither *)
Record separate {C} (w p1 p2 : nat) (h : list C -> R) (f1 f2 : C -> R) (g : list C -> R) : Prop := {
  sp_distinct : p1 <> p2;
  sp_in1 : p1 < w;
  sp_in2 : p2 < w;
  sp_rest1 : forall r v, length r = w -> g (with_value p1 v r) = g r;
  sp_rest2 : forall r v, length r = w -> g (with_value p2 v r) = g r;
  sp_model : forall r, length r = w -> h r = (effect p1 f1 r + effect p2 f2 r + g r)%R }.

Section Separate.
  Context {C G : Type} (Rg : rng_ops G) (HR : rng_ok Rg) (srt : sorter) (Hs : sorter_ok srt) (h : list C -> R) (X : frame C) (ys : list R).
  Notation rows := (f_rows X).

  (** the joint effect less the single effects is four times the covariance of the two effects,
      whatever the target *)
  Theorem C139_separate p1 p2 f1 f2 g : wf_frame X -> length ys = length rows -> rows <> [] -> separate (length (f_cols X)) p1 p2 h f1 f2 g ->
    mixed_contrast ByMSE h rows ys p1 p2 = (4 * covariance (effect p1 f1) (effect p2 f2) rows)%R.
  Proof.
    intros (_ & Hw & _) Hl Hne [A1 A2 A3 A4 A5 A6]. rewrite Forall_forall in Hw. exact (additive_contrast rows ys (length (f_cols X)) p1 p2 Hl Hne Hw A1 h f1 f2 g A4 A5 A6).
  Qed.
  (** so the value of features that do not interact is, on average, at least four times their
      covariance *)
  Theorem C139_separate_pairs (a : sargs C (ext R)) e seeds s s' log n1 n2 p1 p2 v f1 f2 g : (forall g, In g seeds -> sj_input Rg (s g) a h X ys g) ->
    evenly Rg (length rows) (3 * sa_repeat a * length (combinations2 (included a))) seeds ->
    In n1 (included a) -> In n2 (included a) -> n1 <> n2 -> nth_error (f_cols X) p1 = Some n1 -> nth_error (f_cols X) p2 = Some n2 ->
    (forall g, In g seeds -> sj_fit xR Rg srt (scoring_metric ByMSE) (e g) (s g) a = (s' g, Ok tt, log g) /\ interaction_value (mv_compare (sj_compared xR srt (s' g))) n1 n2 = Ok (Fin (v g))) ->
    wf_frame X -> separate (length (f_cols X)) p1 p2 h f1 f2 g ->
    (4 * Rabs (covariance (effect p1 f1) (effect p2 f2) rows) <= Rmean (map v seeds))%R
    /\ (covariance (effect p1 f1) (effect p2 f2) rows <> 0%R -> exists g, In g seeds /\ (0 < v g)%R).
  Proof.
    intros Hin He I1 I2 I12 Hp1 Hp2 Hrun HX Hsp. assert (exists g0, In g0 seeds) as (g0 & Hg0) by (pose proof (proj1 He); destruct seeds as [|g0 tl]; [congruence|]; exists g0; left; reflexivity).
    pose proof (Hin g0 Hg0) as [_ _ Hl Hne _ _ _ _ _].
    pose proof (C139_pairs Rg HR srt Hs ByMSE h X ys a e seeds s s' log n1 n2 p1 p2 v ltac:(discriminate) Hin He I1 I2 I12 Hp1 Hp2 Hrun) as B.
    rewrite (C139_separate p1 p2 f1 f2 g HX Hl Hne Hsp), Rabs_mult, (Rabs_pos_eq 4) in B by lra. split; [exact B|].
    intros Hcov. apply Rabs_pos_lt in Hcov.
    assert (M : (0 < Rmean (map v seeds))%R) by lra. clear - M. unfold Rmean in M. rewrite map_length in M.
    destruct (Exists_dec (fun g => (0 < v g)%R) seeds (fun g => Rlt_dec 0 (v g))) as [E|N]; [apply Exists_exists; exact E|exfalso; rewrite Exists_exists in N].
    assert (S : (Rsum (map v seeds) <= 0)%R).
    { rewrite <- (Rmult_0_r (INR (length seeds))), <- (Rsum_map_const 0%R seeds). apply Rsum_le. intros x Hx. destruct (Rle_or_lt (v x) 0) as [L|L]; [exact L|exfalso; apply N; exists x; auto]. }
    destruct seeds as [|x l]; [cbn [map length] in M; rewrite Rsum_nil in M; unfold Rdiv in M; lra|]. assert (P : (0 < / INR (length (x :: l)))%R) by (apply Rinv_0_lt_compat, INR_pos_length; discriminate). unfold Rdiv in M. nra.
  Qed.
End Separate.

(** ** All draws: the generator that reads its permutations from a list *)
Fixpoint all_lists {A} (l : list A) (n : nat) : list (list A) := match n with 0 => [[]] | S m => flat_map (fun x => map (cons x) (all_lists l m)) l end.
Definition is_perm (n : nat) (p : list nat) : bool := (length p =? n) && forallb (fun x => existsb (Nat.eqb x) p) (seq 0 n).
(** all permutations of [0 .. n-1], and the generator *)
Definition perms (n : nat) : list (list nat) := filter (is_perm n) (all_lists (seq 0 n) n).
Definition tapeR : rng_ops (list (list nat)) := {|
  r_seed := fun _ => [];
  r_sample := fun g len n => (firstn n (seq 0 len), g);
  r_perm := fun g len => match g with p :: t => (if is_perm len p then p else seq 0 len, t) | [] => (seq 0 len, []) end |}.

Lemma is_perm_ok n p : is_perm n p = true <-> Permutation p (seq 0 n).
Proof.
  unfold is_perm. rewrite andb_true_iff, Nat.eqb_eq, forallb_forall. split.
  - intros [Hl H]. symmetry. apply NoDup_Permutation_bis; [apply seq_NoDup|rewrite seq_length; lia|]. intros x Hx. specialize (H x Hx). apply existsb_exists in H as (y & Hy & E). apply Nat.eqb_eq in E. subst. exact Hy.
  - intros H. split; [rewrite (Permutation_length H); apply seq_length|]. intros x Hx. apply existsb_exists. exists x. split; [apply (Permutation_in _ (Permutation_sym H)), Hx|apply Nat.eqb_refl].
Qed.
Lemma all_lists_In {A} (l : list A) n p : In p (all_lists l n) <-> length p = n /\ forall x, In x p -> In x l.
Proof.
  revert p. induction n as [|n IH]; intros p; cbn [all_lists].
  - split; [intros [<-|[]]; split; [reflexivity|intros x []]|]. intros [H _]. destruct p; [left; reflexivity|discriminate].
  - rewrite in_flat_map. split.
    + intros (x & Hx & Hp). apply in_map_iff in Hp as (q & <- & Hq). apply IH in Hq as [H1 H2]. split; [cbn; lia|]. intros y [->|Hy]; auto.
    + intros [H1 H2]. destruct p as [|x q]; [discriminate|]. exists x. split; [apply H2; left; reflexivity|]. apply in_map, IH. split; [cbn in H1; lia|]. intros y Hy. apply H2. right. exact Hy.
Qed.
Lemma all_lists_NoDup {A} (l : list A) n : NoDup l -> NoDup (all_lists l n).
Proof.
  intros Hl. induction n as [|n IH]; cbn [all_lists]; [repeat constructor; intros []|].
  assert (K : forall m, NoDup m -> NoDup (flat_map (fun x => map (cons x) (all_lists l n)) m)); [|exact (K l Hl)].
  induction 1 as [|x m Hx Hm IHm]; [constructor|]. cbn [flat_map]. apply NoDup_app_disj; [apply FinFun.Injective_map_NoDup; [intros p q E; congruence|exact IH]|exact IHm|].
  intros p H1 H2. apply in_map_iff in H1 as (q & <- & _). apply in_flat_map in H2 as (y & Hy & Hq). apply in_map_iff in Hq as (q' & E & _). injection E as -> _. contradiction.
Qed.
Lemma perms_In n p : In p (perms n) <-> Permutation p (seq 0 n).
Proof.
  unfold perms. rewrite filter_In, is_perm_ok, all_lists_In. split; [tauto|]. intros H. split; [|exact H]. split; [rewrite (Permutation_length H); apply seq_length|]. intros x. apply (Permutation_in _ H).
Qed.
Lemma perms_NoDup n : NoDup (perms n).
Proof. apply NoDup_filter, all_lists_NoDup, seq_NoDup. Qed.
Lemma tapeR_ok : rng_ok tapeR.
Proof.
  constructor.
  - intros g len n Hn. cbn. split; [rewrite firstn_length, seq_length; lia|]. split; [apply NoDup_firstn, seq_NoDup|]. intros i Hi. assert (Hi' : In i (seq 0 len)) by (rewrite <- (firstn_skipn n (seq 0 len)); apply in_or_app; left; exact Hi). apply in_seq in Hi'. lia.
  - intros [|p t] len; cbn; [reflexivity|]. destruct (is_perm len p) eqn:E; [apply is_perm_ok, E|reflexivity].
Qed.

(** exchanging two entries *)
Definition exchange (i j x : nat) : nat := if x =? i then j else if x =? j then i else x.
Lemma exchange_inv i j x : exchange i j (exchange i j x) = x.
Proof. unfold exchange. destruct (Nat.eqb_spec x i) as [->|H1]; [|destruct (Nat.eqb_spec x j) as [->|H2]]; repeat (match goal with |- context [?a =? ?b] => destruct (Nat.eqb_spec a b) end); congruence. Qed.
Lemma exchange_inj i j x y : exchange i j x = exchange i j y -> x = y.
Proof. intros E. rewrite <- (exchange_inv i j x), E. apply exchange_inv. Qed.
Lemma exchange_perm i j n p : i < n -> j < n -> Permutation p (seq 0 n) -> Permutation (map (exchange i j) p) (seq 0 n).
Proof.
  intros Hi Hj H. apply Permutation_trans with (map (exchange i j) (seq 0 n)); [apply Permutation_map, H|]. apply NoDup_Permutation_bis; [apply FinFun.Injective_map_NoDup; [intros x y; apply exchange_inj|apply seq_NoDup]|rewrite map_length; lia|].
  intros x Hx. apply in_map_iff in Hx as (y & <- & Hy). apply in_seq in Hy. apply in_seq. unfold exchange. destruct (y =? i); [lia|]. destruct (y =? j); lia.
Qed.
Lemma count_le n k i j : k < n -> i < n -> j < n -> length (filter (fun p => nth k p 0 =? i) (perms n)) <= length (filter (fun p => nth k p 0 =? j) (perms n)).
Proof.
  intros Hk Hi Hj. rewrite <- (map_length (map (exchange i j))). apply NoDup_incl_length.
  - apply FinFun.Injective_map_NoDup; [|apply NoDup_filter, perms_NoDup]. intros p q E. apply (f_equal (map (exchange i j))) in E. rewrite !map_map in E. rewrite (map_ext _ (fun x => x)), map_id in E by (intros; apply exchange_inv). rewrite (map_ext _ (fun x => x)), map_id in E by (intros; apply exchange_inv). exact E.
  - intros p Hp. apply in_map_iff in Hp as (q & <- & Hq). apply filter_In in Hq as [Hq E]. apply Nat.eqb_eq in E. apply perms_In in Hq. apply filter_In. split; [apply perms_In, exchange_perm; assumption|].
    apply Nat.eqb_eq. rewrite (nth_indep _ 0 (exchange i j 0)) by (rewrite map_length, (Permutation_length Hq), seq_length; exact Hk). rewrite map_nth, E. unfold exchange. rewrite Nat.eqb_refl. reflexivity.
Qed.
Lemma count_perms n k j : k < n -> j < n -> n * length (filter (fun p => nth k p 0 =? j) (perms n)) = length (perms n).
Proof.
  intros Hk Hj. apply INR_eq. rewrite mult_INR. pose proof (Rsum_counts (fun _ => 1%R) (fun p => nth k p 0) n (perms n)) as E.
  assert (B : forall p, In p (perms n) -> nth k p 0 < n). { intros p Hp. apply perms_In in Hp. apply (perm_seq_lt _ _ _ Hp), nth_In. rewrite (Permutation_length Hp), seq_length. exact Hk. }
  specialize (E B). cbv beta in E. rewrite Rsum_map_const in E. rewrite (Rsum_map_ext _ (fun _ => INR (length (filter (fun p => nth k p 0 =? j) (perms n))))) in E.
  - rewrite Rsum_map_const, seq_length in E. lra.
  - intros i Hi. apply in_seq in Hi. rewrite Rmult_1_r. f_equal. apply Nat.le_antisymm; apply count_le; lia.
Qed.
Lemma filter_map_cons {A} (P : list A -> bool) x (m : list (list A)) : length (filter P (map (cons x) m)) = length (filter (fun q => P (x :: q)) m).
Proof. induction m as [|q m IH]; [reflexivity|]. cbn [map filter]. destruct (P (x :: q)); cbn [length]; rewrite IH; reflexivity. Qed.
Lemma all_lists_length {A} (l : list A) n : length (all_lists l (S n)) = length l * length (all_lists l n).
Proof. cbn [all_lists]. generalize (all_lists l n) as m. intros m. induction l as [|x l IH]; [reflexivity|]. cbn [flat_map length]. rewrite app_length, map_length, IH. reflexivity. Qed.
Lemma count_tapes {A} (P : A -> bool) (l : list A) d K i : i < K ->
  length (filter (fun g => P (nth i g d)) (all_lists l K)) * length l = length (filter P l) * length (all_lists l K).
Proof.
  revert i. induction K as [|K IH]; intros i Hi; [lia|]. rewrite all_lists_length. cbn [all_lists].
  assert (H : forall m, length (filter (fun g => P (nth i g d)) (flat_map (fun x => map (cons x) (all_lists l K)) m)) * length l
    = match i with 0 => length (filter P m) * length (all_lists l K) * length l | S i' => length m * (length (filter P l) * length (all_lists l K)) end).
  { induction m as [|x m IHm]; [destruct i; reflexivity|]. cbn [flat_map]. rewrite filter_app, app_length, Nat.mul_add_distr_r, IHm, filter_map_cons. destruct i as [|i].
    - cbn [nth filter]. destruct (P x) eqn:E.
      + assert (Z : forall q : list (list A), filter (fun _ => true) q = q) by (clear; induction q as [|y q IHq]; [reflexivity|]; cbn; f_equal; exact IHq). rewrite Z. cbn [length]. lia.
      + assert (Z : forall q : list (list A), filter (fun _ => false) q = []) by (clear; induction q as [|y q IHq]; [reflexivity|exact IHq]). rewrite Z. cbn [length]. lia.
    - cbn [nth length]. rewrite IH by lia. lia. }
  rewrite H. destruct i; lia.
Qed.

Section Tape.
  Lemma tape_nth n g i : (forall p, In p g -> In p (perms n)) -> i < length g -> nth_perm tapeR n g i = nth i g [].
  Proof.
    intros Hg Hi. assert (E : forall j, j <= length g -> gens tapeR n g j = skipn j g).
    { induction j as [|j IH]; intros Hj; [reflexivity|]. cbn [gens]. rewrite IH by lia. cbn [tapeR r_perm]. clear - Hj. revert g Hj. induction j as [|j IH]; intros [|p g] Hj; cbn in *; try lia; try reflexivity. apply IH. lia. }
    unfold nth_perm. rewrite E by lia. cbn [tapeR r_perm]. assert (S : skipn i g = nth i g [] :: skipn (S i) g).
    { clear - Hi. revert i Hi. induction g as [|p g IH]; intros i Hi; [cbn in Hi; lia|]. destruct i as [|i]; [reflexivity|]. cbn [skipn nth]. rewrite IH by (cbn in Hi; lia). reflexivity. }
    rewrite S. cbn [fst]. assert (Hp : In (nth i g []) (perms n)) by (apply Hg, nth_In, Hi). apply perms_In, is_perm_ok in Hp. rewrite Hp. reflexivity.
  Qed.
  (** the lists of [K] permutations bring every entry equally often to every place: averages over
      [all_lists (perms n) K] are averages over all draws of a perfect generator *)
  Theorem C139_all_draws n K : evenly tapeR n K (all_lists (perms n) K) /\ (forall g, In g (all_lists (perms n) K) <-> length g = K /\ forall p, In p g -> Permutation p (seq 0 n)).
  Proof.
    assert (Hne : perms n <> []) by (intros E; assert (H : In (seq 0 n) (perms n)) by (apply perms_In; reflexivity); rewrite E in H; destruct H).
    split.
    - split.
      + intros E. destruct (perms n) as [|p l] eqn:Ep; [congruence|]. assert (H : In (repeat p K) (all_lists (p :: l) K)) by (apply all_lists_In; split; [apply repeat_length|]; intros x Hx; apply repeat_spec in Hx; left; congruence). rewrite E in H. destruct H.
      + intros i k j Hi Hk Hj. rewrite (filter_ext_in _ (fun g => nth k (nth i g []) 0 =? j)).
        * pose proof (count_tapes (fun p => nth k p 0 =? j) (perms n) [] K i Hi) as T. rewrite <- (count_perms n k j Hk Hj) in T.
          assert (L : 0 < length (filter (fun p => nth k p 0 =? j) (perms n))).
          { pose proof (count_perms n k j Hk Hj) as Q. assert (0 < length (perms n)) by (destruct (perms n); [congruence|cbn [length]; lia]). destruct (length (filter _ _)); lia. }
          nia.
        * intros g Hg. apply all_lists_In in Hg as [Hl Hg]. rewrite tape_nth by (try exact Hg; lia). reflexivity.
    - intros g. rewrite all_lists_In. split; intros [H1 H2]; (split; [exact H1|]); intros p Hp; apply perms_In, H2, Hp.
  Qed.
End Tape.

(** ** Concrete draws: three rows, the sum of two columns, the rotations of the rows *)
Open Scope nat_scope.
Open Scope list_scope.
Definition d_X : frame Z := {| f_cols := ["a"; "b"]; f_index := [0; 1; 2]%Z; f_num := ["a"; "b"]; f_rows := [[0; 1]; [1; 1]; [2; 4]]%Z |}.
Definition sum_r (r : list Z) : R := (effect 0 IZR r + effect 1 IZR r + 0)%R.
Definition d_ys : list R := [0; 1; 5]%R.
Definition d_args : sargs Z (ext R) :=
  {| sa_model := {| md_id := 0; md_proba1 := None; md_predict := Some (fun _ rows => Ok (map (fun r => Fin (sum_r r)) rows)) |};
     sa_X := d_X; sa_y := fin_target false [] d_ys; sa_n := None; sa_repeat := 2; sa_features := None |}.
Lemma d_wf : wf_frame d_X.
Proof. split; [repeat constructor; cbn; intuition congruence|]. split; [repeat constructor|reflexivity]. Qed.
Lemma d_input {G} (Rg : rng_ops G) g : sj_input Rg (sj_init g) d_args sum_r d_X d_ys g.
Proof.
  constructor; [exact d_wf|exists false, []; reflexivity|reflexivity|discriminate| |cbn; lia| |intros f Hf; exact Hf|cbn; lia].
  - eexists. split; [reflexivity|]. split.
    + intros i rows l H. injection H as <-. reflexivity.
    + intros i rows. eexists. reflexivity.
  - apply d_wf.
Qed.
Lemma d_separate : separate 2 0 1 sum_r IZR IZR (fun _ => 0%R).
Proof. constructor; try lia; reflexivity. Qed.
Lemma d_covariance : covariance (effect 0 IZR) (effect 1 IZR) (f_rows d_X) = 1%R.
Proof. unfold covariance, Rmean, effect. cbn [d_X f_rows map nth_error length]. rewrite !Rsum_cons, !Rsum_nil. change (INR 3) with (1 + 1 + 1)%R. field. Qed.
Definition d_seeds : list nat := [0; 1; 2].
(** the rotations are even *)
Lemma d_even K : evenly stepR 3 K d_seeds.
Proof.
  unfold d_seeds. split; [discriminate|]. intros i k j _ Hk Hj.
  assert (E : forall g, nth_perm stepR 3 g i = rot ((g + i) mod 3) (seq 0 3)).
  { intros g. assert (E : gens stepR 3 g i = g + i) by (induction i as [|i IH]; [cbn; lia|]; cbn [gens]; rewrite IH; cbn; lia). unfold nth_perm. rewrite E. cbn [stepR r_perm fst]. unfold rot. rewrite seq_length, Nat.mod_mod by lia. reflexivity. }
  cbn [filter]. rewrite !E. rewrite !(Nat.add_mod _ i 3) by lia. assert (Hm : i mod 3 < 3) by (apply Nat.mod_upper_bound; lia).
  destruct (i mod 3) as [|[|[|]]]; [| | |lia]; (destruct k as [|[|[|]]]; [| | |lia]); (destruct j as [|[|[|]]]; [| | |lia]); reflexivity.
Qed.
(** the two features do not interact; the method reports at least 4 on average over the draws, with
    the rotations as well as with all permutations *)
Lemma d_values {G} (Rg : rng_ops G) (HR : rng_ok Rg) : forall g : G, exists v, interaction_value (mv_compare (sj_compared xR isort (fst (fst (sj_fit xR Rg isort (scoring_metric ByMSE) g (sj_init g) d_args))))) "a" "b" = Ok (Fin v)
  /\ sj_fit xR Rg isort (scoring_metric ByMSE) g (sj_init g) d_args = (fst (fst (sj_fit xR Rg isort (scoring_metric ByMSE) g (sj_init g) d_args)), Ok tt, snd (sj_fit xR Rg isort (scoring_metric ByMSE) g (sj_init g) d_args)).
Proof.
  intros g. destruct (C115_value Rg HR isort isort_ok ByMSE (sj_init g) d_args sum_r d_X d_ys g g "a" "b" (d_input Rg g)) as (s' & log & E & V & _). destruct V as (v & Ev & (i & x & y & p1 & p2 & _ & _ & _ & _ & ->)); [cbn; tauto..|discriminate|].
  eexists. rewrite E. cbn [fst snd]. split; [exact Ev|reflexivity].
Qed.
Definition d_value {G} (Rg : rng_ops G) (g : G) : R := match interaction_value (mv_compare (sj_compared xR isort (fst (fst (sj_fit xR Rg isort (scoring_metric ByMSE) g (sj_init g) d_args))))) "a" "b" with Ok (Fin v) => v | _ => 0%R end.
Lemma d_average {G} (Rg : rng_ops G) (HR : rng_ok Rg) seeds : evenly Rg 3 6 seeds -> (4 <= Rmean (map (d_value Rg) seeds))%R /\ exists g, In g seeds /\ (0 < d_value Rg g)%R.
Proof.
  intros He. destruct (C139_separate_pairs Rg HR isort isort_ok sum_r d_X d_ys d_args (fun g => g) seeds (fun g => sj_init g)
    (fun g => fst (fst (sj_fit xR Rg isort (scoring_metric ByMSE) g (sj_init g) d_args))) (fun g => snd (sj_fit xR Rg isort (scoring_metric ByMSE) g (sj_init g) d_args)) "a" "b" 0 1 (d_value Rg) IZR IZR (fun _ => 0%R)) as [A B].
  - intros g _. apply d_input.
  - exact He.
  - cbn; tauto.
  - cbn; tauto.
  - discriminate.
  - reflexivity.
  - reflexivity.
  - intros g _. destruct (d_values Rg HR g) as (v & E1 & E2). split; [exact E2|]. unfold d_value. rewrite E1. reflexivity.
  - exact d_wf.
  - exact d_separate.
  - rewrite d_covariance in A, B. rewrite Rabs_R1 in A. split; [lra|]. apply B. lra.
Qed.
Example C139_example : (4 <= Rmean (map (d_value stepR) d_seeds))%R /\ (4 <= Rmean (map (d_value tapeR) (all_lists (perms 3) 6)))%R /\ length (perms 3) = 6
  /\ exists g v, In g d_seeds /\ interaction_value (mv_compare (sj_compared xR isort (fst (fst (sj_fit xR stepR isort (scoring_metric ByMSE) g (sj_init g) d_args))))) "a" "b" = Ok (Fin v) /\ (0 < v)%R.
Proof.
  destruct (d_average stepR stepR_ok d_seeds (d_even 6)) as (A & g & Hg & B). split; [exact A|]. split; [apply (d_average tapeR tapeR_ok), C139_all_draws|]. split; [reflexivity|].
  exists g, (d_value stepR g). split; [exact Hg|]. split; [|exact B]. destruct (d_values stepR stepR_ok g) as (v & E & _). unfold d_value. rewrite E. reflexivity.
Qed.
(** the importance of the first feature, on average over the rotations *)
Example C139_importance_example : exists t v, (forall g, In g d_seeds -> sj_fi (fst (fst (sj_fit xR stepR isort (scoring_metric ByMSE) g (sj_init 7) d_args))) = Some (t g) /\ In ("a", Fin (v g)) (t g))
  /\ Rmean (map v d_seeds) = loss ByMSE sum_r d_X d_ys (mixed_score ByMSE sum_r (f_rows d_X) d_ys [0]) /\ mixed_score ByMSE sum_r (f_rows d_X) d_ys [0] = (7 / 3)%R.
Proof.
  set (fit := fun g => sj_fit xR stepR isort (scoring_metric ByMSE) g (sj_init 7) d_args).
  assert (K : forall g, exists v, fit g = (fst (fst (fit g)), Ok tt, snd (fit g)) /\ sj_fi (fst (fst (fit g))) = Some (match sj_fi (fst (fst (fit g))) with Some t => t | None => [] end)
    /\ In ("a", Fin v) (match sj_fi (fst (fst (fit g))) with Some t => t | None => [] end)).
  { intros g. destruct (sj_fit_output stepR stepR_ok isort isort_ok ByMSE (sj_init 7) d_args sum_r d_X d_ys 7 g (d_input stepR 7)) as (s' & t & fi & log & E & _ & F). fold (fit g) in E. rewrite E. cbn [fst snd]. rewrite (so_fi _ _ _ _ _ _ _ _ _ _ _ F).
    assert (Ia : In "a" (map fst fi)) by (apply (Permutation_in _ (Permutation_sym (so_names _ _ _ _ _ _ _ _ _ _ _ F))); left; reflexivity). apply in_map_iff in Ia as ([x u] & Ex & Hu). cbn [fst] in Ex. subst x.
    destruct (so_importance _ _ _ _ _ _ _ _ _ _ _ F "a" u Hu) as (k & p & _ & _ & ->). eexists. split; [reflexivity|]. split; [reflexivity|exact Hu]. }
  destruct (K 0) as (v0 & A0 & B0 & C0). destruct (K 1) as (v1 & A1 & B1 & C1). destruct (K 2) as (v2 & A2 & B2 & C2).
  set (v := fun g : nat => match g with 0 => v0 | 1 => v1 | _ => v2 end). exists (fun g => match sj_fi (fst (fst (fit g))) with Some t => t | None => [] end), v.
  assert (H : forall g, In g d_seeds -> fit g = (fst (fst (fit g)), Ok tt, snd (fit g)) /\ sj_fi (fst (fst (fit g))) = Some (match sj_fi (fst (fst (fit g))) with Some t => t | None => [] end) /\ In ("a", Fin (v g)) (match sj_fi (fst (fst (fit g))) with Some t => t | None => [] end)).
  { intros g [<-|[<-|[<-|[]]]]; cbn [v]; tauto. }
  split; [intros g Hg; apply (H g Hg)|]. split.
  - apply (C139_fit_importance stepR stepR_ok isort isort_ok ByMSE sum_r d_X d_ys d_args d_seeds (fun _ => sj_init 7) (fun g => fst (fst (fit g))) (fun g => snd (fit g)) (fun g => match sj_fi (fst (fst (fit g))) with Some t => t | None => [] end) (fun _ => 7) "a" 0 v); [discriminate|intros; apply d_input|apply d_even|reflexivity|exact H].
  - unfold mixed_score, Rmean, sum_r, effect. cbn. unfold Rsum. cbn. unfold Rsqr. field.
Qed.

Print Assumptions C139_shuffled.
Print Assumptions C139_importance.
Print Assumptions C139_pairs.
Print Assumptions C139_fit_importance.
Print Assumptions C139_separate.
Print Assumptions C139_separate_pairs.
Print Assumptions C139_all_draws.
