(** The performance based method in double arithmetic (C100, C101). *)
From Verif Require Import Py Num Float FloatRound FloatMono FloatOps NpSum FloatErr Sorting Frame Rng PdCalc PdSpec PdProofs PdMethods PdMethodRun Perm PermFacts PermRun Props_Float Props_Perm.
From Coq Require Import ZArith SpecFloat.
Open Scope string_scope.
Open Scope nat_scope.
Open Scope list_scope.

Section Unused.
  Context {C V : Type}.
  Lemma graft_unused w (g : list C -> V) sel r r' : length r = w -> length r' = w -> (forall k, In k sel -> unused w g k) -> g (graft sel r r') = g r.
  Proof.
    induction sel as [|k t IH] using rev_ind; intros Hr Hr' H; [reflexivity|]. rewrite graft_app.
    change (graft [k] (graft t r r') r') with (match nth_error r' k with Some v => with_value k v (graft t r r') | None => graft t r r' end). destruct (nth_error r' k) as [v|] eqn:E.
    - assert (Hk : unused w g k) by (apply H, in_or_app; right; left; reflexivity). rewrite Hk by (rewrite graft_length; congruence). apply IH; auto. intros; apply H, in_or_app; auto.
    - apply IH; auto. intros; apply H, in_or_app; auto.
  Qed.
  Lemma map_unused (rows : list (list C)) w (g : list C -> V) sel p : (forall r, In r rows -> length r = w) -> Permutation p (seq 0 (length rows)) ->
    (forall k, In k sel -> unused w g k) -> map g (rearranged rows sel p) = map g rows.
  Proof.
    intros Hw Hp Hu. apply nth_error_eq; [rewrite !map_length; apply rearranged_length, Hp|]. intros i Hi. rewrite map_length, rearranged_length in Hi by exact Hp.
    destruct (perm_nth_ex rows p i Hp Hi) as (r & k & r' & Hr & Hk & Hr').
    rewrite !nth_error_map, (rearranged_nth rows sel p i r k r' Hp Hr Hk Hr'), Hr. cbn [option_map]. f_equal.
    apply (graft_unused w); auto; eapply Hw, nth_error_In; eassumption.
  Qed.
End Unused.

(** a number: neither infinite nor NaN *)
Definition number (x : F) : Prop := match x with S754_zero _ | S754_finite _ _ _ => True | _ => False end.

Lemma self_difference x : number x -> fsub x x = f_zero.
Proof. intros H. apply fsub_self, not_true_iff_false. intros E. apply fsub_nan_self in E as [->|[s ->]]; exact H. Qed.
Lemma zero_div_count n : 0 < n -> fdiv f_zero (f_ofZ (Z.of_nat n)) = f_zero.
Proof.
  intros H. destruct n as [|n]; [lia|]. assert (L : fle f_one (f_ofZ (Z.of_nat (S n)))).
  { change f_one with (binary_normalize 53 1024 1 0 false). apply normalize_mono. cbn. lia. }
  destruct L as (_ & N1 & L). pose proof (f_ofZ_nonneg (Z.of_nat (S n)) ltac:(lia)) as G. destruct (f_ofZ (Z.of_nat (S n))) as [s|s| |s m e]; cbn in G; try subst s; try discriminate; reflexivity.
Qed.
Lemma abs_nonneg x : fge0 (SFabs x).
Proof. destruct x; cbn; auto. Qed.

Section Doubles.
  Context {C G : Type} (Rg : rng_ops G) (HR : rng_ok Rg) (srt : sorter) (Hsrt : sorter_ok srt) (sum : list F -> F) (Hsum : forall l, added l (sum l)) (m : metric F).
  Notation N := (fl64 sum).

  Lemma included_known e s (a : sargs C F) s' log Xs ys g1 P g : wf_frame (sa_X a) -> 0 < sa_repeat a ->
    sample_both Rg (sj_rng s) (sa_X a) (sa_y a) (sa_n a) = Ok (Xs, ys, g1) -> md_predict (sa_model a) = Some P -> rowwise P g ->
    sj_fit N Rg srt m e s a = (s', Ok tt, log) -> forall f, In f (included a) -> In f (f_cols Xs).
  Proof.
    intros HX Hn Hs HPf HP H f Hf. destruct (sample_both_frame Rg HR _ _ _ _ _ _ _ HX Hs) as (_ & HXs & _).
    destruct (sj_fit_inv N Rg srt m e s a s' log Xs ys g1 Hs H) as (s1 & s2 & t & fi & _ & E2 & _). rewrite HPf in E2.
    destruct (importance_inv N Rg HR srt P g HP Xs HXs m ys (included a) (sa_repeat a) e {| p_log := p_log s1; p_rng := e |} s2 fi eq_refl E2) as (b & vf & _ & _ & Hk).
    destruct (shuffles_nonempty (included a) (sa_repeat a) f Hn Hf) as (i & Hi). destruct (Hk f i Hi) as (k & Hk' & _). eapply nth_error_In, Hk'.
  Qed.

  Lemma pair_rows e s (a : sargs C F) s' log Xs ys g1 P g t row :
    wf_frame (sa_X a) -> NoDup (included a) -> 0 < sa_repeat a ->
    sample_both Rg (sj_rng s) (sa_X a) (sa_y a) (sa_n a) = Ok (Xs, ys, g1) -> md_predict (sa_model a) = Some P -> rowwise P g ->
    sj_fit N Rg srt m e s a = (s', Ok tt, log) -> sj_ovo s' = Some t -> In row t ->
    exists ref pr c, scored g m ys (f_rows Xs) ref /\ pair_row N Rg g Xs m ys g1 (sa_repeat a) ref c pr row.
  Proof.
    intros HX Hnd Hn Hs HPf HP H Ht Hin. pose proof (included_known e s a s' log Xs ys g1 P g HX Hn Hs HPf HP H) as Hknown. destruct (sample_both_frame Rg HR _ _ _ _ _ _ _ HX Hs) as (_ & HXs & _).
    destruct (sj_fit_inv N Rg srt m e s a s' log Xs ys g1 Hs H) as (s1 & s2 & t' & fi & E1 & _ & Ht' & _). rewrite Ht in Ht'. injection Ht' as <-. rewrite HPf in E1.
    destruct (ovo_inv N Rg HR srt P g HP Xs HXs m ys (combinations2 (included a)) (sa_repeat a) g1 {| p_log := []; p_rng := g1 |} s1 t) with (2 := @eq_refl G g1) (3 := E1) as (ref & raw & Href & Et & Hl & Hraw).
    { intros [f1 f2] Hpr. pose proof (combinations2_In _ _ Hpr) as []. pose proof (combinations2_irrefl _ _ _ Hnd Hpr). cbn [fst snd] in *. auto. }
    destruct (sort_values_ok N srt false (fun r : string * string * F => n_abs N (snd r)) raw Hsrt (fl64_ord sum)) as [Hp _]. rewrite Et in Hin.
    apply (Permutation_in _ Hp), In_nth_error in Hin as (i & Hi). assert (Hli : i < length (combinations2 (included a))) by (rewrite <- Hl; apply nth_error_Some; congruence).
    destruct (nth_error (combinations2 (included a)) i) as [pr|] eqn:E; [|apply nth_error_None in E; lia].
    destruct (Hraw i pr E) as (row' & Hr & Hpr). assert (row' = row) by congruence. subst row'. eauto 6.
  Qed.

  (** ** C100: the value of a pair is not negative, and exactly 0 when the model ignores both
      features *)
  Theorem C100_nonnegative e s (a : sargs C F) s' log Xs ys g1 P g t f1 f2 v :
    wf_frame (sa_X a) -> NoDup (included a) -> 0 < sa_repeat a ->
    sample_both Rg (sj_rng s) (sa_X a) (sa_y a) (sa_n a) = Ok (Xs, ys, g1) -> md_predict (sa_model a) = Some P -> rowwise P g ->
    sj_fit N Rg srt m e s a = (s', Ok tt, log) -> sj_ovo s' = Some t -> In (f1, f2, v) t ->
    v = S754_nan \/ SFleb f_zero v = true.
  Proof.
    intros HX Hnd Hn Hs HPf HP H Ht Hin. destruct (pair_rows e s a s' log Xs ys g1 P g t _ HX Hnd Hn Hs HPf HP H Ht Hin) as (ref & pr & c & _ & k1 & k2 & vs & _ & _ & Hl & Hv & E).
    assert (Ev : v = np_mean N vs) by (apply (f_equal snd) in E; exact E). subst v. unfold np_mean. cbn [n_div n_sum n_ofZ fl64].
    assert (Gv : fge0 (fdiv (sum vs) (f_ofZ (Z.of_nat (length vs))))).
    { apply fdiv_nonneg; [|apply f_ofZ_nonneg; lia]. apply (added_nonneg vs _ (Hsum vs)). apply Forall_forall. intros x Hx. apply In_nth_error in Hx as (j & Hj).
      assert (Hjl : j < sa_repeat a) by (rewrite <- Hl; apply nth_error_Some; congruence). destruct (Hv j Hjl) as (v & _ & Hj'). replace x with (SFabs v) by (cbn [n_abs fl64] in Hj'; congruence). apply abs_nonneg. }
    destruct (f_isnan (fdiv (sum vs) (f_ofZ (Z.of_nat (length vs))))) eqn:En; [left; apply isnan_nan, En|right; apply nonneg_ge0; assumption].
  Qed.

  Theorem C100_ignored_pair e s (a : sargs C F) s' log Xs ys g1 P g t f1 f2 v k1 k2 u :
    wf_frame (sa_X a) -> NoDup (included a) -> 0 < sa_repeat a ->
    sample_both Rg (sj_rng s) (sa_X a) (sa_y a) (sa_n a) = Ok (Xs, ys, g1) -> md_predict (sa_model a) = Some P -> rowwise P g ->
    sj_fit N Rg srt m e s a = (s', Ok tt, log) -> sj_ovo s' = Some t -> In (f1, f2, v) t ->
    nth_error (f_cols Xs) k1 = Some f1 -> nth_error (f_cols Xs) k2 = Some f2 ->
    unused (length (f_cols Xs)) g k1 -> unused (length (f_cols Xs)) g k2 ->
    mt_calc m ys (map g (f_rows Xs)) = Ok u -> number u ->
    v = f_zero.
  Proof.
    intros HX Hnd Hn Hs HPf HP H Ht Hin K1 K2 U1 U2 Hu Nu. destruct (sample_both_frame Rg HR _ _ _ _ _ _ _ HX Hs) as (_ & HXs & _).
    destruct (pair_rows e s a s' log Xs ys g1 P g t _ HX Hnd Hn Hs HPf HP H Ht Hin) as (ref & pr & c & Href & j1 & j2 & vs & J1 & J2 & Hl & Hv & E).
    destruct pr as [p1 p2]. cbn [fst snd] in *. assert (p1 = f1) by congruence. assert (p2 = f2) by congruence. assert (v = np_mean N vs) by congruence. subst p1 p2 v. clear E.
    assert (Hinj : forall i j f, nth_error (f_cols Xs) i = Some f -> nth_error (f_cols Xs) j = Some f -> i = j).
    { intros i j f A B. eapply (proj1 (NoDup_nth_error (f_cols Xs)) (proj1 HXs)); [apply nth_error_Some; congruence|congruence]. }
    rewrite (Hinj _ _ _ J1 K1), (Hinj _ _ _ J2 K2) in Hv. clear J1 J2.
    assert (ref = u) by (unfold scored in Href; congruence). subst ref.
    assert (Hsc : forall sel q x, Permutation q (seq 0 (length (f_rows Xs))) -> (forall k, In k sel -> unused (length (f_cols Xs)) g k) -> scored g m ys (rearranged (f_rows Xs) sel q) x -> x = u).
    { intros sel q x Hq Hk Hx. unfold scored in Hx. rewrite (map_unused _ _ g sel q (X_width Xs HXs) Hq Hk) in Hx. congruence. }
    assert (Hz : forall x, In x vs -> x = f_zero).
    { intros x Hx. apply In_nth_error in Hx as (j & Hj). assert (Hjl : j < sa_repeat a) by (rewrite <- Hl; apply nth_error_Some; congruence).
      destruct (Hv j Hjl) as (v & (u1 & u2 & u12 & S1 & S2 & S3 & ->) & Hj'). rewrite Hj' in Hj.
      apply Hsc in S1; [|apply nth_perm_ok, HR|intros k [<-|[]]; assumption]. apply Hsc in S2; [|apply nth_perm_ok, HR|intros k [<-|[]]; assumption].
      apply Hsc in S3; [|apply nth_perm_ok, HR|intros k [<-|[<-|[]]]; assumption]. subst u1 u2 u12.
      assert (Ex : n_abs N (neg_if_class N m (n_sub N (n_sub N (neg_if_class N m (n_sub N u u)) (neg_if_class N m (n_sub N u u))) (neg_if_class N m (n_sub N u u)))) = x) by congruence.
      rewrite <- Ex. unfold neg_if_class. cbn [n_abs n_neg n_sub fl64]. rewrite (self_difference u Nu). destruct (applicable_to m Classification); reflexivity. }
    unfold np_mean. cbn [n_div n_sum n_ofZ fl64]. rewrite (added_zeros vs (sum vs) (Hsum vs)) by (apply Forall_forall; intros x Hx; symmetry; apply Hz, Hx).
    rewrite Hl. apply zero_div_count, Hn.
  Qed.
End Doubles.

(** *** Importance *)
Section Importance.
  Context {C G : Type} (Rg : rng_ops G) (HR : rng_ok Rg) (srt : sorter) (Hsrt : sorter_ok srt) (sum : list F -> F) (Hsum : forall l, added l (sum l)) (m : metric F).
  Notation N := (fl64 sum).

  Lemma opp_rank_small v K : finite v /\ (2 ^ 52 * Z.abs (tiny v) <= K)%Z -> finite (SFopp v) /\ (2 ^ 52 * Z.abs (tiny (SFopp v)) <= K)%Z.
  Proof. intros [H1 H2]. split; [apply finite_opp, H1|]. rewrite tiny_opp, Z.abs_opp. exact H2. Qed.

  (** ** C101: the importance of a feature that the model ignores.
      Missing: it is 0 only up to rounding (refuted below); in units of the smallest positive double
      it is at most (n_repeat + 2) times the score divided by 2^52, plus one unit. *)
  Theorem C101_importance_partial (X : frame C) ys n fs g0 s s' t P g f v k u :
    wf_frame X -> rowwise P g -> NoDup fs -> p_rng s = g0 ->
    permutation_importance N Rg srt (Some P) m X ys n (Some fs) s = (s', Ok t) -> In (f, v) t ->
    nth_error (f_cols X) k = Some f -> unused (length (f_cols X)) g k ->
    mt_calc m ys (map g (f_rows X)) = Ok u -> finite u ->
    (0 < Z.of_nat n <= 2 ^ 50)%Z -> (2 * (Z.of_nat n * Z.abs (tiny u)) <= 2 ^ 2097)%Z ->
    finite v /\ (2 ^ 52 * Z.abs (tiny v) <= (Z.of_nat n + 2) * Z.abs (tiny u) + 2 ^ 52)%Z
    /\ (tiny u = 0%Z -> tiny v = 0%Z).
  Proof.
    intros HX HP Hnd Hg H Hin Hk U Hu Fu Hn Hb. destruct (importance_inv N Rg HR srt P g HP X HX m ys fs n g0 s s' t Hg H) as (base & vf & Hbase & -> & Hvf).
    assert (base = u) by (unfold scored in Hbase; congruence). subst base.
    destruct (sort_values_ok N srt false (fun r : string * F => snd r) (map (fun f => (f, neg_if_class N m (n_sub N (np_mean N (map vf (shuffles fs n f))) u))) (dedup fs)) Hsrt (fl64_ord sum)) as [Hp _].
    apply (Permutation_in _ Hp), in_map_iff in Hin as (f' & E & Hf). assert (f' = f) by (exact (f_equal fst E)). subst f'. apply (f_equal snd) in E. cbn [snd] in E. subst v.
    apply (proj1 (dedup_In f fs)) in Hf.
    assert (Hl : length (map vf (shuffles fs n f)) = n).
    { rewrite map_length, shuffles_length. replace (length (filter (String.eqb f) fs)) with 1; [lia|]. clear - Hnd Hf. induction fs as [|a l IH]; [destruct Hf|]. inversion Hnd; subst. cbn [filter].
      destruct (String.eqb_spec f a) as [->|Ne]; [|apply IH; [assumption|destruct Hf; [congruence|assumption]]].
      cbn [length]. f_equal. clear - H1. induction l as [|b l IH]; [reflexivity|]. cbn [filter]. destruct (String.eqb_spec a b) as [->|]; [destruct H1; left; reflexivity|]. apply IH. intros Hin; apply H1; right; exact Hin. }
    assert (Hall : Forall (eq u) (map vf (shuffles fs n f))).
    { apply Forall_forall. intros x Hx. apply in_map_iff in Hx as (i & <- & Hi). destruct (Hvf f i Hi) as (k' & Hk' & Hsc). 
      assert (k' = k) by (eapply (proj1 (NoDup_nth_error (f_cols X)) (proj1 HX)); [apply nth_error_Some; congruence|congruence]). subst k'.
      unfold scored in Hsc. rewrite (map_unused _ _ g [k] _ (X_width X HX) (nth_perm_ok Rg _ _ _ HR)) in Hsc; [congruence|]. intros k0 [<-|[]]. exact U. }
    set (l := map vf (shuffles fs n f)) in *. unfold np_mean. cbn [n_sub n_div n_sum n_ofZ fl64].
    assert (K : let v := fsub (fdiv (sum l) (f_ofZ (Z.of_nat (length l)))) u in finite v /\ (2 ^ 52 * Z.abs (tiny v) <= (Z.of_nat (length l) + 2) * Z.abs (tiny u) + 2 ^ 52)%Z)
      by (apply (mean_minus u l (sum l) Fu (Hsum l) Hall); rewrite Hl; assumption).
    cbv zeta in K. rewrite Hl in *. 
    assert (K2 : tiny u = 0%Z -> tiny (fsub (fdiv (sum l) (f_ofZ (Z.of_nat n))) u) = 0%Z).
    { intros Ez. assert (Eu : exists b, u = S754_zero b). { destruct u as [b|b| |b mm ee]; try contradiction; [eauto|]. exfalso. unfold tiny in Ez. cbn [units] in Ez. assert (0 < 2 ^ (ee - -1074))%Z by (apply Z.pow_pos_nonneg; [lia|]; destruct (bnd_spec mm ee Fu) as (_ & _ & ? & _); lia). destruct b; cbn [cond_Zopp] in Ez; nia. }
      destruct Eu as [b ->]. assert (Es : exists c, sum l = S754_zero c).
      { clear - Hsum Hall. pose proof (Hsum l) as Ha. revert Hall. generalize (sum l) Ha. clear. induction 1 as [|y|l l1 l2 x y Hp _ IH1 _ IH2]; intros Hall; [eexists; reflexivity|inversion Hall; eauto|].
        rewrite Hp in Hall. apply Forall_app in Hall as [A1 A2]. destruct (IH1 A1) as [c1 ->]. destruct (IH2 A2) as [c2 ->]. destruct c1, c2; eexists; reflexivity. }
      destruct Es as [c ->]. destruct (count_double (Z.of_nat n)) as (m' & e' & -> & _); [change (2 ^ 52)%Z with (4 * 2 ^ 50)%Z; lia|]. destruct c, b; reflexivity. }
    unfold neg_if_class. cbn [n_neg fl64]. destruct (applicable_to m Classification); [|tauto]. apply opp_rank_small in K. destruct K as [K0 K1]. split; [exact K0|]. split; [exact K1|]. intros Ez. rewrite tiny_opp, (K2 Ez). reflexivity.
  Qed.

  (** the same for the importances of a fit *)
  Theorem C101_fit_partial e s (a : sargs C F) s' log Xs ys g1 P g t f v k u :
    wf_frame (sa_X a) -> NoDup (included a) ->
    sample_both Rg (sj_rng s) (sa_X a) (sa_y a) (sa_n a) = Ok (Xs, ys, g1) -> md_predict (sa_model a) = Some P -> rowwise P g ->
    sj_fit N Rg srt m e s a = (s', Ok tt, log) -> sj_fi s' = Some t -> In (f, v) t ->
    nth_error (f_cols Xs) k = Some f -> unused (length (f_cols Xs)) g k ->
    mt_calc m ys (map g (f_rows Xs)) = Ok u -> finite u ->
    (0 < Z.of_nat (sa_repeat a) <= 2 ^ 50)%Z -> (2 * (Z.of_nat (sa_repeat a) * Z.abs (tiny u)) <= 2 ^ 2097)%Z ->
    finite v /\ (2 ^ 52 * Z.abs (tiny v) <= (Z.of_nat (sa_repeat a) + 2) * Z.abs (tiny u) + 2 ^ 52)%Z
    /\ (tiny u = 0%Z -> tiny v = 0%Z).
  Proof.
    intros HX Hnd Hs HPf HP H Ht Hin Hk U Hu Fu Hn Hb. destruct (sample_both_frame Rg HR _ _ _ _ _ _ _ HX Hs) as (_ & HXs & _).
    destruct (sj_fit_inv N Rg srt m e s a s' log Xs ys g1 Hs H) as (s1 & s2 & t' & fi & _ & E2 & _ & Hfi & _). rewrite Ht in Hfi. injection Hfi as <-. rewrite HPf in E2.
    eapply (C101_importance_partial Xs ys (sa_repeat a) (included a) e {| p_log := p_log s1; p_rng := e |} s2 t P g f v k u); eauto.
  Qed.
End Importance.

(** ** Concrete runs: three rows, three columns, ten repetitions (the default of fit), numpy's sum;
    the model returns the first column and one of three predictions is right *)
Definition stepR : rng_ops nat := {| r_seed := Z.to_nat; r_sample := fun g len n => (firstn n (rot g (seq 0 len)), S g); r_perm := fun g len => (rot g (seq 0 len), S g) |}.
Lemma stepR_ok : rng_ok stepR.
Proof. constructor; [exact (rk_sample rotR rotR_ok)|exact (rk_perm rotR rotR_ok)]. Qed.
Definition fl_X : frame Z := {| f_cols := ["a"; "b"; "c"]; f_index := [0; 1; 2]%Z; f_num := ["a"; "b"; "c"]; f_rows := [[0; 4; 7]; [1; 5; 7]; [1; 6; 8]]%Z |}.
Definition first_col (r : list Z) : F := f_ofZ (nth 0 r 0%Z).
Definition fl_model : model Z F := {| md_id := 0; md_proba1 := None; md_predict := Some (fun _ rows => Ok (map first_col rows)) |}.
Definition fl_y : target F := {| t_series := false; t_index := []; t_vals := map f_ofZ [0; 5; 6]%Z |}.
Definition fl_args : sargs Z F := {| sa_model := fl_model; sa_X := fl_X; sa_y := fl_y; sa_n := None; sa_repeat := 10; sa_features := None |}.
Definition fl_fit := sj_fit (C := Z) (fl64 np_sum) stepR isort (Accuracy (fl64 np_sum)).
(** one third, and the fifty-fourth power of one half *)
Definition f_third : F := S754_finite false 6004799503160661 (-54).
Definition f_2m54 : F := S754_finite false 4503599627370496 (-106).

(** the run meets the hypotheses of C100 and C101 *)
Example C100_example : exists s log t fi va,
  wf_frame (sa_X fl_args) /\ NoDup (included fl_args) /\ rng_ok stepR /\ (forall l, added l (np_sum l))
  /\ sample_both stepR 1 (sa_X fl_args) (sa_y fl_args) (sa_n fl_args) = Ok (fl_X, fl_y, 1)
  /\ rowwise (fun _ rows => Ok (map first_col rows)) first_col /\ unused 3 first_col 1 /\ unused 3 first_col 2 /\ ~ unused 3 first_col 0
  /\ mt_calc (Accuracy (fl64 np_sum)) fl_y (map first_col (f_rows fl_X)) = Ok f_third /\ number f_third /\ finite f_third
  /\ (2 * (10 * Z.abs (tiny f_third)) <= 2 ^ 2097)%Z
  /\ fl_fit 1 (sj_init 1) fl_args = (s, Ok tt, log) /\ length log = 122
  /\ sj_ovo s = Some t /\ In ("b", "c", f_zero) t
  /\ sj_fi s = Some fi /\ In ("a", va) fi /\ SFltb f_2m54 va = true /\ In ("b", SFopp f_2m54) fi /\ In ("c", SFopp f_2m54) fi.
Proof.
  assert (E : exists s log t fi va, fl_fit 1 (sj_init 1) fl_args = (s, Ok tt, log) /\ length log = 122
    /\ sj_ovo s = Some t /\ In ("b", "c", f_zero) t
    /\ sj_fi s = Some fi /\ In ("a", va) fi /\ SFltb f_2m54 va = true /\ In ("b", SFopp f_2m54) fi /\ In ("c", SFopp f_2m54) fi).
  { do 5 eexists. split; [vm_compute; reflexivity|]. split; [vm_compute; reflexivity|]. split; [vm_compute; reflexivity|]. split; [cbn; tauto|]. split; [vm_compute; reflexivity|].
    split; [left; reflexivity|]. split; [vm_compute; reflexivity|]. cbn. tauto. }
  destruct E as (s & log & t & fi & va & E). exists s, log, t, fi, va.
  split; [repeat constructor; cbn; intuition congruence|]. split; [repeat constructor; cbn; intuition congruence|]. split; [exact stepR_ok|]. split; [exact np_added|]. split; [reflexivity|].
  split; [intros i rows ys H; congruence|]. split; [intros [|x [|y [|z [|w r]]]] v H; try discriminate; reflexivity|]. split; [intros [|x [|y [|z [|w r]]]] v H; try discriminate; reflexivity|].
  split; [intros H; specialize (H [0; 0; 0]%Z 1%Z eq_refl); vm_compute in H; discriminate|]. split; [vm_compute; reflexivity|]. split; [exact I|]. split; [reflexivity|]. split; [vm_compute; discriminate|]. exact E.
Qed.

(** the model ignores the second column; its importance is not 0 *)
Theorem C101_zero_refuted :
  exists (a : sargs Z F) s log fi v, wf_frame (sa_X a) /\ NoDup (included a) /\ sa_repeat a = 10
    /\ md_predict (sa_model a) = Some (fun _ rows => Ok (map first_col rows)) /\ unused 3 first_col 1
    /\ mt_calc (Accuracy (fl64 np_sum)) (sa_y a) (map first_col (f_rows (sa_X a))) = Ok f_third
    /\ fl_fit 1 (sj_init (r_seed stepR 1)) a = (s, Ok tt, log) /\ sj_fi s = Some fi /\ In ("b", v) fi /\ SFeqb v f_zero = false.
Proof.
  destruct C100_example as (s & log & t & fi & va & H1 & H2 & _ & _ & _ & _ & H3 & _ & _ & H4 & _ & _ & _ & H5 & _ & _ & _ & H6 & _ & _ & H7 & _).
  exists fl_args, s, log, fi, (SFopp f_2m54). repeat (split; [first [exact H1|exact H2|exact H3|exact H4|exact H5|exact H6|exact H7|reflexivity]|]). reflexivity.
Qed.

Print Assumptions C100_nonnegative.
Print Assumptions C100_ignored_pair.
Print Assumptions C101_importance_partial.
Print Assumptions C101_fit_partial.
Print Assumptions C101_zero_refuted.
