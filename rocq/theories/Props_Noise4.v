(** C134, continued: the additivity index of a model that answers differently every time. *)
From Verif Require Import Py Num NumR Sorting Frame Rng PdCalc EngineFacts PdSpec PdFacts PdProofs PdTheorems PdErrors PdApi PdMethods MethodSpec
  PdMethodFacts PdMethodRun PdMethodReal PdMethodReal2 GreenwellFacts Props_Pd Props_Methods Props_Methods2 PermFacts Additivity Props_Additivity Views Props_Views PdAny Props_Any Props_Terms Props_Stable Props_Share Props_Stable3 Props_Stable4 Props_Noise.
From Coq Require Import Reals Lra Lia.
Open Scope string_scope.
Open Scope nat_scope.
Open Scope list_scope.
Notation within := Props_Any.within.

(** ** Specification *)
(** the answers of the predict function of the call, and of that of the supplied calculator if there
    is one, are always within [eps] of [h] *)
Definition add_noisy {C} (O : cell_ops C) (a : aargs C (ext R)) (h : list C -> R) (eps : R) (Xs : frame C) : Prop :=
  noisy (callable (aa_pf a)) h eps
  /\ match aa_calc a with None => True | Some c => exists m P b, reachable O xR m Xs P b c /\ noisy P h eps end.

(** ** The index from any predictions and any effects *)
Section Index.
  Open Scope R_scope.
  Context {C : Type} (l : list (list C)) (Hne : l <> []) (w : nat).
  (** predictions [K], effects [D p] of the column [p] *)
  Definition residue (K : list C -> R) (D : nat -> list C -> R) (r : list C) : R :=
    K r - Rmean (map K l) - Rsum (map (fun p => D p r - Rmean (map K l)) (seq 0 w)).
  Definition left_over K D : R := Rsum (map (fun r => Rsqr (residue K D r)) l).

  Lemma index_of cols K D : length cols = w -> ~ In "centered_prediction"%string cols ->
    snd (additivity_of xR (combine cols (map (fun p => map (fun r => Fin (D p r)) l) (seq 0 w))) (map (fun r => Fin (K r)) l))
    = n_sub xR (Fin 1) (n_div xR (Fin (left_over K D)) (Fin (variation l K))).
  Proof.
    intros Hc Hcp. unfold additivity_of. cbn [snd].
    assert (Em : np_mean xR (map (fun r => Fin (K r)) l) = Fin (Rmean (map K l))) by (rewrite <- (map_map K Fin l); apply xR_mean_fin; destruct l; [congruence|discriminate]). rewrite Em.
    set (mu := Rmean (map K l)) in *. set (effs := map (fun p => map (fun r => Fin (D p r)) l) (seq 0 w)).
    assert (Hle : length cols = length effs) by (unfold effs; rewrite map_length, seq_length; exact Hc).
    rewrite dict_set_new.
    2:{ rewrite map_map. cbn [fst]. rewrite (map_ext _ fst) by reflexivity. rewrite map_fst_combine by exact Hle. exact Hcp. }
    rewrite removelast_last, map_map. cbn [snd].
    rewrite <- (map_map snd (fun c => map (fun x => n_sub xR x (Fin mu)) c)), map_snd_combine by exact Hle.
    unfold effs. rewrite map_map.
    rewrite (map_ext _ (fun p => map (fun r => Fin (D p r - mu)) l)) by (intros; apply map_map).
    rewrite !map_length, (row_sums_effects xR l w (fun p r => Fin (D p r - mu))), map_map, vsub_map, !map_map.
    change (n_ofZ xR 1) with (Fin 1 : ext R). f_equal. f_equal.
    - unfold left_over. rewrite <- xR_sum_fin_map. f_equal. apply map_ext_in. intros r _. rewrite xR_sum_fin_map. unfold residue. fold mu. cbn -[Rmean]. unfold Rsqr. f_equal. f_equal; lra.
    - unfold variation. fold mu. rewrite <- series_sum_fin, map_map. reflexivity.
  Qed.

  Lemma left_over_nonneg K D : 0 <= left_over K D.
  Proof. apply Rsum_nonneg. intros x Hx; apply in_map_iff in Hx as (r & <- & _). apply Rle_0_sqr. Qed.

  Section Close.
    Context (Hw0 : (0 < w)%nat) (K K' : list C -> R) (D D' : nat -> list C -> R) (eps : R) (He : 0 <= eps)
            (HK : forall r, In r l -> Rabs (K' r - K r) <= eps) (HD : forall p r, (p < w)%nat -> In r l -> Rabs (D' p r - D p r) <= eps).
    Notation n := (INR (length l)).
    Lemma residue_close r : In r l -> Rabs (residue K' D' r - residue K D r) <= 2 * INR w * eps.
    Proof.
      intros Hr. pose proof (HK r Hr) as Dr. pose proof (mean_close l Hne K' K eps HK) as Dm. unfold residue.
      rewrite !Rsum_map_sub, !Rsum_map_const, seq_length.
      pose proof (Rsum_close (fun p => D p r) (fun p => D' p r) (seq 0 w) eps) as DS. rewrite seq_length in DS.
      specialize (DS (fun p Hp => HD p r (proj2 (proj1 (in_seq w 0 p) Hp)) Hr)).
      set (S := Rsum (map (fun p => D p r) (seq 0 w))) in *. set (S' := Rsum (map (fun p => D' p r) (seq 0 w))) in *.
      set (m := Rmean (map K l)) in *. set (m' := Rmean (map K' l)) in *.
      replace (K' r - m' - (S' - INR w * m') - (K r - m - (S - INR w * m))) with ((K' r - K r) + (- (S' - S) + (INR w - 1) * (m' - m))) by ring.
      assert (W1 : 0 <= INR w - 1) by (assert (INR 1 <= INR w) by (apply le_INR; lia); cbn in *; lra).
      assert (Dw : Rabs ((INR w - 1) * (m' - m)) <= (INR w - 1) * eps) by (rewrite Rabs_mult, (Rabs_pos_eq (INR w - 1)) by exact W1; apply Rmult_le_compat_l; assumption).
      eapply Rle_trans; [apply Rabs_triang|]. assert (Rabs (- (S' - S) + (INR w - 1) * (m' - m)) <= INR w * eps + (INR w - 1) * eps) by (eapply Rle_trans; [apply Rabs_triang|]; rewrite Rabs_Ropp; lra). lra.
    Qed.
    Lemma ratios_near c a a' b b' : 0 <= a -> eps < b -> Rabs (a' - a) <= c * eps -> Rabs (b' - b) <= eps ->
      0 < b' /\ Rabs (a' / b' - a / b) <= eps * (c + a / b) / (b - eps).
    Proof.
      intros Ha Hb Da Db. assert (Hb' : 0 < b - eps <= b') by (revert Db; unfold Rabs; destruct (Rcase_abs _); lra). split; [lra|].
      assert (Hx : 0 <= a / b) by (apply Rmult_le_pos; [exact Ha|left; apply Rinv_0_lt_compat; lra]).
      replace (a' / b' - a / b) with (((a' - a) - (a / b) * (b' - b)) * / b') by (field; lra).
      rewrite Rabs_mult, (Rabs_pos_eq (/ b')) by (left; apply Rinv_0_lt_compat; lra).
      apply Rmult_le_compat; [apply Rabs_pos|left; apply Rinv_0_lt_compat; lra| |apply Rinv_le_contravar; lra].
      assert (K1 : Rabs (a / b * (b' - b)) <= a / b * eps) by (rewrite Rabs_mult, (Rabs_pos_eq (a / b)) by exact Hx; apply Rmult_le_compat_l; assumption).
      eapply Rle_trans; [apply Rabs_triang|]. rewrite Rabs_Ropp. lra.
    Qed.
    Lemma left_over_close : eps < Rstd (map K l) ->
      0 < variation l K /\ 0 < variation l K'
      /\ Rabs (sqrt (left_over K' D' / variation l K') - sqrt (left_over K D / variation l K)) <= eps * (2 * INR w + sqrt (left_over K D / variation l K)) / (Rstd (map K l) - eps).
    Proof.
      intros Hsig. pose proof (INR_pos_length l Hne) as Pn.
      assert (Da : Rabs (sqrt (left_over K' D' / n) - sqrt (left_over K D / n)) <= 2 * INR w * eps).
      { pose proof (root_mean_close l Hne (residue K' D') (residue K D) (2 * INR w * eps)) as Q.
        assert (EU : forall k d, Rmean (map (fun r => Rsqr (residue k d r)) l) = left_over k d / n) by (intros k d; unfold Rmean; rewrite map_length; reflexivity).
        rewrite !EU in Q. apply Q; [apply Rmult_le_pos; [pose proof (pos_INR w); lra|exact He]|]. exact residue_close. }
      assert (Db : Rabs (Rstd (map K' l) - Rstd (map K l)) <= eps) by (apply (Rstd_close l K K' eps Hne He); exact HK).
      destruct (ratios_near (2 * INR w) (sqrt (left_over K D / n)) (sqrt (left_over K' D' / n)) (Rstd (map K l)) (Rstd (map K' l)) (sqrt_pos _) Hsig Da Db) as [Hb' Kr].
      assert (P : forall f, 0 < Rstd (map f l) -> 0 < variation l f).
      { intros f Hf. destruct (Rle_lt_dec (variation l f) 0) as [L|L]; [|exact L]. exfalso. rewrite <- root_variation, sqrt_neg_0 in Hf; [lra|]. unfold Rdiv. rewrite <- (Rmult_0_l (/ n)). apply Rmult_le_compat_r; [left; apply Rinv_0_lt_compat; exact Pn|exact L]. }
      assert (P1 : 0 < variation l K) by (apply P; lra). assert (P2 : 0 < variation l K') by (apply P, Hb'). split; [exact P1|]. split; [exact P2|].
      assert (E : forall k d, 0 < variation l k -> sqrt (left_over k d / variation l k) = sqrt (left_over k d / n) / Rstd (map k l)).
      { intros k d Hf. rewrite <- root_variation, <- sqrt_div; [|apply Rmult_le_pos; [apply left_over_nonneg|left; apply Rinv_0_lt_compat; exact Pn]|apply Rmult_lt_0_compat; [exact Hf|apply Rinv_0_lt_compat; exact Pn]].
        f_equal. field. split; lra. }
      rewrite !E by assumption. exact Kr.
    Qed.
  End Close.
End Index.

Section Noise.
  Context {C G : Type} (O : cell_ops C) (HO : cell_ok O) (Rg : rng_ops G) (HR : rng_ok Rg).
  Notation "'fin' h" := (fun r => Fin (h r)) (at level 10, only parsing).
  Notation no_clash a := (~ In "centered_prediction" (f_cols (aa_X a))).

  Lemma add_noisy_calc a h eps Xs c : add_noisy O a h eps Xs -> pick_calc O xR (aa_model a) Xs (aa_pf a) (aa_batch a) (aa_calc a) = Ok c ->
    exists m P b, reachable O xR m Xs P b c /\ noisy P h eps.
  Proof.
    intros [H1 H2] H. unfold pick_calc in H. destruct (aa_calc a) as [c0|].
    - destruct (negb _); [discriminate|]. destruct (negb _); [discriminate|]. injection H as <-. exact H2.
    - injection H as <-. exists (md_id (aa_model a)), (callable (aa_pf a)), (aa_batch a). split; [exists []; reflexivity|exact H1].
  Qed.

  (** a list of numbers near [f] on the rows, by the positions of the rows *)
  Notation value x := (match x with Fin z => z | _ => 0%R end).
  Lemma near_list (f : list C -> R) eps rows xs : Forall2 (fun r x => within (f r) eps x) rows xs ->
    xs = map (fun i => Fin (value (nth i xs NaN))) (seq 0 (length rows))
    /\ forall i, i < length rows -> (Rabs (value (nth i xs NaN) - f (nth i rows [])) <= eps)%R.
  Proof.
    intros F. pose proof (Forall2_same_length _ _ _ F) as Hl. split.
    - rewrite <- (map_id xs) at 1. rewrite <- (map_nth_seq (fun x => x) xs NaN), <- Hl. apply map_ext_in. intros i Hi. apply in_seq in Hi.
      destruct (Forall2_nth_seq _ rows xs [] NaN i F ltac:(lia)) as (z & -> & _). reflexivity.
    - intros i Hi. destruct (Forall2_nth_seq _ rows xs [] NaN i F Hi) as (z & -> & Hz). exact Hz.
  Qed.

  (** the index of a fit from its predictions and effects, by the positions of the rows *)
  Lemma noisy_index s a s' v h Xs eps : wf_frame (aa_X a) -> no_clash a -> add_fit O xR Rg s a = (s', Ok v) -> ad_X s' = Some Xs -> add_noisy O a h eps Xs -> f_rows Xs <> [] ->
    exists (K : list nat -> R) (D : nat -> list nat -> R), let ix := map (fun i => [i]) (seq 0 (length (f_rows Xs))) in
      v = n_sub xR (Fin 1%R) (n_div xR (Fin (left_over ix (length (f_cols Xs)) K D)) (Fin (variation ix K)))
      /\ (forall i, i < length (f_rows Xs) -> (Rabs (K [i] - h (nth i (f_rows Xs) [])) <= eps)%R)
      /\ (forall p i, p < length (f_cols Xs) -> i < length (f_rows Xs) -> (Rabs (D p [i] - RPD1_at (f_rows Xs) h p (nth i (f_rows Xs) [])) <= eps)%R).
  Proof.
    intros HX0 Hcp H HXs He Hne. apply add_fit_ok in H as (Xs0 & rng' & c & c1 & preds & pds & Es & Ec & Ep & Eq & Em & Hl & Hv & ->).
    cbn [ad_X] in HXs. injection HXs as ->. destruct (sample_wf Rg _ _ _ _ _ HR HX0 Es) as (HX & Hcols & _).
    destruct (add_noisy_calc a h eps Xs c He Ec) as (m & P & b & Hr & Hn).
    set (rows := f_rows Xs) in *. set (w := length (f_cols Xs)) in *.
    destruct (near_list h eps rows preds) as [Ek Hk]; [exact (proj1 He _ _ _ Eq)|].
    assert (Hd : length pds = w /\ forall p f, nth_error (f_cols Xs) p = Some f -> exists pd, nth_error pds p = Some (f, pd) /\ Forall2 (fun r x => within (RPD1_at rows h p r) eps x) rows pd).
    { apply mapM_Ok_inv in Em. split; [symmetry; exact (Forall2_same_length _ _ _ Em)|]. intros p f Hp.
      assert (Hpw : p < length (f_cols Xs)) by (apply nth_error_Some; congruence).
      pose proof (Forall2_nth_seq _ _ _ "" ("", []) p Em Hpw) as Hb. cbv beta in Hb. rewrite (nth_error_nth _ _ _ Hp) in Hb.
      rewrite (column_known Xs p f HX Hp) in Hb. cbn [bind] in Hb.
      destruct (single_noise O HO m Xs P b c None c1 h eps p f HX Hne Hn Hr Ep (nth_error_In _ _ Hp) Hp) as ((xs & A & B) & _). rewrite A in Hb. cbn [bind] in Hb. injection Hb as Hb.
      exists xs. split; [|exact B]. rewrite Hb. apply nth_error_nth'. rewrite <- (Forall2_same_length _ _ _ Em). exact Hpw. }
    destruct Hd as [Hlp Hd].
    set (at_ := fun r : list nat => match r with i :: _ => i | [] => 0 end).
    exists (fun r => value (nth (at_ r) preds NaN)), (fun p r => value (nth (at_ r) (snd (nth p pds ("", []))) NaN)). cbv zeta. set (ix := map (fun i => [i]) (seq 0 (length rows))).
    assert (Hix : ix <> []) by (unfold ix; destruct rows; [congruence|discriminate]).
    split; [|split].
    - rewrite <- (index_of ix Hix w (f_cols Xs) (fun r => value (nth (at_ r) preds NaN)) (fun p r => value (nth (at_ r) (snd (nth p pds ("", []))) NaN))); [|reflexivity|rewrite Hcols; exact Hcp].
      rewrite Hv. f_equal. f_equal; [|rewrite Ek at 1; unfold ix; rewrite map_map; reflexivity].
      apply nth_error_eq; [rewrite combine_length, map_length, seq_length, Nat.min_id; exact Hlp|]. intros p Hp. rewrite Hlp in Hp.
      destruct (nth_error (f_cols Xs) p) as [f|] eqn:Ef; [|apply nth_error_None in Ef; unfold w in Hp; lia].
      destruct (Hd p f Ef) as (pd & Epd & F). destruct (near_list (RPD1_at rows h p) eps rows pd F) as [Epd' _].
      rewrite nth_error_combine, Ef, nth_error_map, (nth_error_nth' _ 0) by (rewrite seq_length; exact Hp). rewrite seq_nth by exact Hp. cbn [option_map plus]. rewrite (nth_error_nth _ _ _ Epd). cbn [snd]. rewrite Epd. do 2 f_equal. rewrite Epd' at 1. unfold ix. rewrite map_map. reflexivity.
    - intros i Hi. cbn [at_]. apply Hk, Hi.
    - intros p i Hp Hi. cbn [at_]. destruct (nth_error (f_cols Xs) p) as [f|] eqn:Ef; [|apply nth_error_None in Ef; lia].
      destruct (Hd p f Ef) as (pd & Epd & F). rewrite (nth_error_nth _ _ _ Epd). cbn [snd]. apply (proj2 (near_list (RPD1_at rows h p) eps rows pd F)), Hi.
  Qed.

  (** the index and the one of [h] *)
  Lemma noisy_core s a s' v h Xs eps :
    wf_frame (aa_X a) -> no_clash a -> add_fit O xR Rg s a = (s', Ok v) -> ad_X s' = Some Xs -> add_noisy O a h eps Xs -> f_rows Xs <> [] ->
    (eps < Rstd (map h (f_rows Xs)))%R -> let q := (unexplained (f_rows Xs) (length (f_cols Xs)) h / variation (f_rows Xs) h)%R in
    (forall r, In r (f_rows Xs) -> length r = length (f_cols Xs)) /\ (0 < variation (f_rows Xs) h)%R
    /\ exists q', v = Fin (1 - q')%R /\ (0 <= q')%R /\ (Rabs (sqrt q' - sqrt q) <= eps * (2 * INR (length (f_cols Xs)) + sqrt q) / (Rstd (map h (f_rows Xs)) - eps))%R.
  Proof.
    intros HX0 Hcp H HXs He Hne Hsig. pose proof H as H'. apply add_fit_ok in H' as (Xs0 & rng' & c & c1 & preds & pds & Es & _ & _ & _ & _ & _ & _ & E').
    assert (Xs0 = Xs) by (rewrite E' in HXs; cbn [ad_X] in HXs; congruence). subst Xs0. destruct (sample_wf Rg _ _ _ _ _ HR HX0 Es) as (HX & _). clear E' Es preds pds c c1.
    destruct (noisy_index s a s' v h Xs eps HX0 Hcp H HXs He Hne) as (K & D & -> & HK & HD).
    set (rows := f_rows Xs) in *. set (w := length (f_cols Xs)) in *. set (ix := map (fun i => [i]) (seq 0 (length rows))) in *.
    pose proof (frame_width Xs HX) as Hw. fold rows w in Hw. cbv zeta. split; [exact Hw|].
    assert (He0 : (0 <= eps)%R) by (eapply Rle_trans; [apply Rabs_pos|apply (HK 0); destruct rows; [congruence|cbn; lia]]).
    assert (Hix : ix <> []) by (unfold ix; destruct rows; [congruence|discriminate]).
    set (at_ := fun r : list nat => match r with i :: _ => i | [] => 0 end). set (hx := fun r => h (nth (at_ r) rows [])). set (Fx := fun p r => RPD1_at rows h p (nth (at_ r) rows [])).
    assert (Em : forall T (f : list C -> T), map (fun r => f (nth (at_ r) rows [])) ix = map f rows) by (intros T f; unfold ix; rewrite map_map; cbn [at_]; apply (map_nth_seq f rows [])).
    assert (Eh : map hx ix = map h rows) by (apply (Em _ h)).
    assert (Ev : variation ix hx = variation rows h) by (unfold variation; rewrite Eh; f_equal; apply (Em _ (fun r => Rsqr (h r - Rmean (map h rows))))).
    assert (Eu : left_over ix w hx Fx = unexplained rows w h).
    { unfold left_over, residue, unexplained, effects. rewrite Eh. f_equal. apply (Em _ (fun r => Rsqr (h r - Rmean (map h rows) - Rsum (map (fun p => RPD1_at rows h p r - Rmean (map h rows))%R (seq 0 w))))). }
    assert (Hw0 : 0 < w).
    { destruct w as [|w0]; [exfalso|lia]. assert (Z : variation rows h = 0%R) by (apply variation_zero; intros r r' Hr Hr'; pose proof (Hw r Hr) as A1; pose proof (Hw r' Hr') as A2; destruct r, r'; try discriminate; reflexivity).
      rewrite <- root_variation, Z in Hsig. unfold Rdiv in Hsig. rewrite Rmult_0_l, sqrt_0 in Hsig. lra. } rewrite <- Eh in Hsig |- *.
    destruct (left_over_close ix Hix w Hw0 hx K Fx D eps He0) as (P1 & P2 & Kr); try exact Hsig.
    { intros r Hr. unfold ix in Hr. apply in_map_iff in Hr as (i & <- & Hi). apply in_seq in Hi. apply HK. lia. }
    { intros p r Hp Hr. unfold ix in Hr. apply in_map_iff in Hr as (i & <- & Hi). apply in_seq in Hi. apply HD; [exact Hp|lia]. }
    rewrite <- Eu, <- Ev. split; [exact P1|]. rewrite xR_div_fin by lra. exists (left_over ix w K D / variation ix K)%R. split; [reflexivity|].
    split; [apply Rmult_le_pos; [apply left_over_nonneg|left; apply Rinv_0_lt_compat; exact P2]|exact Kr].
  Qed.

  (** the index and the one of [h]: the roots of the unexplained shares are close *)
  Theorem C134_additivity s a s' v h Xs eps :
    wf_frame (aa_X a) -> no_clash a -> add_fit O xR Rg s a = (s', Ok v) -> ad_X s' = Some Xs -> add_noisy O a h eps Xs -> f_rows Xs <> [] ->
    (eps < Rstd (map h (f_rows Xs)))%R ->
    indices_close (length (f_cols Xs)) eps (Rstd (map h (f_rows Xs))) (additivity_spec xR (fin h) (f_rows Xs) (length (f_cols Xs))) v.
  Proof.
    intros HX0 Hcp H HXs He Hne Hsig. destruct (noisy_core s a s' v h Xs eps HX0 Hcp H HXs He Hne Hsig) as (Hw & P1 & q' & -> & Q' & Kr).
    rewrite (additivity_spec_fin (f_rows Xs) _ Hw h). rewrite xR_div_fin by lra.
    set (q := (unexplained (f_rows Xs) (length (f_cols Xs)) h / variation (f_rows Xs) h)%R) in *.
    assert (Q : (0 <= q)%R) by (apply Rmult_le_pos; [apply unexplained_nonneg|left; apply Rinv_0_lt_compat; exact P1]).
    exists (1 - q)%R, (1 - q')%R. split; [reflexivity|]. split; [reflexivity|]. split; [lra|]. split; [lra|].
    replace (1 - (1 - q'))%R with q' by ring. replace (1 - (1 - q))%R with q by ring. exact Kr.
  Qed.

  (** near an additive function the index is near 1 *)
  Theorem C134_additivity_near_one s a s' v h Xs eps :
    wf_frame (aa_X a) -> no_clash a -> add_fit O xR Rg s a = (s', Ok v) -> ad_X s' = Some Xs -> add_noisy O a h eps Xs -> f_rows Xs <> [] ->
    additive_model (length (f_cols Xs)) h -> (eps < Rstd (map h (f_rows Xs)))%R ->
    exists x, v = Fin x /\ (1 - Rsqr (2 * INR (length (f_cols Xs)) * eps / (Rstd (map h (f_rows Xs)) - eps)) <= x <= 1)%R.
  Proof.
    intros HX0 Hcp H HXs He Hne Hadd Hsig. destruct (noisy_core s a s' v h Xs eps HX0 Hcp H HXs He Hne Hsig) as (Hw & P1 & q' & -> & Q' & K).
    rewrite (additive_unexplained (f_rows Xs) _ Hw h Hadd) in K.
    replace (0 / variation (f_rows Xs) h)%R with 0%R in K by (unfold Rdiv; ring). rewrite sqrt_0, Rminus_0_r, Rplus_0_r, Rabs_pos_eq in K by apply sqrt_pos.
    exists (1 - q')%R. split; [reflexivity|]. split; [|lra]. pose proof (sqrt_pos q') as Sq. apply Rsqr_incr_1 in K; [|exact Sq|lra]. rewrite Rsqr_sqrt in K by exact Q'.
    replace (2 * INR (length (f_cols Xs)) * eps / (Rstd (map h (f_rows Xs)) - eps))%R with (eps * (2 * INR (length (f_cols Xs))) / (Rstd (map h (f_rows Xs)) - eps))%R by (unfold Rdiv; ring). lra.
  Qed.

  (** whatever the answers, the fit returns *)
  Theorem C134_additivity_returns s a h Xs eps rng' : wf_frame (aa_X a) -> sample_if_not_none Rg (ad_rng s) (aa_X a) (aa_n a) = Ok (Xs, rng') -> f_rows Xs <> [] ->
    noisy (callable (aa_pf a)) h eps -> total (callable (aa_pf a)) ->
    match aa_calc a with None => True | Some c => exists P b, reachable O xR (md_id (aa_model a)) Xs P b c /\ noisy P h eps /\ total P end ->
    complete O Xs -> exists s' v, add_fit O xR Rg s a = (s', Ok v) /\ ad_X s' = Some Xs /\ ad_index s' = Some v.
  Proof.
    intros HX0 Es Hne Hn Ht Hc Hcomp. destruct (sample_wf Rg _ _ _ _ _ HR HX0 Es) as (HX & _).
    assert (Hpick : exists c P b, pick_calc O xR (aa_model a) Xs (aa_pf a) (aa_batch a) (aa_calc a) = Ok c
              /\ reachable O xR (md_id (aa_model a)) Xs P b c /\ noisy P h eps /\ total P).
    { destruct (aa_calc a) as [c0|].
      - destruct Hc as (P & b & Hr & Hg & Htt). exists c0, P, b. split; [|auto]. eapply (pick_calc_ok O xR HO); [exact HX|exact Hr|reflexivity].
      - exists (calc_init O xR (md_id (aa_model a)) Xs (callable (aa_pf a)) (aa_batch a)), (callable (aa_pf a)), (aa_batch a).
        split; [reflexivity|]. split; [exists []; reflexivity|auto]. }
    destruct Hpick as (c & P & b & Ec & Hr & Hg & Htp).
    destruct (single_run O xR HO Xs P b _ c None HX Htp Hcomp Hr (fun f H => H)) as (c1 & E1 & _).
    destruct (Ht (length (c_log c1)) (f_rows Xs)) as (preds & Ep).
    destruct (mapM_ok (fun f => do x <- column Xs f; do pd <- get_pd_single O c1 f (Some x); Ok (f, pd)) (f_cols Xs)) as (pds & Em).
    { intros f Hf. destruct (In_nth_error _ _ Hf) as (p & Hp). rewrite (column_known Xs p f HX Hp). cbn [bind].
      destruct (single_noise O HO _ Xs P b c None c1 h eps p f HX Hne Hg Hr E1 Hf Hp) as ((xs & A & _) & _). rewrite A. cbn [bind]. eexists; reflexivity. }
    unfold add_fit. rewrite Es, Ec, E1, Ep, Em. cbn [bind]. rewrite <- (Forall2_same_length _ _ _ (Hn _ _ _ Ep)), Nat.eqb_refl.
    destruct (additivity_of xR _ _) as [full v]. eexists _, v. split; [reflexivity|]. split; reflexivity.
  Qed.
End Noise.

(** ** Example: [x + 2*y] on the four combinations of 0 and 1, a tenth added or taken away every other call *)
Definition nA : nat -> list (list Z) -> result (list (ext R)) := fun n rows => Ok (map (fun r => Fin (adhR r + if Nat.even n then / 10 else - / 10)%R) rows).
Lemma nA_noisy : noisy nA adhR (/ 10).
Proof.
  intros n rq an H. injection H as <-. induction rq as [|r rq IH]; cbn; constructor; [|exact IH].
  eexists. split; [reflexivity|]. destruct (Nat.even n); unfold Rabs; destruct (Rcase_abs _); lra.
Qed.
Example C134_additivity_example : exists s' x, add_fit Zcell xR rotR ad0 (mkadd nA adXR) = (s', Ok (Fin x)) /\ (4 / 5 <= x <= 1)%R.
Proof.
  assert (Hw : wf_frame adXR) by (repeat constructor; cbn; intuition congruence). assert (Hrows : f_rows adXR <> []) by discriminate.
  destruct (C134_additivity_returns Zcell Zcell_ok rotR rotR_ok ad0 (mkadd nA adXR) adhR adXR (/ 10) 0 Hw eq_refl Hrows nA_noisy) as (s' & v & E & EX & _).
  { intros n rows. eexists; reflexivity. }
  { exact I. }
  { intros f p v _ _. unfold c_isnan. cbn. rewrite Z.eqb_refl. reflexivity. }
  assert (Hadd : additive_model 2 adhR).
  { exists 0%R, (fun p v => match p, v with 0, Some x => IZR x | _, Some x => (2 * IZR x)%R | _, None => 0%R end).
    intros [|x [|y [|]]] Hr; cbn in Hr; try lia. cbn [seq map nth_error adhR]. rewrite !Rsum_cons, Rsum_nil. lra. }
  pose proof adhR_spread as Hs.
  destruct (C134_additivity_near_one Zcell Zcell_ok rotR rotR_ok ad0 (mkadd nA adXR) s' v adhR adXR (/ 10)%R Hw) as (x & -> & L & U); try assumption.
  - cbn. intuition congruence.
  - split; [exact nA_noisy|exact I].
  - lra.
  - exists s', x. split; [exact E|]. split; [|exact U]. eapply Rle_trans; [|exact L]. change (INR (length (f_cols adXR))) with (1 + 1)%R.
    set (d := Rstd (map adhR (f_rows adXR))) in *. assert (B : (2 * (1 + 1) * / 10 / (d - / 10) <= 4 / 10)%R).
    { apply (Rmult_le_reg_r (d - / 10)); [lra|]. unfold Rdiv at 1. rewrite Rmult_assoc, Rinv_l, Rmult_1_r by lra. lra. }
    assert (B0 : (0 <= 2 * (1 + 1) * / 10 / (d - / 10))%R) by (apply Rmult_le_pos; [lra|left; apply Rinv_0_lt_compat; lra]).
    apply Rsqr_incr_1 in B; [|exact B0|lra]. unfold Rsqr at 2 in B. lra.
Qed.

Print Assumptions C134_additivity.
Print Assumptions C134_additivity_near_one.
Print Assumptions C134_additivity_returns.
