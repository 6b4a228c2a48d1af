(** Property C134: the partial dependence based methods with a model that answers differently every
    time.  C12, C13, C17 and C20 assume a model that predicts row by row; here each answer is only
    known to be within [eps] of a function of the row. *)
From Verif Require Import Py Num NumR Sorting Frame Rng PdCalc EngineFacts PdSpec PdFacts PdProofs PdTheorems PdErrors PdApi PdMethods MethodSpec
  PdMethodFacts PdMethodRun PdMethodReal PdMethodReal2 GreenwellFacts Props_Pd Props_Methods Props_Methods2 Views Props_Views PdAny Props_Any Props_Terms Props_Stable Props_Share.
From Coq Require Import Reals Lra QArith.
Open Scope string_scope.
Open Scope nat_scope.
Open Scope list_scope.

(** ** Specification *)

(** the answers of the predict function of the call, and of that of the supplied calculator if there
    is one, are always within [eps] of [h] ([noisy], C132); the calculator is for the data [Xs] *)
Definition explains_noisy {C} (O : cell_ops C) (a : fargs C (ext R)) (h : list C -> R) (eps : R) (Xs : frame C) : Prop :=
  noisy (callable (get_predict_function (a_model a) (a_predict a))) h eps
  /\ match a_calc a with
     | None => True
     | Some c => exists m P b, reachable O xR m Xs P b c /\ noisy P h eps
     end.

(** ** Lists of values near the values of a function on the rows *)
Lemma within_list {A} (f : A -> R) eps l xs : Forall2 (fun r x => within (f r) eps x) l xs ->
  exists ks, xs = map Fin ks /\ Forall2 (fun r k => (Rabs (k - f r) <= eps)%R) l ks.
Proof.
  intros F. induction F as [|r x l xs (y & -> & Hy) F (ks & -> & Hk)]; [exists []; split; [reflexivity|constructor]|].
  exists (y :: ks). split; [reflexivity|constructor; assumption].
Qed.
Lemma map_nth_seq {A B} (f : A -> B) (l : list A) d : map (fun i => f (nth i l d)) (seq 0 (length l)) = map f l.
Proof.
  induction l as [|a l IH]; [reflexivity|]. cbn [length seq map nth]. f_equal. rewrite <- seq_shift, map_map. exact IH.
Qed.
Lemma Forall2_nth_seq {A B} (R : A -> B -> Prop) l k da db i : Forall2 R l k -> i < length l -> R (nth i l da) (nth i k db).
Proof. intros F. revert i. induction F; intros i Hi; [cbn in Hi; lia|]. destruct i; [assumption|]. cbn in *. apply IHF. lia. Qed.

Lemma hstat_noise {C} (rows : list (list C)) f12 f1 f2 pd1 pd2 pd12 eps : rows <> [] ->
  Forall2 (fun r x => within (f12 r) eps x) rows pd12 -> Forall2 (fun r x => within (f1 r) eps x) rows pd1 -> Forall2 (fun r x => within (f2 r) eps x) rows pd2 ->
  values_close (3 * eps) (H_value xR rows false (fun r => Fin (f12 r)) (fun r => Fin (f1 r)) (fun r => Fin (f2 r))) (hstat xR pd1 pd2 pd12 false).
Proof.
  intros Hne F12 F1 F2. apply within_list in F12 as (k12 & -> & F12). apply within_list in F1 as (k1 & -> & F1). apply within_list in F2 as (k2 & -> & F2).
  assert (He : (0 <= eps)%R).
  { destruct rows as [|r t]; [congruence|]. inversion F1; subst. eapply Rle_trans; [apply Rabs_pos|eassumption]. }
  set (ix := map (fun i => [i]) (seq 0 (length rows)) : list (list nat)). set (at_ := fun r : list nat => match r with i :: _ => i | [] => 0 end).
  assert (Hix : ix <> []) by (unfold ix; destruct rows; [congruence|discriminate]).
  assert (Er : forall f : list C -> R, map (fun r => Fin (f r)) rows = map (fun r => Fin (f (nth (at_ r) rows []))) ix).
  { intros f. unfold ix. rewrite map_map. cbn [at_]. symmetry. apply (map_nth_seq (fun r => Fin (f r)) rows []). }
  assert (Ek : forall k f, Forall2 (fun r k => (Rabs (k - f r) <= eps)%R) rows k -> map Fin k = map (fun r => Fin (nth (at_ r) k 0%R)) ix).
  { intros k f F. unfold ix. rewrite map_map. cbn [at_]. rewrite (Forall2_same_length _ _ _ F). symmetry. apply (map_nth_seq Fin k 0%R). }
  rewrite <- hstat_rows, !Er, (Ek k1 f1 F1), (Ek k2 f2 F2), (Ek k12 f12 F12), !hstat_rows.
  assert (Hc : forall k f, Forall2 (fun r k => (Rabs (k - f r) <= eps)%R) rows k -> forall r, In r ix -> (Rabs (nth (at_ r) k 0 - f (nth (at_ r) rows [])) <= eps)%R).
  { intros k f F r Hr. unfold ix in Hr. apply in_map_iff in Hr as (i & <- & Hi). apply in_seq in Hi. cbn [at_].
    apply (Forall2_nth_seq (fun r k => (Rabs (k - f r) <= eps)%R) rows k [] 0%R i F). lia. }
  apply (H_close ix Hix eps He (fun r => f12 (nth (at_ r) rows [])) (fun r => f1 (nth (at_ r) rows [])) (fun r => f2 (nth (at_ r) rows []))
           (fun r => nth (at_ r) k12 0%R) (fun r => nth (at_ r) k1 0%R) (fun r => nth (at_ r) k2 0%R)); try (intros r _; reflexivity); intros r Hr; eapply Hc; eassumption.
Qed.

(** two statistics with the same values on the rows *)
Lemma H_value_same {C} (rows : list (list C)) norm g12 g1 g2 f12 f1 f2 : is_fin rows g12 f12 -> is_fin rows g1 f1 -> is_fin rows g2 f2 ->
  H_value xR rows norm (fun r => Fin (f12 r)) (fun r => Fin (f1 r)) (fun r => Fin (f2 r)) = H_value xR rows norm g12 g1 g2.
Proof.
  intros H12 H1 H2. rewrite (H_value_fin rows norm g12 g1 g2 f12 f1 f2 H12 H1 H2).
  apply (H_value_fin rows norm _ _ _ f12 f1 f2); intros r _; reflexivity.
Qed.

(** Greenwell's value of a matrix near the values of a function of two values *)
Lemma mapM_length {A B} (f : A -> result B) l ys : mapM f l = Ok ys -> length ys = length l.
Proof. intros H. apply mapM_Ok_inv in H. symmetry. eapply Forall2_same_length, H. Qed.

Lemma greenwell_value_long n1 n2 k mat (y : ext R) : greenwell_value xR n1 n2 k mat = Ok y -> 2 <= length mat /\ 2 <= k.
Proof.
  unfold greenwell_value. intros H. apply bind_Ok in H as (ij & A & H). apply bind_Ok in H as (rj & B & H). apply bind_Ok in H as (ii & A2 & H). apply bind_Ok in H as (ri & B2 & _).
  unfold along in A, A2. unfold stat_stdev in B, B2.
  assert (L1 : length ij = length mat) by (destruct mat; [discriminate A|exact (mapM_length _ _ _ A)]).
  assert (L2 : length ii = k).
  { assert (E : length (columns_of k mat) = k) by (unfold columns_of; rewrite map_length; apply seq_length). destruct (columns_of k mat); [discriminate A2|]. rewrite (mapM_length _ _ _ A2). exact E. }
  destruct (Nat.ltb_spec (length ij) 2); [discriminate B|]. destruct (Nat.ltb_spec (length ii) 2); [discriminate B2|]. lia.
Qed.

Lemma greenwell_noise {C} n1 n2 (F : C -> C -> R) (gp gq : list C) eps mat y :
  Forall2 (fun v row => Forall2 (fun w x => within (F v w) eps x) gq row) gp mat -> greenwell_value xR n1 n2 (length gq) mat = Ok y ->
  2 <= length gp /\ 2 <= length gq /\ values_close (2 * eps) (Fin (Rgreenwell n1 n2 F gp gq)) y.
Proof.
  intros FM H. destruct (greenwell_value_long _ _ _ _ _ H) as [Lm Lq]. rewrite <- (Forall2_same_length _ _ _ FM) in Lm.
  split; [exact Lm|]. split; [exact Lq|].
  assert (K : exists ks, mat = map (map Fin) ks /\ Forall2 (fun v row => Forall2 (fun w k => (Rabs (k - F v w) <= eps)%R) gq row) gp ks).
  { clear - FM. induction FM as [|v row gp mat Hrow FM (ks & -> & IH)]; [exists []; split; [reflexivity|constructor]|].
    apply (within_list (F v)) in Hrow as (k & -> & Hk). exists (k :: ks). split; [reflexivity|constructor; assumption]. }
  destruct K as (ks & -> & FK). clear FM. destruct gp as [|dv gp'] eqn:Ep; [cbn in Lm; lia|]. rewrite <- Ep in *. destruct gq as [|dw gq'] eqn:Eq; [cbn in Lq; lia|]. rewrite <- Eq in *. clear Ep Eq.
  assert (Em : map (map Fin) ks = map (fun i => map (fun j => Fin (nth j (nth i ks []) 0%R)) (seq 0 (length gq))) (seq 0 (length gp))).
  { rewrite (Forall2_same_length _ _ _ FK).
    transitivity (map (fun i => map Fin (nth i ks [])) (seq 0 (length ks))); [symmetry; apply (map_nth_seq (map Fin) ks [])|].
    apply map_ext_in. intros i Hi. apply in_seq in Hi.
    assert (Hrow : Forall2 (fun w k => (Rabs (k - F (nth i gp dv) w) <= eps)%R) gq (nth i ks [])).
    { apply (Forall2_nth_seq (fun v row => Forall2 (fun w k => (Rabs (k - F v w) <= eps)%R) gq row) gp ks dv [] i FK). rewrite (Forall2_same_length _ _ _ FK). lia. }
    rewrite (Forall2_same_length _ _ _ Hrow). symmetry. apply (map_nth_seq Fin (nth i ks []) 0%R). }
  rewrite Em in H. replace (length gq) with (length (seq 0 (length gq))) in H at 1 by apply seq_length.
  rewrite greenwell_value_fin in H by (rewrite seq_length; assumption). injection H as <-.
  replace (Rgreenwell n1 n2 F gp gq) with (Rgreenwell n1 n2 (fun i j => F (nth i gp dv) (nth j gq dw)) (seq 0 (length gp)) (seq 0 (length gq))).
  - eexists _, _. split; [reflexivity|]. split; [reflexivity|].
    assert (Hc : forall i j, In i (seq 0 (length gp)) -> In j (seq 0 (length gq)) -> (Rabs (nth j (nth i ks []) 0 - F (nth i gp dv) (nth j gq dw)) <= eps)%R).
    { intros i j Hi Hj. apply in_seq in Hi, Hj.
      assert (Hrow : Forall2 (fun w k => (Rabs (k - F (nth i gp dv) w) <= eps)%R) gq (nth i ks [])).
      { apply (Forall2_nth_seq (fun v row => Forall2 (fun w k => (Rabs (k - F v w) <= eps)%R) gq row) gp ks dv [] i FK). lia. }
      apply (Forall2_nth_seq (fun w k => (Rabs (k - F (nth i gp dv) w) <= eps)%R) gq _ dw 0%R j Hrow). lia. }
    apply Rgreenwell_close; [rewrite seq_length; exact Lm|rewrite seq_length; exact Lq| |exact Hc].
    eapply Rle_trans; [apply Rabs_pos|apply (Hc 0 0); apply in_seq; lia].
  - unfold Rgreenwell. f_equal. f_equal; f_equal.
    + transitivity (map (fun i => Rimp n2 (map (fun u => F (nth i gp dv) u) gq)) (seq 0 (length gp))).
      * apply map_ext. intros i. f_equal. apply (map_nth_seq (fun u => F (nth i gp dv) u) gq dw).
      * apply (map_nth_seq (fun v => Rimp n2 (map (fun u => F v u) gq)) gp dv).
    + transitivity (map (fun j => Rimp n1 (map (fun v => F v (nth j gq dw)) gp)) (seq 0 (length gq))).
      * apply map_ext. intros j. f_equal. apply (map_nth_seq (fun v => F v (nth j gq dw)) gp dv).
      * apply (map_nth_seq (fun u => Rimp n1 (map (fun v => F v u) gp)) gq dw).
Qed.

(** values of a column, and of two columns, as values of the rows *)
Lemma Forall2_col {C B} (S : C -> B -> Prop) p (rows : list (list C)) xs : (forall r, In r rows -> p < length r) -> Forall2 S (col_at p rows) xs ->
  Forall2 (fun r x => exists v, nth_error r p = Some v /\ S v x) rows xs.
Proof.
  unfold col_at. revert xs. induction rows as [|r t IH]; intros xs Hl F; [inversion F; constructor|]. cbn [flat_map] in F.
  destruct (nth_error r p) as [v|] eqn:E; [|apply nth_error_None in E; specialize (Hl r (or_introl eq_refl)); lia].
  cbn [app] in F. inversion F; subst. constructor; [exists v; split; assumption|]. apply IH; [intros; apply Hl; right; assumption|assumption].
Qed.
Lemma Forall2_cols {C B} (S : C * C -> B -> Prop) p q (rows : list (list C)) xs : (forall r, In r rows -> p < length r /\ q < length r) ->
  Forall2 S (combine (col_at p rows) (col_at q rows)) xs -> Forall2 (fun r x => exists v w, nth_error r p = Some v /\ nth_error r q = Some w /\ S (v, w) x) rows xs.
Proof.
  unfold col_at. revert xs. induction rows as [|r t IH]; intros xs Hl F; [inversion F; constructor|]. cbn [flat_map] in F. destruct (Hl r (or_introl eq_refl)) as [L1 L2].
  destruct (nth_error r p) as [v|] eqn:E; [|apply nth_error_None in E; lia]. destruct (nth_error r q) as [w|] eqn:E2; [|apply nth_error_None in E2; lia].
  cbn [app combine] in F. inversion F; subst. constructor; [exists v, w; auto|]. apply IH; [intros; apply Hl; right; assumption|assumption].
Qed.

Section Noise.
  Context {C G : Type} (O : cell_ops C) (HO : cell_ok O) (Rg : rng_ops G) (HR : rng_ok Rg) (srt : sorter) (Hs : sorter_ok srt).
  Notation fit := (PdMethods.fit O xR Rg srt).
  Notation "'fin' h" := (fun r => Fin (h r)) (at level 10, only parsing).
  Notation values X p := (np_unique O (col_at p (f_rows X))).

  Lemma noisy_calc a h eps Xs c : explains_noisy O a h eps Xs -> pick_calc O xR (a_model a) Xs (pf_of a) (a_batch a) (a_calc a) = Ok c ->
    exists m P b, reachable O xR m Xs P b c /\ noisy P h eps.
  Proof.
    intros [H1 H2] H. unfold pick_calc in H. destruct (a_calc a) as [c0|].
    - destruct (negb _); [discriminate|]. destruct (negb _); [discriminate|]. injection H as <-. exact H2.
    - injection H as <-. exists (md_id (a_model a)), (callable (pf_of a)), (a_batch a). split; [|exact H1]. exists []; reflexivity.
  Qed.

  (** the single profile at the values of the column *)
  Lemma single_noise m X P b c fs c' h eps p f : wf_frame X -> f_rows X <> [] -> noisy P h eps -> reachable O xR m X P b c ->
    calculate_pd_single O xR c fs = (c', Ok tt) -> In f (feats X fs) -> nth_error (f_cols X) p = Some f ->
    (exists xs, get_pd_single O c' f (Some (col_at p (f_rows X))) = Ok xs /\ Forall2 (fun r x => within (RPD1_at (f_rows X) h p r) eps x) (f_rows X) xs)
    /\ exists xs, get_pd_single O c' f None = Ok xs /\ Forall2 (fun v x => within (PD1 Rmean h (f_rows X) p v) eps x) (values X p) xs.
  Proof.
    intros HX Hne Hn Hr H Hf Hp. split; [|exact (proj1 (C132_noise O HO m X P b c h eps p f HX Hne Hn Hr Hp) fs c' H Hf)].
    destruct (proj2 (proj2 (C132_single O xR HO eq_refl m X P b c p f HX Hr Hp)) fs c' H Hf) as (A & _).
    destruct (A (col_at p (f_rows X)) (fun v Hv => Hv)) as (xs & Hx & F). exists xs. split; [exact Hx|].
    apply Forall2_col in F; [|intros r Hrr; eapply wf_len; eassumption].
    eapply Forall2_weaken; [|exact F]. intros r x Hrr (v & Ev & Ha). unfold RPD1_at. rewrite Ev.
    apply (answered_noise P h eps _ _ _ Hn) in Ha; [|unfold column_set; destruct (f_rows X); [congruence|discriminate]].
    unfold column_set in Ha. rewrite map_map in Ha. exact Ha.
  Qed.

  Lemma pair_noise m X P b c ps c' h eps p q f1 f2 : wf_frame X -> f_rows X <> [] -> noisy P h eps -> reachable O xR m X P b c ->
    calculate_pd_pairs O xR c ps false = (c', Ok tt) -> requested X ps f1 f2 -> nth_error (f_cols X) p = Some f1 -> nth_error (f_cols X) q = Some f2 -> p <> q ->
    exists xs, get_pd_pairs O c' f1 f2 (combine (col_at p (f_rows X)) (col_at q (f_rows X))) = Ok xs
      /\ Forall2 (fun r x => within (RPD2_at (f_rows X) h p q r) eps x) (f_rows X) xs.
  Proof.
    intros HX Hne Hn Hr H Hreq Hp Hq Hpq.
    assert (Hlen : forall r, In r (f_rows X) -> p < length r /\ q < length r) by (intros r Hrr; split; eapply wf_len; eassumption).
    destruct (proj2 (proj2 (C132_noise O HO m X P b c h eps p f1 HX Hne Hn Hr Hp)) f2 q ps false c' (combine (col_at p (f_rows X)) (col_at q (f_rows X))) Hq Hpq H Hreq) as (xs & Hx & F).
    { intros v w Hvw. apply (combine_cols_In p q); assumption. }
    exists xs. split; [exact Hx|]. apply Forall2_cols in F; [|exact Hlen]. eapply Forall2_weaken; [|exact F].
    intros r x _ (v & w & Ev & Ew & Ha). unfold RPD2_at. rewrite Ev, Ew. exact Ha.
  Qed.

  (** *** Friedman's pairs *)
  Lemma friedman_ovo_noise X fs ps c c' t m P b h eps :
    wf_frame X -> f_rows X <> [] -> noisy P h eps -> reachable O xR m X P b c -> (forall p, In p ps -> In (fst p) fs /\ In (snd p) fs) ->
    friedman_ovo O xR srt false X fs ps c = (c', Ok t) ->
    exists l, t = table xR srt l /\ reachable O xR m X P b c'
      /\ Forall2 (fun pr r => fst r = pr /\ exists p q, nth_error (f_cols X) p = Some (fst pr) /\ nth_error (f_cols X) q = Some (snd pr) /\ p <> q
                     /\ values_close (3 * eps) (H_pair xR (fin h) (f_rows X) false p q) (snd r)) ps l.
  Proof.
    intros HX Hne Hn Hr Hps H. unfold friedman_ovo in H.
    destruct (calculate_pd_pairs O xR c (Some ps) false) as [c1 [[]|e]] eqn:E1; [|discriminate].
    destruct (calculate_pd_single O xR c1 (Some fs)) as [c2 [[]|e]] eqn:E2; [|discriminate].
    apply pair_equal_spec in H as [<- H].
    assert (Hr1 : reachable O xR m X P b c1) by (eapply (reachable_step O xR m X P b c (OpPairs (Some ps) false)); [exact Hr|exact E1]).
    assert (Hr2 : reachable O xR m X P b c2) by (eapply (reachable_step O xR m X P b c1 (OpSingle (Some fs))); [exact Hr1|exact E2]).
    destruct (mapM _ ps) as [l|e] eqn:El; cbn [bind] in H; [|discriminate]. injection H as H.
    pose proof (single_isolation O xR HO m X P b c1 (Some fs) c2 (Ok tt) HX Hr1 E2) as (Hpc & _).
    exists l. split; [subst t; reflexivity|]. split; [exact Hr2|]. apply mapM_Ok_inv in El. eapply Forall2_weaken; [|exact El].
    intros [f1 f2] x Hin Hx. cbv beta in Hx. cbn [fst snd] in *. destruct (Hps _ Hin) as [Hf1 Hf2]; cbn [fst snd] in *.
    destruct (column X f1) as [x1|] eqn:C1; cbn [bind] in Hx; [|discriminate].
    destruct (get_pd_single O c2 f1 (Some x1)) as [pd1|] eqn:G1; cbn [bind] in Hx; [|discriminate].
    destruct (column X f2) as [x2|] eqn:C2; cbn [bind] in Hx; [|discriminate].
    destruct (get_pd_single O c2 f2 (Some x2)) as [pd2|] eqn:G2; cbn [bind] in Hx; [|discriminate].
    destruct (get_pd_pairs O c2 f1 f2 (combine x1 x2)) as [pd12|] eqn:G12; cbn [bind] in Hx; [|discriminate].
    injection Hx as <-. cbn [fst snd]. split; [reflexivity|].
    apply column_pos in C1 as (p & Hp & _ & ->). apply column_pos in C2 as (q & Hq & _ & ->).
    assert (Hpq : p <> q).
    { intros <-. assert (f1 = f2) by congruence. subst f2.
      destruct (reachable_shaped O xR HO m X P b c2 HX Hr2) as ((_ & Hs2 & _) & HXc & _). rewrite HXc in Hs2.
      unfold get_pd_pairs in G12. destruct (dict_get pair_eqb (get_pair_key c2 (f1, f1)) (c_pairs c2)) as [e|] eqn:Ee; [|discriminate].
      apply PdFacts.dict_get_assoc in Ee. eapply PdProofs.pshape_assoc in Ee as [Ee _]; [|exact Hs2].
      unfold get_pair_key in Ee. pose proof HX as (Hnd & _).
      assert (Hk : In (f1, f1) (combinations2 (f_cols X))) by (destruct (assoc _ _ _); exact Ee).
      apply combinations2_irrefl in Hk; [|exact Hnd]. congruence. }
    exists p, q. split; [exact Hp|]. split; [exact Hq|]. split; [exact Hpq|].
    destruct (single_noise m X P b c1 (Some fs) c2 h eps p f1 HX Hne Hn Hr1 E2 Hf1 Hp) as ((y1 & A1 & B1) & _). rewrite A1 in G1. injection G1 as <-.
    destruct (single_noise m X P b c1 (Some fs) c2 h eps q f2 HX Hne Hn Hr1 E2 Hf2 Hq) as ((y2 & A2 & B2) & _). rewrite A2 in G2. injection G2 as <-.
    rewrite (get_pd_pairs_ext O c2 c1 f1 f2 _ Hpc) in G12.
    destruct (pair_noise m X P b c (Some ps) c1 h eps p q f1 f2 HX Hne Hn Hr E1 (or_introl Hin) Hp Hq Hpq) as (y12 & A12 & B12). rewrite A12 in G12. injection G12 as <-.
    pose proof (hstat_noise (f_rows X) (RPD2_at (f_rows X) h p q) (RPD1_at (f_rows X) h p) (RPD1_at (f_rows X) h q) y1 y2 y12 eps Hne B12 B1 B2) as K.
    rewrite (H_value_same (f_rows X) false (PD2_at xR (fin h) (f_rows X) p q) (PD1_at xR (fin h) (f_rows X) p) (PD1_at xR (fin h) (f_rows X) q)) in K.
    - exact K.
    - apply (PD2_at_fin (f_rows X) (length (f_cols X)) (wf_rows X HX)); eapply pos_lt; eassumption.
    - apply (PD1_at_fin (f_rows X) (length (f_cols X)) (wf_rows X HX)); eapply pos_lt; eassumption.
    - apply (PD1_at_fin (f_rows X) (length (f_cols X)) (wf_rows X HX)); eapply pos_lt; eassumption.
  Qed.

  Lemma fillna0_close eps v w : values_close eps v w -> values_close eps (or_zero xR v) (fillna0 xR w).
  Proof. intros (x & x' & -> & -> & H). exists x, x'. split; [reflexivity|]. split; [reflexivity|exact H]. Qed.
  Lemma Forall2_In_right {A B} (S : A -> B -> Prop) l k y : Forall2 S l k -> In y k -> exists x, In x l /\ S x y.
  Proof. intros F. induction F; intros Hy; [destruct Hy|]. destruct Hy as [<-|Hy]; [eexists; split; [left; reflexivity|assumption]|]. destruct (IHF Hy) as (z & ? & ?). exists z. split; [right; assumption|assumption]. Qed.

  Theorem C134_pairs s a s' h eps Xs :
    wf_frame (a_X a) -> fit (Friedman false) s a = (s', Ok tt) -> m_X s' = Some Xs -> explains_noisy O a h eps Xs -> f_rows Xs <> [] ->
    exists t, m_ovo s' = Some t
      /\ Permutation (map fst t) (combinations2 (all_features a))
      /\ forall f1 f2 v, In (f1, f2, v) t ->
           exists p q, nth_error (f_cols Xs) p = Some f1 /\ nth_error (f_cols Xs) q = Some f2 /\ p <> q
             /\ values_close (3 * eps) (or_zero xR (H_pair xR (fin h) (f_rows Xs) false p q)) v.
  Proof.
    intros HX H HXs Hex Hne. apply fit_ok in H as (Xs' & rng' & c & c1 & t & c2 & fi & Es & Ec & Eo & Ei & E1 & E2 & E3 & E4 & E5 & E6).
    rewrite HXs in E1; injection E1 as <-. destruct (sample_wf Rg _ _ _ _ _ HR HX Es) as (HwX & _).
    destruct (noisy_calc _ _ _ _ _ Hex Ec) as (m & P & b & Hr & Hn). cbn [ovo_of] in Eo.
    apply (friedman_ovo_noise Xs _ _ _ _ _ m P b h eps HwX Hne Hn Hr) in Eo as (l & -> & _ & F); [|intros p; apply combinations2_fst_snd].
    exists (table xR srt l). split; [exact E3|]. split.
    - rewrite (table_keys xR srt Hs xR_ord). replace (map fst l) with (combinations2 (all_features a)); [reflexivity|]. clear - F. induction F as [|x y l k [E _] F IH]; [reflexivity|]. cbn. congruence.
    - intros f1 f2 v Hv. apply (table_In xR srt Hs xR_ord) in Hv as (w & Hw & ->). apply (Forall2_In_right _ _ _ _ F) in Hw as (pr & _ & Epr & p & q & Hp & Hq & Hpq & Hc).
      cbn [fst snd] in *. subst pr. exists p, q. split; [exact Hp|]. split; [exact Hq|]. split; [exact Hpq|]. apply fillna0_close, Hc.
  Qed.

  (** *** Importance *)
  Lemma pdp_importance_noise X fs c c' t m P b h eps :
    wf_frame X -> f_rows X <> [] -> noisy P h eps -> reachable O xR m X P b c ->
    pdp_importance O xR srt X fs c = (c', Ok t) ->
    exists l, t = table xR srt l /\ calculate_pd_single O xR c None = (c', Ok tt)
    /\ Forall2 (fun f r => fst r = f /\ exists p, nth_error (f_cols X) p = Some f
         /\ values_close eps (Fin (Rspread (str_in f (f_num X)) (map (PD1 Rmean h (f_rows X) p) (values X p)))) (snd r)) fs l.
  Proof.
    intros HX Hne Hn Hr H. unfold pdp_importance in H.
    destruct (calculate_pd_single O xR c None) as [c1 [[]|e]] eqn:E1; [|discriminate].
    apply pair_equal_spec in H as [<- H]. destruct (mapM _ fs) as [l|e] eqn:El; cbn [bind] in H; [|discriminate]. injection H as H.
    assert (Hr1 : reachable O xR m X P b c1) by (eapply (reachable_step O xR m X P b c (OpSingle None)); [exact Hr|exact E1]).
    destruct (reachable_shaped O xR HO m X P b c1 HX Hr1) as ((Hs1 & _ & _) & HXc & _). rewrite HXc in Hs1.
    exists l. split; [subst t; reflexivity|]. split; [reflexivity|]. apply mapM_Ok_inv in El. eapply Forall2_weaken; [|exact El].
    intros f r Hfin Hfr. cbv beta in Hfr.
    change (do e <- dict_get String.eqb f (c_single c1); Ok (snd e)) with (get_pd_single O c1 f None) in Hfr.
    destruct (get_pd_single O c1 f None) as [pdp|] eqn:Eg; cbn [bind] in Hfr; [|discriminate].
    destruct (calc_importance xR pdp _) as [v|] eqn:Ev; cbn [bind] in Hfr; [|discriminate]. injection Hfr as <-. cbn [fst snd].
    assert (Hf : In f (f_cols X)).
    { unfold get_pd_single in Eg. destruct (dict_get String.eqb f (c_single c1)) as [e|] eqn:Ee; [|discriminate].
      apply PdFacts.dict_get_assoc in Ee. eapply PdProofs.sshape_assoc in Ee as [Ee _]; [exact Ee|exact Hs1]. }
    split; [reflexivity|]. apply In_nth_error in Hf as (p & Hp). exists p. split; [exact Hp|].
    destruct (single_noise m X P b c None c1 h eps p f HX Hne Hn Hr E1) as (_ & xs & Hx & F); [cbn; eapply nth_error_In, Hp|exact Hp|].
    rewrite Hx in Eg. injection Eg as <-. unfold is_numerical in Ev. replace (str_in f fs) with true in Ev by (symmetry; apply str_in_In, Hfin). cbn [andb] in Ev.
    apply within_list in F as (ks & -> & F).
    assert (Hv : values X p <> []).
    { intros E. apply (proj1 (np_unique_nil O HO _)) in E. destruct (f_rows X) as [|r0 rows] eqn:Er; [congruence|].
      assert (L0 : p < length r0) by (rewrite (wf_rows X HX r0) by (rewrite Er; left; reflexivity); eapply pos_lt; exact Hp).
      destruct (nth_error r0 p) as [x|] eqn:Ex; [|apply nth_error_None in Ex; lia].
      assert (Hx0 : In x (col_at p (r0 :: rows))) by (apply col_at_In; exists r0; split; [left; reflexivity|exact Ex]). rewrite E in Hx0. exact Hx0. }
    assert (Hk : ks <> []) by (intros ->; inversion F as [E|]; congruence).
    rewrite calc_importance_fin in Ev by exact Hk. injection Ev as <-. eexists _, _. split; [reflexivity|]. split; [reflexivity|].
    assert (He : (0 <= eps)%R) by (destruct (values X p); [congruence|]; inversion F; subst; eapply Rle_trans; [apply Rabs_pos|eassumption]).
    destruct (values X p) as [|v0 vs] eqn:Evs; [congruence|]. rewrite <- Evs in *.
    rewrite <- (map_nth_seq (PD1 Rmean h (f_rows X) p) (values X p) v0). rewrite <- (map_id ks). rewrite <- (map_nth_seq (fun k => k) ks 0%R), <- (Forall2_same_length _ _ _ F).
    apply Rspread_close; [destruct (values X p); [congruence|discriminate]|exact He|].
    intros i Hi. apply in_seq in Hi. apply (Forall2_nth_seq (fun v k => (Rabs (k - PD1 Rmean h (f_rows X) p v) <= eps)%R) _ _ v0 0%R i F). lia.
  Qed.

  Theorem C134_importance k s a s' h eps Xs :
    wf_frame (a_X a) -> fit k s a = (s', Ok tt) -> m_X s' = Some Xs -> explains_noisy O a h eps Xs -> f_rows Xs <> [] ->
    exists t, m_fi s' = Some t
      /\ Permutation (map fst t) (all_features a)
      /\ forall f v, In (f, v) t -> exists p, nth_error (f_cols Xs) p = Some f
           /\ values_close eps (Fin (Rspread (str_in f (f_num Xs)) (map (PD1 Rmean h (f_rows Xs) p) (values Xs p)))) v.
  Proof.
    intros HX H HXs Hex Hne. apply fit_ok in H as (Xs' & rng' & c & c1 & t & c2 & fi & Es & Ec & Eo & Ei & E1 & E2 & E3 & E4 & E5 & E6).
    rewrite HXs in E1; injection E1 as <-. destruct (sample_wf Rg _ _ _ _ _ HR HX Es) as (HwX & _).
    destruct (noisy_calc _ _ _ _ _ Hex Ec) as (m & P & b & Hr & Hn).
    assert (Hr1 : reachable O xR m Xs P b c1).
    { destruct k as [norm|]; cbn [ovo_of] in Eo.
      - unfold friedman_ovo in Eo. destruct (calculate_pd_pairs O xR c _ false) as [d1 [[]|e]] eqn:D1; [|discriminate].
        destruct (calculate_pd_single O xR d1 _) as [d2 [[]|e]] eqn:D2; [|discriminate]. injection Eo as <- _.
        eapply (reachable_step O xR m Xs P b d1 (OpSingle _)); [|exact D2]. eapply (reachable_step O xR m Xs P b c (OpPairs _ false)); [exact Hr|exact D1].
      - unfold greenwell_ovo in Eo. destruct (calculate_pd_pairs O xR c _ true) as [d1 [[]|e]] eqn:D1; [|discriminate]. injection Eo as <- _.
        eapply (reachable_step O xR m Xs P b c (OpPairs _ true)); [exact Hr|exact D1]. }
    apply (pdp_importance_noise Xs _ _ _ _ m P b h eps HwX Hne Hn Hr1) in Ei as (l & -> & _ & F).
    exists (table xR srt l). split; [exact E4|]. split.
    - rewrite (table_keys xR srt Hs xR_ord). replace (map fst l) with (all_features a); [reflexivity|]. clear - F. revert F. generalize (all_features a). intros fs F. induction F as [|x y l k [E _] F IH]; [reflexivity|]. cbn. congruence.
    - intros f v Hv. apply (table_In xR srt Hs xR_ord) in Hv as (w & Hw & ->). apply (Forall2_In_right _ _ _ _ F) in Hw as (f' & _ & Ef & p & Hp & Hc).
      cbn [fst snd] in *. subst f'. exists p. split; [exact Hp|]. apply fillna0_close in Hc. exact Hc.
  Qed.

  Lemma Forall2_len' {A B} (Q : A -> B -> Prop) l k : Forall2 Q l k -> length l = length k.
  Proof. induction 1; cbn; congruence. Qed.
  (** *** Friedman's one versus all *)
  Lemma friedman_ova_noise pf X fs c c' t m P b h eps c0 :
    wf_frame X -> f_rows X <> [] -> noisy P h eps -> noisy (callable pf) h eps -> reachable O xR m X P b c0 ->
    calculate_pd_single O xR c0 None = (c, Ok tt) ->
    friedman_ova O xR srt false pf X fs c = (c', Ok t) ->
    exists l, t = table xR srt l
      /\ Forall2 (fun f r => fst r = f /\ exists p, nth_error (f_cols X) p = Some f
           /\ values_close (3 * eps) (H_all xR (fin h) (f_rows X) false p) (snd r)) fs l.
  Proof.
    intros HX Hne Hn Hpf Hr0 E0 H. unfold friedman_ova in H.
    assert (Hr : reachable O xR m X P b c) by (eapply (reachable_step O xR m X P b c0 (OpSingle None)); [exact Hr0|exact E0]).
    destruct (calculate_pd_minus_single xR c (Some fs)) as [c1 [[]|e]] eqn:E1; [|discriminate].
    apply pair_equal_spec in H as [<- H].
    destruct (callable pf (length (c_log c1)) (f_rows X)) as [preds|e] eqn:Ep; cbn [bind] in H; [|discriminate].
    apply Hpf in Ep.
    destruct (mapM _ fs) as [l|e] eqn:El; cbn [bind] in H; [|discriminate]. injection H as H.
    pose proof (minus_isolation O xR HO m X P b c (Some fs) c1 (Ok tt) HX Hr E1) as (_ & Hsc & _).
    exists l. split; [subst t; reflexivity|]. apply mapM_Ok_inv in El. eapply Forall2_weaken; [|exact El].
    intros f x Hin Hx. cbv beta in Hx. destruct (column X f) as [xf|] eqn:C1; cbn [bind] in Hx; [|discriminate].
    destruct (get_pd_single O c1 f (Some xf)) as [pd_f|] eqn:G1; cbn [bind] in Hx; [|discriminate].
    destruct (get_pd_minus_single c1 f) as [pd_m|] eqn:G2; cbn [bind] in Hx; [|discriminate].
    apply column_pos in C1 as (p & Hp & _ & ->).
    assert (Hf : In f (f_cols X)) by (eapply nth_error_In, Hp).
    rewrite (get_pd_single_ext O c1 c f _ Hsc) in G1.
    destruct (single_noise m X P b c0 None c h eps p f HX Hne Hn Hr0 E0 Hf Hp) as ((y1 & A1 & B1) & _). rewrite A1 in G1. injection G1 as <-.
    destruct (proj1 (proj2 (C132_noise O HO m X P b c h eps p f HX Hne Hn Hr Hp)) (Some fs) c1 E1 Hin) as (y2 & A2 & B2). rewrite A2 in G2. injection G2 as <-.
    assert (Bp : Forall2 (fun r x => within (h r) eps x) (f_rows X) preds) by exact Ep.
    rewrite hstat_np_equal in Hx by (rewrite <- (Forall2_len' _ _ _ Bp); eapply Forall2_len'; eassumption). cbn [bind] in Hx.
    injection Hx as <-. cbn [fst snd]. split; [reflexivity|]. exists p. split; [exact Hp|].
    assert (B2' : Forall2 (fun r x => within (RPDminus (f_rows X) h p r) eps x) (f_rows X) y2).
    { eapply Forall2_weaken; [|exact B2]. intros r x Hrr Hw. replace (RPDminus (f_rows X) h p r) with (PDminus Rmean h (f_rows X) p r); [exact Hw|].
      unfold PDminus, RPDminus. f_equal. clear - HX Hp Hrr. assert (Hl : forall s, In s (f_rows X) -> p < length s) by (intros s Hss; rewrite (wf_rows X HX s Hss); eapply pos_lt; exact Hp).
      revert Hl. generalize (f_rows X). intros rows Hl. unfold col_at. induction rows as [|s t IH]; [reflexivity|]. cbn.
      destruct (nth_error s p) eqn:E; [|apply nth_error_None in E; specialize (Hl s (or_introl eq_refl)); lia]. cbn. f_equal. apply IH. intros; apply Hl; right; assumption. }
    pose proof (hstat_noise (f_rows X) h (RPD1_at (f_rows X) h p) (RPDminus (f_rows X) h p) y1 y2 preds eps Hne Bp B1 B2') as K.
    rewrite (H_value_same (f_rows X) false (fin h) (PD1_at xR (fin h) (f_rows X) p) (fun r => PDminus (np_mean xR) (fin h) (f_rows X) p r)) in K.
    - exact K.
    - intros r _; reflexivity.
    - apply (PD1_at_fin (f_rows X) (length (f_cols X)) (wf_rows X HX)); eapply pos_lt; eassumption.
    - apply (PDminus_at_fin (f_rows X) (length (f_cols X)) (wf_rows X HX)); eapply pos_lt; eassumption.
  Qed.

  Theorem C134_one_versus_all s a s' h eps Xs :
    wf_frame (a_X a) -> fit (Friedman false) s a = (s', Ok tt) -> m_X s' = Some Xs -> explains_noisy O a h eps Xs -> f_rows Xs <> [] -> a_ova a = true ->
    exists t, m_ova s' = Some t
      /\ Permutation (map fst t) (all_features a)
      /\ forall f v, In (f, v) t -> exists p, nth_error (f_cols Xs) p = Some f
           /\ values_close (3 * eps) (or_zero xR (H_all xR (fin h) (f_rows Xs) false p)) v.
  Proof.
    intros HX H HXs Hex Hne Ho. apply fit_ok in H as (Xs' & rng' & c & c1 & t & c2 & fi & Es & Ec & Eo & Ei & E1 & E2 & E3 & E4 & E5 & E6).
    rewrite HXs in E1; injection E1 as <-. destruct (sample_wf Rg _ _ _ _ _ HR HX Es) as (HwX & _).
    destruct (noisy_calc _ _ _ _ _ Hex Ec) as (m & P & b & Hr & Hn). cbn [ovo_of] in Eo.
    apply (friedman_ovo_noise Xs _ _ _ _ _ m P b h eps HwX Hne Hn Hr) in Eo as (_ & _ & Hr1 & _); [|intros p; apply combinations2_fst_snd].
    apply (pdp_importance_noise Xs _ _ _ _ m P b h eps HwX Hne Hn Hr1) in Ei as (_ & _ & Hcs & _).
    rewrite Ho in E6. destruct E6 as (c3 & ova & Ev & Em & _).
    apply (friedman_ova_noise _ Xs _ _ _ _ m P b h eps c1 HwX Hne Hn (proj1 Hex) Hr1 Hcs) in Ev as (l & -> & F).
    exists (table xR srt l). split; [exact Em|]. split.
    - rewrite (table_keys xR srt Hs xR_ord). replace (map fst l) with (all_features a); [reflexivity|]. clear - F. revert F. generalize (all_features a). intros fs F. induction F as [|x y l k [E _] F IH]; [reflexivity|]. cbn. congruence.
    - intros f v Hv. apply (table_In xR srt Hs xR_ord) in Hv as (w & Hw & ->). apply (Forall2_In_right _ _ _ _ F) in Hw as (f' & _ & Ef & p & Hp & Hc).
      cbn [fst snd] in *. subst f'. exists p. split; [exact Hp|]. apply fillna0_close, Hc.
  Qed.

  (** *** Greenwell's pairs *)
  Lemma matrix_noise m X P b c ps c' h eps p q f1 f2 : wf_frame X -> f_rows X <> [] -> noisy P h eps -> reachable O xR m X P b c ->
    calculate_pd_pairs O xR c ps true = (c', Ok tt) -> requested X ps f1 f2 ->
    nth_error (f_cols X) p = Some f1 -> nth_error (f_cols X) q = Some f2 -> p < q ->
    exists mat, get_pd_pairs_all c' f1 f2 = Ok mat
      /\ Forall2 (fun v row => Forall2 (fun w x => within (PD2 Rmean h (f_rows X) p q v w) eps x) (values X q) row) (values X p) mat.
  Proof.
    intros HX Hne0 Hn Hr H Hreq Hp Hq Hlt. assert (Hne : p <> q) by lia.
    pose proof (combinations2_nth _ _ _ _ _ Hp Hq Hlt) as Hin.
    assert (Hr' : reachable O xR m X P b c') by (eapply (reachable_step O xR m X P b c (OpPairs ps true)); [exact Hr|exact H]).
    destruct (reachable_shaped O xR HO _ _ _ _ _ HX Hr') as ((_ & Hsh & _) & HXc & _). rewrite HXc in Hsh. clear HXc.
    destruct (in_combinations_key O xR c' X f1 f2 HX Hsh) as [A _].
    destruct (PdProofs.pshape_assoc O xR X _ (f1, f2) Hsh) as [H1 H2]. destruct (H1 Hin) as (mm & Ha).
    destruct (H2 _ Ha) as (_ & _ & Hl & _). cbn [fst snd] in *.
    exists mm. split; [unfold get_pd_pairs_all, dict_get; rewrite (A Hin), Ha; reflexivity|].
    rewrite (PdFacts.grid_of O X HX p f1 Hp), (PdFacts.grid_of O X HX q f2 Hq) in *.
    apply Forall2_nth.
    { rewrite <- (map_length (@length (ext R)) mm), Hl, repeat_length; reflexivity. }
    intros i v row Hv Hrow. apply Forall2_nth.
    { symmetry. eapply map_length_repeat_nth; [exact Hl|exact Hrow]. }
    intros j w x Hw Hx.
    assert (Hvc : In v (col_at p (f_rows X))) by (apply (np_unique_sub O HO); eapply nth_error_In; exact Hv).
    assert (Hwc : In w (col_at q (f_rows X))) by (apply (np_unique_sub O HO); eapply nth_error_In; exact Hw).
    destruct (proj2 (proj2 (C132_noise O HO m X P b c h eps p f1 HX Hne0 Hn Hr Hp)) f2 q ps true c' [(v, w)] Hq Hne H Hreq) as (xs & Gx & F).
    { intros v0 w0 [Heq|[]]; injection Heq as <- <-; auto. }
    apply (proj1 (pairs_elem O xR c' X f1 f2 _ HX Hsh Hin _)) in Gx. inversion Gx as [|? y ? ? Hy Hnil]; subst. inversion Hnil; subst. clear Gx Hnil.
    inversion F as [|? ? ? ? Hwit _]; subst. cbn [fst snd] in *.
    unfold pget in Hy; cbn [fst snd] in Hy. rewrite Ha in Hy; cbn [fst snd] in Hy.
    destruct (get_index O (values X p) v) as [i'|] eqn:Ei; [|discriminate Hy]. destruct (get_index O (values X q) w) as [j'|] eqn:Ej; [|discriminate Hy].
    rewrite (get_index_NoDup O HO _ _ _ (np_unique_NoDup O HO _) Hv (proj2 (get_index_spec O HO _ _ _ Ei))) in Ei. injection Ei as <-.
    rewrite (get_index_NoDup O HO _ _ _ (np_unique_NoDup O HO _) Hw (proj2 (get_index_spec O HO _ _ _ Ej))) in Ej. injection Ej as <-.
    rewrite Hrow in Hy. rewrite Hx in Hy. injection Hy as ->. exact Hwit.
  Qed.

  Lemma greenwell_ovo_noise X fs ps c c' t m P b h eps :
    wf_frame X -> f_rows X <> [] -> noisy P h eps -> reachable O xR m X P b c -> (forall p, In p ps -> In (fst p) fs /\ In (snd p) fs) ->
    greenwell_ovo O xR srt X fs ps c = (c', Ok t) ->
    exists l, t = table xR srt l
      /\ Forall2 (fun pr r => (fst r = pr \/ fst r = (snd pr, fst pr)) /\ exists p q, nth_error (f_cols X) p = Some (fst (fst r)) /\ nth_error (f_cols X) q = Some (snd (fst r)) /\ p < q
           /\ 2 <= length (values X p) /\ 2 <= length (values X q)
           /\ values_close (2 * eps) (Fin (Rgreenwell (str_in (fst (fst r)) (f_num X)) (str_in (snd (fst r)) (f_num X)) (PD2 Rmean h (f_rows X) p q) (values X p) (values X q))) (snd r)) ps l.
  Proof.
    intros HX Hne Hn Hr Hps H. unfold greenwell_ovo in H.
    destruct (calculate_pd_pairs O xR c (Some ps) true) as [c1 [[]|e]] eqn:E; [|discriminate].
    apply pair_equal_spec in H as [<- H]. apply bind_Ok in H as (l & El & H). injection H as H.
    exists l. split; [subst t; reflexivity|].
    assert (Hr1 : reachable O xR m X P b c1) by (eapply (reachable_step O xR m X P b c (OpPairs (Some ps) true)); [exact Hr|exact E]).
    destruct (reachable_shaped O xR HO m X P b c1 HX Hr1) as ((_ & Hsh & _) & HXc & _). rewrite HXc in Hsh.
    destruct (pairs_outcome O xR HO m X P b c (Some ps) true c1 (Ok tt) HX Hr E) as [_ Hk].
    apply mapM_Ok_inv in El. eapply Forall2_weaken; [|exact El].
    intros [f1 f2] x Hin Hx. cbv beta zeta in Hx.
    destruct (Hps _ Hin) as [Hf1 Hf2]. destruct (Hk eq_refl f1 f2 Hin) as (Hi1 & Hi2 & Hd). specialize (Hd eq_refl).
    apply In_nth_error in Hi1 as (p & Hp). apply In_nth_error in Hi2 as (q & Hq).
    assert (Hpq : p <> q) by congruence.
    apply bind_Ok in Hx as (e & De & Hx). apply bind_Ok in Hx as (mat & Dm & Hx). apply bind_Ok in Hx as (y & Dy & Hx). injection Hx as <-.
    assert (Hord : forall fa fb i j, nth_error (f_cols X) i = Some fa -> nth_error (f_cols X) j = Some fb -> i < j -> In fa fs -> In fb fs ->
      requested X (Some ps) fa fb -> get_pair_key c1 (f1, f2) = (fa, fb) ->
      exists p q, nth_error (f_cols X) p = Some fa /\ nth_error (f_cols X) q = Some fb /\ p < q
           /\ 2 <= length (values X p) /\ 2 <= length (values X q)
           /\ values_close (2 * eps) (Fin (Rgreenwell (str_in fa (f_num X)) (str_in fb (f_num X)) (PD2 Rmean h (f_rows X) p q) (values X p) (values X q))) y).
    { intros fa fb i j Hi Hj Hij Ha Hb Hreq Hkey. rewrite Hkey in De, Dm, Dy. cbn [fst snd] in Dm, Dy.
      exists i, j. split; [exact Hi|]. split; [exact Hj|]. split; [exact Hij|].
      destruct (matrix_noise m X P b c (Some ps) c1 h eps i j fa fb HX Hne Hn Hr E Hreq Hi Hj Hij) as (mat' & Em & FM). rewrite Em in Dm. injection Dm as <-.
      assert (Hc : In (fa, fb) (combinations2 (f_cols X))) by (apply (combinations2_nth (f_cols X) i j); assumption).
      destruct (PdProofs.pshape_assoc O xR X _ (fa, fb) Hsh) as [K1 _]. destruct (K1 Hc) as (mm & Hm).
      unfold dict_get in De. rewrite Hm in De. injection De as <-. cbn [fst snd] in Dy. rewrite (PdFacts.grid_of O X HX j fb Hj) in Dy.
      unfold is_numerical in Dy. rewrite (proj2 (str_in_In fa fs) Ha), (proj2 (str_in_In fb fs) Hb) in Dy. cbn [andb] in Dy.
      apply (greenwell_noise _ _ (PD2 Rmean h (f_rows X) i j) (values X i) (values X j) eps _ _ FM Dy). }
    destruct (in_combinations_key O xR c1 X f1 f2 HX Hsh) as [A B].
    destruct (Nat.lt_ge_cases p q) as [Hlt|Hge].
    - assert (Hkey : get_pair_key c1 (f1, f2) = (f1, f2)) by (apply A; apply (combinations2_nth (f_cols X) p q); assumption).
      rewrite Hkey. cbn [fst snd]. split; [left; reflexivity|]. apply (Hord f1 f2 p q); auto. left; exact Hin.
    - assert (Hkey : get_pair_key c1 (f1, f2) = (f2, f1)).
      { apply B. intros Hc. pose proof HX as (Hnd & _). apply (combinations2_asym (f_cols X) f1 f2 Hnd Hc). apply (combinations2_nth (f_cols X) q p); try assumption. lia. }
      rewrite Hkey. cbn [fst snd]. split; [right; reflexivity|]. apply (Hord f2 f1 q p); auto; [lia|]. right; exact Hin.
  Qed.

  Theorem C134_greenwell s a s' h eps Xs :
    wf_frame (a_X a) -> fit Greenwell s a = (s', Ok tt) -> m_X s' = Some Xs -> explains_noisy O a h eps Xs -> f_rows Xs <> [] ->
    exists t, m_ovo s' = Some t
      /\ (exists keys, Permutation (map fst t) keys
            /\ Forall2 (fun pr key => key = pr \/ key = (snd pr, fst pr)) (combinations2 (all_features a)) keys)
      /\ forall f1 f2 v, In (f1, f2, v) t ->
           exists p q, nth_error (f_cols Xs) p = Some f1 /\ nth_error (f_cols Xs) q = Some f2 /\ p < q
             /\ 2 <= length (values Xs p) /\ 2 <= length (values Xs q)
             /\ values_close (2 * eps) (Fin (Rgreenwell (str_in f1 (f_num Xs)) (str_in f2 (f_num Xs)) (PD2 Rmean h (f_rows Xs) p q) (values Xs p) (values Xs q))) v.
  Proof.
    intros HX H HXs Hex Hne. apply fit_ok in H as (Xs' & rng' & c & c1 & t & c2 & fi & Es & Ec & Eo & Ei & E1 & E2 & E3 & E4 & E5 & E6).
    rewrite HXs in E1; injection E1 as <-. destruct (sample_wf Rg _ _ _ _ _ HR HX Es) as (HwX & _).
    destruct (noisy_calc _ _ _ _ _ Hex Ec) as (m & P & b & Hr & Hn). cbn [ovo_of] in Eo.
    apply (greenwell_ovo_noise Xs _ _ _ _ _ m P b h eps HwX Hne Hn Hr) in Eo as (l & -> & F); [|intros p; apply combinations2_fst_snd].
    exists (table xR srt l). split; [exact E3|]. split.
    - exists (map fst l). split; [apply (table_keys xR srt Hs xR_ord)|]. clear - F. induction F as [|x y l k [E _] F IH]; [constructor|]. cbn. constructor; [exact E|exact IH].
    - intros f1 f2 v Hv. apply (table_In xR srt Hs xR_ord) in Hv as (w & Hw & ->). apply (Forall2_In_right _ _ _ _ F) in Hw as (pr & _ & _ & p & q & Hp & Hq & Hpq & L1 & L2 & Hc).
      cbn [fst snd] in *. exists p, q. split; [exact Hp|]. split; [exact Hq|]. split; [exact Hpq|]. split; [exact L1|]. split; [exact L2|]. apply fillna0_close in Hc. exact Hc.
  Qed.

  (** *** Whatever the answers, the Friedman fit returns *)
  Theorem C134_returns norm s a s' r h eps Xs rng' :
    wf_frame (a_X a) -> sample_if_not_none Rg (m_rng s) (a_X a) (a_n a) = Ok (Xs, rng') -> f_rows Xs <> [] ->
    noisy (callable (pf_of a)) h eps -> total (callable (pf_of a)) ->
    match a_calc a with
    | None => True
    | Some c => exists P b, reachable O xR (md_id (a_model a)) Xs P b c /\ noisy P h eps /\ total P
    end ->
    complete O Xs -> NoDup (all_features a) -> (forall f, In f (all_features a) -> In f (f_cols Xs)) ->
    fit (Friedman norm) s a = (s', r) -> r = Ok tt /\ m_X s' = Some Xs.
  Proof.
    intros HX0 Es Hne Hpf Htp Hcalc Hc Hnd Hin H. destruct (sample_wf Rg _ _ _ _ _ HR HX0 Es) as (HX & _).
    unfold PdMethods.fit, fit_base in H. rewrite Es in H. fold (all_features a) in H. fold (pf_of a) in H.
    assert (Hpick : exists c P b, pick_calc O xR (a_model a) Xs (pf_of a) (a_batch a) (a_calc a) = Ok c
              /\ reachable O xR (md_id (a_model a)) Xs P b c /\ noisy P h eps /\ total P).
    { destruct (a_calc a) as [c0|].
      - destruct Hcalc as (P & b & Hr & Hg & Ht). exists c0, P, b. split; [|auto]. eapply pick_calc_ok; [exact HO|exact HX|exact Hr|reflexivity].
      - exists (calc_init O xR (md_id (a_model a)) Xs (callable (pf_of a)) (a_batch a)), (callable (pf_of a)), (a_batch a).
        split; [reflexivity|]. split; [exists []; reflexivity|auto]. }
    destruct Hpick as (c & P & b & Ec & Hr & Hn & Ht). rewrite Ec in H. set (m := md_id (a_model a)) in *. set (fs := all_features a) in *.
    assert (Hk : known_pairs Xs (combinations2 fs)) by (apply known_combinations; assumption).
    assert (Hovo : exists c1 t, friedman_ovo O xR srt norm Xs fs (combinations2 fs) c = (c1, Ok t) /\ reachable O xR m Xs P b c1).
    { unfold friedman_ovo.
      destruct (pairs_run O xR HO Xs P b m c (combinations2 fs) false HX Ht Hc Hr Hk) as (c1 & E1 & Hr1). rewrite E1.
      destruct (single_run O xR HO Xs P b m c1 (Some fs) HX Ht Hc Hr1 Hin) as (c2 & E2 & Hr2). rewrite E2.
      pose proof (single_isolation O xR HO m Xs P b c1 (Some fs) c2 (Ok tt) HX Hr1 E2) as (Hpc & _).
      edestruct (mapM_ok (fun p => do x1 <- column Xs (fst p); do pd1 <- get_pd_single O c2 (fst p) (Some x1);
                      do x2 <- column Xs (snd p); do pd2 <- get_pd_single O c2 (snd p) (Some x2);
                      do pd12 <- get_pd_pairs O c2 (fst p) (snd p) (combine x1 x2);
                      Ok (fst p, snd p, hstat xR pd1 pd2 pd12 norm)) (combinations2 fs)) as (l & El).
      { intros [f1 f2] Hp. destruct (Hk _ Hp) as (Hi1 & Hi2 & Hd). apply combinations2_In in Hp as Hp'. destruct Hp' as [Hf1 Hf2].
        change (fst (f1, f2)) with f1 in *. change (snd (f1, f2)) with f2 in *.
        apply In_nth_error in Hi1 as (p & Hp1). apply In_nth_error in Hi2 as (q & Hq1). assert (Hpq : p <> q) by congruence.
        rewrite (column_known Xs p f1 HX Hp1), (column_known Xs q f2 HX Hq1).
        destruct (single_noise m Xs P b c1 (Some fs) c2 h eps p f1 HX Hne Hn Hr1 E2 Hf1 Hp1) as ((y1 & A1 & _) & _).
        destruct (single_noise m Xs P b c1 (Some fs) c2 h eps q f2 HX Hne Hn Hr1 E2 Hf2 Hq1) as ((y2 & A2 & _) & _).
        destruct (pair_noise m Xs P b c (Some (combinations2 fs)) c1 h eps p q f1 f2 HX Hne Hn Hr E1 (or_introl Hp) Hp1 Hq1 Hpq) as (y12 & A12 & _).
        rewrite <- (get_pd_pairs_ext O c2 c1 f1 f2 _ Hpc) in A12. eexists. unfold bind. rewrite A1, A2, A12. reflexivity. }
      exists c2, (table xR srt l). split; [|exact Hr2]. f_equal. rewrite El. reflexivity. }
    destruct Hovo as (c1 & t & Eo & Hr1). change (ovo_of O xR srt (Friedman norm)) with (friedman_ovo O xR srt norm) in H. rewrite Eo in H.
    unfold pd_importance in H. cbn [sample_if_not_none] in H.
    rewrite (pick_calc_ok O xR HO (a_model a) Xs _ 2000 _ P b c1 HX Hr1 eq_refl) in H.
    assert (Himp : exists c2 fi, pdp_importance O xR srt Xs fs c1 = (c2, Ok fi) /\ reachable O xR m Xs P b c2 /\ calculate_pd_single O xR c1 None = (c2, Ok tt)).
    { destruct (single_run O xR HO Xs P b m c1 None HX Ht Hc Hr1 (fun f H => H)) as (c2 & E1 & Hr2). unfold pdp_importance. rewrite E1.
      destruct (mapM_ok (fun f => do pdp <- get_pd_single O c2 f None; do v <- calc_importance xR pdp (is_numerical Xs fs f); Ok (f, v)) fs) as (l & El).
      { intros f Hf. pose proof (Hin f Hf) as Hi. apply In_nth_error in Hi as (p & Hp).
        destruct (single_noise m Xs P b c1 None c2 h eps p f HX Hne Hn Hr1 E1 (Hin f Hf) Hp) as (_ & xs & A & F). rewrite A.
        apply within_list in F as (ks & -> & F).
        assert (Hks : ks <> []).
        { intros ->. inversion F as [E|]. symmetry in E. apply (proj1 (np_unique_nil O HO _)) in E. destruct (f_rows Xs) as [|r0 rows] eqn:Er; [congruence|].
          assert (L0 : p < length r0) by (rewrite (wf_rows Xs HX r0) by (rewrite Er; left; reflexivity); eapply pos_lt; exact Hp).
          destruct (nth_error r0 p) as [x|] eqn:Ex; [|apply nth_error_None in Ex; lia].
          assert (Hx0 : In x (col_at p (r0 :: rows))) by (apply col_at_In; exists r0; split; [left; reflexivity|exact Ex]). rewrite E in Hx0. exact Hx0. }
        eexists. unfold bind. rewrite calc_importance_fin by exact Hks. reflexivity. }
      exists c2, (table xR srt l). split; [|split; [exact Hr2|reflexivity]]. f_equal. rewrite El. reflexivity. }
    destruct Himp as (c2 & fi & Ei & Hr2 & Es2). rewrite Ei in H.
    cbn [m_calc m_X m_features m_predict m_rng m_ova m_ovo m_fi m_model m_pairs m_fi_obj] in H.
    destruct (a_ova a); [|injection H as <- <-; split; reflexivity].
    assert (Hova : exists c3 ova, friedman_ova O xR srt norm (pf_of a) Xs fs c2 = (c3, Ok ova)).
    { unfold friedman_ova. destruct (minus_run O xR HO Xs P b m c2 (Some fs) HX Ht Hr2 Hin) as (c3 & E3 & Hr3). rewrite E3.
      destruct (Htp (length (c_log c3)) (f_rows Xs)) as (preds & Ep). rewrite Ep.
      pose proof (minus_isolation O xR HO m Xs P b c2 (Some fs) c3 (Ok tt) HX Hr2 E3) as (_ & Hsc & _).
      destruct (mapM_ok (fun f => do x <- column Xs f; do pd_f <- get_pd_single O c3 f (Some x); do pd_m <- get_pd_minus_single c3 f; do v <- hstat_np xR pd_f pd_m preds norm; Ok (f, v)) fs) as (l & El).
      { intros f Hf. pose proof (Hin f Hf) as Hi. apply In_nth_error in Hi as (p & Hp). rewrite (column_known Xs p f HX Hp).
        destruct (single_noise m Xs P b c1 None c2 h eps p f HX Hne Hn Hr1 Es2 (Hin f Hf) Hp) as ((y1 & A1 & B1) & _).
        rewrite <- (get_pd_single_ext O c3 c2 f _ Hsc) in A1.
        destruct (proj1 (proj2 (C132_noise O HO m Xs P b c2 h eps p f HX Hne Hn Hr2 Hp)) (Some fs) c3 E3 Hf) as (y2 & A2 & B2).
        eexists. unfold bind at 1 2 3. rewrite A1, A2. rewrite hstat_np_equal; [reflexivity| |]; rewrite <- (Forall2_len' _ _ _ (Hpf _ _ _ Ep)); eapply Forall2_len'; eassumption. }
      exists c3, (table xR srt l). f_equal. unfold bind. unfold bind in El. rewrite El. reflexivity. }
    destruct Hova as (c3 & ova & Ev). rewrite Ev in H. injection H as <- <-. split; reflexivity.
  Qed.

  (** the same explanation asked for twice *)
  Theorem C134_repeated s1 a1 s1' s2 a2 s2' h eps Xs t1 t2 f1 f2 v1 v2 :
    wf_frame (a_X a1) -> wf_frame (a_X a2) ->
    fit (Friedman false) s1 a1 = (s1', Ok tt) -> m_X s1' = Some Xs -> explains_noisy O a1 h eps Xs ->
    fit (Friedman false) s2 a2 = (s2', Ok tt) -> m_X s2' = Some Xs -> explains_noisy O a2 h eps Xs ->
    f_rows Xs <> [] -> m_ovo s1' = Some t1 -> m_ovo s2' = Some t2 -> In (f1, f2, v1) t1 -> In (f1, f2, v2) t2 ->
    values_close (6 * eps) v1 v2.
  Proof.
    intros HX1 HX2 F1 E1 He1 F2 E2 He2 Hne T1 T2 I1 I2.
    assert (W : wf_frame Xs).
    { apply fit_ok in F1 as (Xs' & rng' & c & c1 & t & c2 & fi & Es & _ & _ & _ & K & _). rewrite E1 in K. injection K as <-. apply (sample_wf Rg _ _ _ _ _ HR HX1 Es). }
    destruct (C134_pairs s1 a1 s1' h eps Xs HX1 F1 E1 He1 Hne) as (u1 & U1 & _ & V1). assert (u1 = t1) by congruence. subst u1.
    destruct (C134_pairs s2 a2 s2' h eps Xs HX2 F2 E2 He2 Hne) as (u2 & U2 & _ & V2). assert (u2 = t2) by congruence. subst u2.
    assert (Inj : forall i j f, nth_error (f_cols Xs) i = Some f -> nth_error (f_cols Xs) j = Some f -> i = j) by (intros i j f Hi Hj; apply (proj1 (NoDup_nth_error _) (proj1 W)); [eapply pos_lt; exact Hi|congruence]).
    destruct (V1 _ _ _ I1) as (p & q & Hp & Hq & _ & x1 & y1 & X1 & -> & B1). destruct (V2 _ _ _ I2) as (p2 & q2 & Hp2 & Hq2 & _ & x2 & y2 & X2 & -> & B2).
    rewrite (Inj _ _ _ Hp2 Hp), (Inj _ _ _ Hq2 Hq) in *. assert (x2 = x1) by congruence. subst x2.
    exists y1, y2. split; [reflexivity|]. split; [reflexivity|]. clear - B1 B2.
    apply Rabs_le. revert B1 B2. unfold Rabs. destruct (Rcase_abs (y1 - x1)), (Rcase_abs (y2 - x1)); lra.
  Qed.

End Noise.

(** ** Example: the model [x*y], with a hundredth added or taken away, every other call *)
Definition nP : nat -> list (list Z) -> result (list (ext R)) :=
  fun n rows => Ok (map (fun r => Fin (th r + if Nat.even n then / 100 else - / 100)%R) rows).
Definition nargs : fargs Z (ext R) := mkargs nP rX None true None.
Lemma nP_noisy : noisy nP th (/ 100).
Proof.
  intros n rq an H. injection H as <-. induction rq as [|r rq IH]; cbn; constructor; [|exact IH].
  eexists. split; [reflexivity|]. destruct (Nat.even n); unfold Rabs; destruct (Rcase_abs _); lra.
Qed.
Example C134_not_rowwise : ~ exists g, rowwise nP g.
Proof.
  intros (g & Hg).
  pose proof (Hg 0 [[0; 0; 0]%Z] _ eq_refl) as A0. pose proof (Hg 1 [[0; 0; 0]%Z] _ eq_refl) as A1. cbn [map] in A0, A1. rewrite <- A1 in A0. injection A0 as A0.
  cbn [Nat.even] in A0. lra.
Qed.

(** (a, b) interact, (a, c) do not, and the reported values say so *)
Example C134_example : exists s' t v w,
  PdMethods.fit Zcell xR rotR isort (Friedman false) init0 nargs = (s', Ok tt) /\ m_ovo s' = Some t
  /\ In ("a", "b", Fin v) t /\ In ("a", "c", Fin w) t /\ (12 / 100 <= v)%R /\ (w <= 3 / 100)%R.
Proof.
  destruct (PdMethods.fit Zcell xR rotR isort (Friedman false) init0 nargs) as [s' r] eqn:E.
  assert (Hex : explains_noisy Zcell nargs th (/ 100) rX) by (split; [exact nP_noisy|exact I]).
  assert (Hrows : f_rows rX <> []) by discriminate.
  destruct (C134_returns Zcell Zcell_ok rotR rotR_ok isort false init0 nargs s' r th (/ 100) rX (m_rng init0) rX_wf eq_refl Hrows nP_noisy
     (fun n rows => ex_intro _ _ eq_refl) I (Z_complete rX) (proj1 rX_wf) (fun f Hf => Hf) E) as [-> EX].
  destruct (C134_pairs Zcell Zcell_ok rotR rotR_ok isort isort_ok init0 nargs s' th (/ 100) rX rX_wf E EX Hex Hrows) as (t & T & K & V).
  assert (I1 : In ("a", "b") (map fst t)) by (rewrite K; cbn; auto). assert (I2 : In ("a", "c") (map fst t)) by (rewrite K; cbn; auto).
  apply in_map_iff in I1 as ([[f1 f2] v] & F1 & I1). injection F1 as -> ->. apply in_map_iff in I2 as ([[f1 f2] w] & F2 & I2). injection F2 as -> ->.
  assert (P : forall p f, nth_error (f_cols rX) p = Some f -> (f = "a" -> p = 0) /\ (f = "b" -> p = 1) /\ (f = "c" -> p = 2)).
  { intros p f Hf. destruct p as [|[|[|p]]]; cbn in Hf; [injection Hf as <-| injection Hf as <-| injection Hf as <-| destruct p; discriminate]; repeat split; congruence. }
  destruct (V _ _ _ I1) as (p & q & Hp & Hq & _ & x & y & X & -> & B). apply P in Hp as (Hp & _). apply P in Hq as (_ & Hq & _). rewrite (Hp eq_refl), (Hq eq_refl), (th_H false) in X. injection X as <-. clear Hp Hq.
  destruct (V _ _ _ I2) as (p2 & q2 & Hp & Hq & _ & x2 & y2 & X2 & -> & B2). apply P in Hp as (Hp & _). apply P in Hq as (_ & _ & Hq). rewrite (Hp eq_refl), (Hq eq_refl) in X2. clear Hp Hq p q p2 q2.
  assert (x2 = 0%R) as ->.
  { destruct (rfit_ok false th true) as (s1 & E1 & X1).
    destruct (C12_friedman_pairs Zcell xR Zcell_ok xR_ord eq_refl rotR rotR_ok isort isort_ok false init0 (rargs th true) s1 _ rX rX_wf E1 X1 (rargs_explains _ true)) as (t1 & T1 & K1 & V1 & _).
    assert (J1 : In ("a", "c") (map fst t1)) by (rewrite K1; cbn; auto). apply in_map_iff in J1 as ([[f1 f2] w1] & F1 & J1). injection F1 as -> ->.
    assert (Hw : w1 = Fin 0%R).
    { apply (C14_no_interaction_pair Zcell Zcell_ok rotR rotR_ok isort isort_ok false init0 (rargs th true) s1 th rX t1 "a" "c" w1 0 2 rX_wf E1 X1 (rargs_explains th true) T1 J1 eq_refl eq_refl).
      exists (fun _ => 0%R), th. split; [intros; lra|]. split; [intros r v _; reflexivity|]. intros r v Hl. destruct r as [|a0 [|b0 [|c0 [|]]]]; try discriminate Hl. reflexivity. }
    destruct (V1 _ _ _ J1) as (p & q & Hp & Hq & _ & Ew). apply P in Hp as (Hp & _). apply P in Hq as (_ & _ & Hq). rewrite (Hp eq_refl), (Hq eq_refl) in Ew. congruence. }
  exists s', t, y, y2. split; [reflexivity|]. split; [exact T|]. split; [exact I1|]. split; [exact I2|].
  assert (S : (15 / 100 <= sqrt (2 / 81))%R) by (rewrite <- (sqrt_Rsqr (15 / 100)) by lra; apply sqrt_le_1_alt; unfold Rsqr; lra).
  clear - B B2 S. revert B B2. unfold Rabs. destruct (Rcase_abs (y - sqrt (2 / 81))), (Rcase_abs (y2 - 0)); lra.
Qed.

Print Assumptions C134_pairs.
Print Assumptions C134_importance.
Print Assumptions C134_one_versus_all.
Print Assumptions C134_greenwell.
Print Assumptions C134_returns.
Print Assumptions C134_repeated.
