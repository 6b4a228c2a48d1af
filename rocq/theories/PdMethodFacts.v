(** Facts about the partial dependence based methods (PdMethods.v). *)
From Verif Require Import Py Num NumR Sorting Frame Rng PdCalc PdSpec PdProofs PdTheorems PdErrors PdApi PdMethods MethodSpec.
Open Scope nat_scope.

Lemma mapM_spec {A B} (f : A -> result B) (h : A -> B) (Q : A -> Prop) l ys :
  (forall x y, In x l -> f x = Ok y -> y = h x /\ Q x) -> mapM f l = Ok ys -> ys = map h l /\ forall x, In x l -> Q x.
Proof.
  intros H E; apply mapM_Ok_inv in E. induction E as [|x y l ys Hxy _ IH]; [split; [reflexivity|intros x []]|].
  destruct (H x y (or_introl eq_refl) Hxy) as [-> Hq]. destruct IH as [-> IH]; [intros; apply H; [right|]; assumption|].
  split; [reflexivity|]. intros z [<-|Hz]; auto.
Qed.

(** ** Tables *)
Section Tables.
  Context {A V : Type} (N : num_ops V) (srt : sorter) (Hs : sorter_ok srt) (Hn : num_ord_ok N).
  Definition table (l : list (A * V)) : list (A * V) :=
    map (fun r => (fst r, fillna0 N (snd r))) (sort_values N srt false (fun r => snd r) l).

  Lemma table_perm l : Permutation (table l) (map (fun r => (fst r, fillna0 N (snd r))) l).
  Proof. apply Permutation_map, (proj1 (sort_values_ok N srt false _ l Hs Hn)). Qed.

  Lemma table_keys l : Permutation (map fst (table l)) (map fst l).
  Proof. rewrite (Permutation_map fst (table_perm l)), map_map. cbn. reflexivity. Qed.

  Lemma table_In l a v : In (a, v) (table l) -> exists w, In (a, w) l /\ v = fillna0 N w.
  Proof.
    intros H. apply (Permutation_in _ (table_perm l)), in_map_iff in H as ([b w] & E & Hw). cbn in E. injection E as -> <-. eauto.
  Qed.

  Lemma table_no_nan l a v : n_isnan N (n_ofZ N 0) = false -> In (a, v) (table l) -> n_isnan N v = false.
  Proof. intros H0 H. apply table_In in H as (w & _ & ->). unfold fillna0. destruct (n_isnan N w) eqn:E; auto. Qed.

  Lemma table_sorted l : (forall r, In r l -> n_isnan N (snd r) = true \/ n_ltb N (snd r) (n_ofZ N 0) = false) ->
    StronglySorted (fun a b => n_ltb N (snd a) (snd b) = false) (table l).
  Proof.
    intros Hl. destruct (sort_values_ok N srt false (fun r : A * V => snd r) l Hs Hn) as [Hp Hso].
    unfold table. apply StronglySorted_map. eapply StronglySorted_impl; [|exact Hso].
    intros [a v] [b w] Ha Hb Hle. cbn in *. unfold le_dir, le_desc, fillna0 in *.
    apply (Permutation_in _ Hp), Hl in Ha. cbn in Ha.
    destruct (n_isnan N w) eqn:Ew.
    - destruct (n_isnan N v) eqn:Ev; [apply (no_irrefl N Hn)|]. destruct Ha as [Ha|Ha]; [congruence|exact Ha].
    - destruct (n_isnan N v) eqn:Ev; [discriminate|]. apply negb_true_iff, Hle.
  Qed.
End Tables.

Section Facts.
  Context {C V G : Type} (O : cell_ops C) (N : num_ops V) (HO : cell_ok O) (Hnan : n_isnan N (n_nan N) = true)
          (R : rng_ops G) (HR : rng_ok R) (srt : sorter).
  Notation calc := (calc C V).
  Notation predictor := (nat -> list (list C) -> result (list V)).

  (** ** Row-wise forms *)
  Lemma center_map {A} (f : A -> V) l : center N (map f l) = map (fun r => n_sub N (f r) (np_mean N (map f l))) l.
  Proof. unfold center; rewrite map_map; reflexivity. Qed.

  Lemma vsub_map {A} (f h : A -> V) l : vsub N (map f l) (map h l) = map (fun r => n_sub N (f r) (h r)) l.
  Proof. unfold vsub; induction l as [|x t IH]; cbn; [reflexivity|]. f_equal; exact IH. Qed.

  Lemma hstat_rows (rows : list (list C)) f1 f2 f12 norm :
    hstat N (map f1 rows) (map f2 rows) (map f12 rows) norm = H_value N rows norm f12 f1 f2.
  Proof.
    unfold hstat, H_value. rewrite !center_map, !vsub_map, !map_map. reflexivity.
  Qed.

  Lemma col_at_map (p : nat) (rows : list (list C)) (h : C -> V) d :
    (forall r, In r rows -> p < length r) ->
    map h (col_at p rows) = map (fun r => match nth_error r p with Some v => h v | None => d end) rows.
  Proof.
    intros H; unfold col_at. induction rows as [|r t IH]; [reflexivity|]. cbn [flat_map map].
    destruct (nth_error r p) eqn:E.
    - cbn. f_equal; apply IH; intros; apply H; right; assumption.
    - apply nth_error_None in E. specialize (H r (or_introl eq_refl)). lia.
  Qed.

  Lemma combine_cols (p q : nat) (rows : list (list C)) (h : C * C -> V) d :
    (forall r, In r rows -> p < length r /\ q < length r) ->
    map h (combine (col_at p rows) (col_at q rows))
    = map (fun r => match nth_error r p, nth_error r q with Some v, Some w => h (v, w) | _, _ => d end) rows.
  Proof.
    intros H; unfold col_at. induction rows as [|r t IH]; [reflexivity|]. cbn [flat_map map].
    destruct (H r (or_introl eq_refl)) as [H1 H2].
    destruct (nth_error r p) eqn:E1; [|apply nth_error_None in E1; lia].
    destruct (nth_error r q) eqn:E2; [|apply nth_error_None in E2; lia].
    cbn. f_equal; apply IH; intros; apply H; right; assumption.
  Qed.

  Lemma combine_cols_In (p q : nat) (rows : list (list C)) v w :
    (forall r, In r rows -> p < length r /\ q < length r) ->
    In (v, w) (combine (col_at p rows) (col_at q rows)) ->
    exists r, In r rows /\ nth_error r p = Some v /\ nth_error r q = Some w.
  Proof.
    unfold col_at; induction rows as [|r t IH]; intros H Hin; [destruct Hin|]. cbn [flat_map] in Hin.
    destruct (H r (or_introl eq_refl)) as [H1 H2].
    destruct (nth_error r p) eqn:E1; [|apply nth_error_None in E1; lia].
    destruct (nth_error r q) eqn:E2; [|apply nth_error_None in E2; lia].
    cbn in Hin. destruct Hin as [E|Hin].
    - injection E as -> ->. exists r; cbn; auto.
    - destruct IH as (r' & ? & ?); [intros; apply H; right; assumption|exact Hin|]. exists r'; cbn; auto.
  Qed.

  Lemma column_pos (X : frame C) f x : column X f = Ok x -> exists p, nth_error (f_cols X) p = Some f /\ col_pos (f_cols X) f = Some p /\ x = col_at p (f_rows X).
  Proof.
    unfold column; destruct (col_pos (f_cols X) f) as [p|] eqn:E; [|discriminate]. intros H; injection H as <-.
    exists p; split; [apply col_pos_nth, E|auto].
  Qed.

  Lemma wf_column_length (X : frame C) p f : wf_frame X -> nth_error (f_cols X) p = Some f -> length (col_at p (f_rows X)) = length (f_rows X).
  Proof. intros HX Hp. eapply col_at_length; [apply HX|]. apply nth_error_Some. congruence. Qed.
  Lemma wf_len (X : frame C) p f r : wf_frame X -> nth_error (f_cols X) p = Some f -> In r (f_rows X) -> p < length r.
  Proof.
    intros (_ & Hl & _) Hp Hr. rewrite Forall_forall in Hl. rewrite (Hl r Hr).
    apply nth_error_Some; congruence.
  Qed.

  (** positions, with a default that is never used *)
  Definition posn (X : frame C) (f : string) : nat := match col_pos (f_cols X) f with Some p => p | None => 0 end.
  Lemma posn_nth X p f : wf_frame X -> nth_error (f_cols X) p = Some f -> posn X f = p.
  Proof. intros (Hnd & _) H. unfold posn. rewrite (col_pos_NoDup _ _ _ Hnd H); reflexivity. Qed.

  Lemma get_pd_pairs_ext c1 c2 f1 f2 vals : c_pairs c1 = c_pairs c2 ->
    get_pd_pairs (C := C) (V := V) O c1 f1 f2 vals = get_pd_pairs O c2 f1 f2 vals.
  Proof. intros H; unfold get_pd_pairs, get_pair_key. rewrite H; reflexivity. Qed.
  Lemma get_pd_single_ext (c1 c2 : calc) f vals : c_single c1 = c_single c2 ->
    get_pd_single O c1 f vals = get_pd_single O c2 f vals.
  Proof. intros H; unfold get_pd_single. rewrite H; reflexivity. Qed.

  (** ** Friedman pair values *)
  Definition friedman_raw (X : frame C) g norm (p : string * string) : string * string * V :=
    (fst p, snd p, H_pair N g (f_rows X) norm (posn X (fst p)) (posn X (snd p))).

  Lemma friedman_ovo_spec norm X fs ps c c' t m P b g :
    wf_frame X -> rowwise P g -> reachable O N m X P b c ->
    (forall p, In p ps -> In (fst p) fs /\ In (snd p) fs) ->
    friedman_ovo O N srt norm X fs ps c = (c', Ok t) ->
    t = table N srt (map (friedman_raw X g norm) ps) /\ reachable O N m X P b c'
    /\ forall p, In p ps -> In (fst p) (f_cols X) /\ In (snd p) (f_cols X) /\ fst p <> snd p.
  Proof.
    intros HX Hg Hr Hps H. unfold friedman_ovo in H.
    destruct (calculate_pd_pairs O N c (Some ps) false) as [c1 [[]|e]] eqn:E1; [|discriminate].
    destruct (calculate_pd_single O N c1 (Some fs)) as [c2 [[]|e]] eqn:E2; [|discriminate].
    injection H as <- H.
    assert (Hr1 : reachable O N m X P b c1) by (eapply (reachable_step O N m X P b c (OpPairs (Some ps) false)); [exact Hr|exact E1]).
    assert (Hr2 : reachable O N m X P b c2) by (eapply (reachable_step O N m X P b c1 (OpSingle (Some fs))); [exact Hr1|exact E2]).
    destruct (mapM _ ps) as [l|e] eqn:El; cbn [bind] in H; [|discriminate]. injection H as H.
    pose proof (single_isolation O N HO m X P b c1 (Some fs) c2 (Ok tt) HX Hr1 E2) as (Hpc & _).
    assert (Hval : forall p x, In p ps -> 
       (do x1 <- column X (fst p); do pd1 <- get_pd_single O c2 (fst p) (Some x1);
        do x2 <- column X (snd p); do pd2 <- get_pd_single O c2 (snd p) (Some x2);
        do pd12 <- get_pd_pairs O c2 (fst p) (snd p) (combine x1 x2);
        Ok (fst p, snd p, hstat N pd1 pd2 pd12 norm)) = Ok x -> 
       x = friedman_raw X g norm p /\ In (fst p) (f_cols X) /\ In (snd p) (f_cols X) /\ fst p <> snd p).
    { intros [f1 f2] x Hin Hx. cbn [fst snd] in *. destruct (Hps _ Hin) as [Hf1 Hf2]; cbn [fst snd] in *.
      destruct (column X f1) as [x1|] eqn:C1; cbn [bind] in Hx; [|discriminate].
      destruct (get_pd_single O c2 f1 (Some x1)) as [pd1|] eqn:G1; cbn [bind] in Hx; [|discriminate].
      destruct (column X f2) as [x2|] eqn:C2; cbn [bind] in Hx; [|discriminate].
      destruct (get_pd_single O c2 f2 (Some x2)) as [pd2|] eqn:G2; cbn [bind] in Hx; [|discriminate].
      destruct (get_pd_pairs O c2 f1 f2 (combine x1 x2)) as [pd12|] eqn:G12; cbn [bind] in Hx; [|discriminate].
      injection Hx as <-.
      apply column_pos in C1 as (p & Hp & _ & ->). apply column_pos in C2 as (q & Hq & _ & ->).
      assert (Hpq : p <> q).
      { intros <-. assert (f1 = f2) by congruence. subst f2.
        destruct (reachable_shaped O N HO m X P b c2 HX Hr2) as ((_ & Hs & _) & HXc & _). rewrite HXc in Hs.
        unfold get_pd_pairs in G12. destruct (dict_get pair_eqb (get_pair_key c2 (f1, f1)) (c_pairs c2)) as [e|] eqn:Ee; [|discriminate].
        apply PdFacts.dict_get_assoc in Ee. eapply PdProofs.pshape_assoc in Ee as [Ee _]; [|exact Hs].
        unfold get_pair_key in Ee. pose proof HX as (Hnd & _).
        assert (Hk : In (f1, f1) (combinations2 (f_cols X))) by (destruct (assoc _ _ _); exact Ee).
        apply combinations2_irrefl in Hk; [|exact Hnd]. congruence. }
      destruct (combos_pos X f1 f2 p q HX Hp Hq Hpq) as (Hi1 & Hi2 & Hd).
      split; [|auto].
      destruct (pd_single_exact O N HO Hnan m X P b c1 g (Some fs) c2 p f1 HX Hg Hr1 E2 Hf1 Hp) as [A1 _].
      destruct (pd_single_exact O N HO Hnan m X P b c1 g (Some fs) c2 q f2 HX Hg Hr1 E2 Hf2 Hq) as [A2 _].
      rewrite (A1 (col_at p (f_rows X))) in G1 by auto. injection G1 as <-.
      rewrite (A2 (col_at q (f_rows X))) in G2 by auto. injection G2 as <-.
      assert (Hlen : forall r, In r (f_rows X) -> p < length r /\ q < length r)
        by (intros r Hrr; split; eapply wf_len; eassumption).
      rewrite (get_pd_pairs_ext c2 c1 f1 f2 _ Hpc) in G12.
      rewrite (pd_pairs_exact O N HO Hnan m X P b c g (Some ps) false c1 p q f1 f2 HX Hg Hr E1) in G12; auto.
      2: left; exact Hin.
      2: intros v w Hvw; apply (combine_cols_In p q); assumption.
      injection G12 as <-. unfold friedman_raw; cbn [fst snd]. rewrite (posn_nth X p f1 HX Hp), (posn_nth X q f2 HX Hq).
      f_equal. unfold H_pair. rewrite <- hstat_rows. f_equal.
      - apply col_at_map. intros r Hrr; apply Hlen, Hrr.
      - apply col_at_map. intros r Hrr; apply Hlen, Hrr.
      - exact (combine_cols p q (f_rows X) _ (n_nan N) Hlen). }
    destruct (mapM_spec _ (friedman_raw X g norm)
               (fun p => In (fst p) (f_cols X) /\ In (snd p) (f_cols X) /\ fst p <> snd p) ps l Hval El) as [-> Hq].
    split; [subst t; reflexivity|]. split; [exact Hr2|exact Hq].
  Qed.

  (** ** Importance *)
  Definition spread (num : bool) (pdp : list V) : result V := calc_importance N pdp num.

  Lemma pdp_importance_spec X fs c c' t m P b g :
    wf_frame X -> rowwise P g -> reachable O N m X P b c ->
    pdp_importance O N srt X fs c = (c', Ok t) ->
    exists l, t = table N srt l /\ map fst l = fs /\ reachable O N m X P b c'
    /\ calculate_pd_single O N c None = (c', Ok tt)
    /\ (forall f, In f fs -> In f (f_cols X))
    /\ Forall2 (fun f r => fst r = f /\
         calc_importance N (map (PD1 (np_mean N) g (f_rows X) (posn X f)) (np_unique O (col_at (posn X f) (f_rows X))))
                         (is_numerical X fs f) = Ok (snd r)) fs l.
  Proof.
    intros HX Hg Hr H. unfold pdp_importance in H.
    destruct (calculate_pd_single O N c None) as [c1 [[]|e]] eqn:E1; [|discriminate].
    injection H as <- H. destruct (mapM _ fs) as [l|e] eqn:El; cbn [bind] in H; [|discriminate]. injection H as H.
    assert (Hr1 : reachable O N m X P b c1) by (eapply (reachable_step O N m X P b c (OpSingle None)); [exact Hr|exact E1]).
    destruct (reachable_shaped O N HO m X P b c1 HX Hr1) as ((Hs & _ & _) & HXc & _). rewrite HXc in Hs.
    assert (Hval : Forall2 (fun f r => In f (f_cols X) /\ fst r = f /\
         calc_importance N (map (PD1 (np_mean N) g (f_rows X) (posn X f)) (np_unique O (col_at (posn X f) (f_rows X))))
                         (is_numerical X fs f) = Ok (snd r)) fs l).
    { apply mapM_Ok_inv in El. eapply Forall2_impl; [|exact El]. cbn beta. intros f r Hfr.
      change (do e <- dict_get String.eqb f (c_single c1); Ok (snd e)) with (get_pd_single O c1 f None) in Hfr.
      destruct (get_pd_single O c1 f None) as [pdp|] eqn:Eg; cbn [bind] in Hfr; [|discriminate].
      destruct (calc_importance N pdp _) as [v|] eqn:Ev; cbn [bind] in Hfr; [|discriminate]. injection Hfr as <-. cbn [fst snd].
      assert (Hf : In f (f_cols X)).
      { unfold get_pd_single in Eg. destruct (dict_get String.eqb f (c_single c1)) as [e|] eqn:Ee; [|discriminate].
        apply PdFacts.dict_get_assoc in Ee. eapply PdProofs.sshape_assoc in Ee as [Ee _]; [exact Ee|exact Hs]. }
      split; [exact Hf|]. split; [reflexivity|].
      apply In_nth_error in Hf as (p & Hp). rewrite (posn_nth X p f HX Hp).
      destruct (pd_single_exact O N HO Hnan m X P b c g None c1 p f HX Hg Hr E1) as [_ A]; [|exact Hp|].
      - cbn. eapply nth_error_In, Hp.
      - rewrite A in Eg. injection Eg as <-. exact Ev. }
    exists l. split; [subst t; reflexivity|]. split.
    { clear -Hval. revert Hval; generalize (is_numerical X fs); intros nf Hval; induction Hval as [|f r fs1 l1 (_ & Hf & _) _ IH]; cbn; [reflexivity|]. congruence. }
    split; [exact Hr1|]. split; [reflexivity|]. split.
    - clear -Hval. revert Hval; generalize (is_numerical X fs); intros nf Hval; induction Hval as [|f r fs1 l1 (Hf & _) _ IH]; intros f' Hin; [destruct Hin|]. destruct Hin as [<-|Hin]; auto.
    - eapply Forall2_impl; [|exact Hval]. cbn. tauto.
  Qed.

  (** ** Friedman one-vs-all values *)
  Definition ova_raw (X : frame C) g norm (f : string) : string * V := (f, H_all N g (f_rows X) norm (posn X f)).

  Lemma friedman_ova_spec norm pf X fs c c' t m P b g c0 :
    wf_frame X -> rowwise P g -> rowwise (callable pf) g -> reachable O N m X P b c0 ->
    calculate_pd_single O N c0 None = (c, Ok tt) ->
    friedman_ova O N srt norm pf X fs c = (c', Ok t) ->
    t = table N srt (map (ova_raw X g norm) fs) /\ (forall f, In f fs -> In f (f_cols X)).
  Proof.
    intros HX Hg Hpf Hr0 E0 H. unfold friedman_ova in H.
    assert (Hr : reachable O N m X P b c) by (eapply (reachable_step O N m X P b c0 (OpSingle None)); [exact Hr0|exact E0]).
    destruct (calculate_pd_minus_single N c (Some fs)) as [c1 [[]|e]] eqn:E1; [|discriminate].
    injection H as <- H.
    destruct (callable pf (length (c_log c1)) (f_rows X)) as [preds|e] eqn:Ep; cbn [bind] in H; [|discriminate].
    apply Hpf in Ep. subst preds.
    destruct (mapM _ fs) as [l|e] eqn:El; cbn [bind] in H; [|discriminate]. injection H as H.
    pose proof (minus_isolation O N HO m X P b c (Some fs) c1 (Ok tt) HX Hr E1) as (_ & Hsc & _).
    assert (Hval : forall f x, In f fs ->
       (do x <- column X f; do pd_f <- get_pd_single O c1 f (Some x);
        do pd_m <- get_pd_minus_single c1 f; do v <- hstat_np N pd_f pd_m (map g (f_rows X)) norm; Ok (f, v)) = Ok x ->
       x = ova_raw X g norm f /\ In f (f_cols X)).
    { intros f x Hin Hx. destruct (column X f) as [xf|] eqn:C1; cbn [bind] in Hx; [|discriminate].
      destruct (get_pd_single O c1 f (Some xf)) as [pd_f|] eqn:G1; cbn [bind] in Hx; [|discriminate].
      destruct (get_pd_minus_single c1 f) as [pd_m|] eqn:G2; cbn [bind] in Hx; [|discriminate].
      apply column_pos in C1 as (p & Hp & _ & ->).
      assert (Hf : In f (f_cols X)) by (eapply nth_error_In, Hp). split; [|exact Hf].
      rewrite (get_pd_single_ext c1 c f _ Hsc) in G1.
      destruct (pd_single_exact O N HO Hnan m X P b c0 g None c p f HX Hg Hr0 E0 Hf Hp) as [A _].
      rewrite A in G1 by auto. injection G1 as <-.
      rewrite (pd_minus_exact O N HO Hnan m X P b c g (Some fs) c1 p f HX Hg Hr E1 Hin Hp) in G2. injection G2 as <-.
      rewrite hstat_np_equal in Hx by (rewrite !map_length; try reflexivity; symmetry; eapply wf_column_length; eassumption). cbn [bind] in Hx. injection Hx as <-.
      unfold ova_raw. rewrite (posn_nth X p f HX Hp). f_equal. unfold H_all. rewrite <- hstat_rows. f_equal.
      apply col_at_map. intros r Hrr; eapply wf_len; eassumption. }
    destruct (mapM_spec _ (ova_raw X g norm) (fun f => In f (f_cols X)) fs l Hval El) as [-> Hq].
    split; [subst t; reflexivity|exact Hq].
  Qed.

  (** ** Greenwell *)
  Definition gmat (X : frame C) g (p q : nat) : list (list V) :=
    map (fun v => map (fun w => PD2 (np_mean N) g (f_rows X) p q v w) (np_unique O (col_at q (f_rows X))))
        (np_unique O (col_at p (f_rows X))).

  (** the pair in the order of the columns *)
  Definition ordered (X : frame C) (p : string * string) : string * string :=
    if posn X (fst p) <? posn X (snd p) then p else (snd p, fst p).

  Definition greenwell_raw (X : frame C) g fs (p : string * string) : result V :=
    let o := ordered X p in
    greenwell_value N (is_numerical X fs (fst o)) (is_numerical X fs (snd o))
      (length (np_unique O (col_at (posn X (snd o)) (f_rows X)))) (gmat X g (posn X (fst o)) (posn X (snd o))).

  (** what the loop body does, for a pair whose profile has been calculated *)
  Lemma greenwell_body X fs ps c c1 m P b g p0 :
    wf_frame X -> rowwise P g -> reachable O N m X P b c ->
    calculate_pd_pairs O N c (Some ps) true = (c1, Ok tt) -> In p0 ps ->
    In (fst p0) (f_cols X) -> In (snd p0) (f_cols X) -> fst p0 <> snd p0 ->
    (let p := get_pair_key c1 p0 in
     do e <- dict_get pair_eqb p (c_pairs c1);
     do mat <- get_pd_pairs_all c1 (fst p) (snd p);
     do v <- greenwell_value N (is_numerical X fs (fst p)) (is_numerical X fs (snd p)) (length (snd (fst e))) mat;
     Ok (fst p, snd p, v))
    = do v <- greenwell_raw X g fs p0; Ok (ordered X p0, v).
  Proof.
    intros HX Hg Hr E Hin Hi1 Hi2 Hne.
    assert (Hr1 : reachable O N m X P b c1) by (eapply (reachable_step O N m X P b c (OpPairs (Some ps) true)); [exact Hr|exact E]).
    destruct (reachable_shaped O N HO m X P b c1 HX Hr1) as ((_ & Hs & _) & HXc & _). rewrite HXc in Hs.
    destruct p0 as [f1 f2]; cbn [fst snd] in *.
    pose proof Hi1 as Hi1'. pose proof Hi2 as Hi2'.
    apply In_nth_error in Hi1' as (p & Hp). apply In_nth_error in Hi2' as (q & Hq).
    assert (Hpq : p <> q) by congruence.
    assert (Hk : get_pair_key c1 (f1, f2) = ordered X (f1, f2)).
    { unfold ordered; cbn [fst snd]. rewrite (posn_nth X p f1 HX Hp), (posn_nth X q f2 HX Hq).
      destruct (in_combinations_key O N c1 X f1 f2 HX Hs) as [A B].
      destruct (Nat.ltb_spec p q) as [Hlt|Hge].
      - apply A. apply (combinations2_nth (f_cols X) p q); assumption.
      - apply B. intros Hc. pose proof HX as (Hnd & _). apply (combinations2_asym (f_cols X) f1 f2 Hnd Hc).
        apply (combinations2_nth (f_cols X) q p); try assumption. lia. }
    cbv zeta. rewrite Hk. unfold greenwell_raw; cbv zeta.
    (* general fact for an ordered pair *)
    assert (Hord : forall fa fb i j, nth_error (f_cols X) i = Some fa -> nth_error (f_cols X) j = Some fb -> i < j ->
      requested X (Some ps) fa fb -> 
      (do e <- dict_get pair_eqb (fa, fb) (c_pairs c1);
       do mat <- get_pd_pairs_all c1 fa fb;
       do v <- greenwell_value N (is_numerical X fs fa) (is_numerical X fs fb) (length (snd (fst e))) mat;
       Ok (fa, fb, v))
      = do v <- greenwell_value N (is_numerical X fs fa) (is_numerical X fs fb)
             (length (np_unique O (col_at (posn X fb) (f_rows X)))) (gmat X g (posn X fa) (posn X fb)); Ok ((fa, fb), v)).
    { intros fa fb i j Hi Hj Hij Hreq.
      rewrite (posn_nth X i fa HX Hi), (posn_nth X j fb HX Hj).
      rewrite (pd_pairs_matrix O N HO Hnan m X P b c g (Some ps) c1 i j fa fb HX Hg Hr E Hreq Hi Hj Hij).
      assert (Hc : In (fa, fb) (combinations2 (f_cols X))) by (apply (combinations2_nth (f_cols X) i j); assumption).
      destruct (PdProofs.pshape_assoc O N X _ (fa, fb) Hs) as [H1 _]. destruct (H1 Hc) as (mm & Hm).
      unfold dict_get; rewrite Hm; cbn [bind fst snd].
      rewrite (PdFacts.grid_of O X HX j fb Hj). reflexivity. }
    unfold ordered; cbn [fst snd]. rewrite (posn_nth X p f1 HX Hp), (posn_nth X q f2 HX Hq).
    destruct (Nat.ltb_spec p q) as [Hlt|Hge]; cbn [fst snd].
    - apply (Hord f1 f2 p q); auto. left; exact Hin.
    - apply (Hord f2 f1 q p); auto; [lia|]. right; exact Hin.
  Qed.

  Lemma mapM_ext {A B} (f h : A -> result B) l : (forall x, In x l -> f x = h x) -> mapM f l = mapM h l.
  Proof.
    induction l as [|x t IH]; intros H; cbn; [reflexivity|]. rewrite (H x (or_introl eq_refl)).
    rewrite IH by (intros; apply H; right; assumption). reflexivity.
  Qed.

  Lemma greenwell_ovo_spec X fs ps c c' r m P b g :
    wf_frame X -> rowwise P g -> reachable O N m X P b c ->
    greenwell_ovo O N srt X fs ps c = (c', r) ->
    reachable O N m X P b c'
    /\ exists r0, calculate_pd_pairs O N c (Some ps) true = (c', r0)
       /\ (forall e, r0 = Err e -> r = Err e)
       /\ (r0 = Ok tt -> (forall p, In p ps -> In (fst p) (f_cols X) /\ In (snd p) (f_cols X) /\ fst p <> snd p)
           /\ r = (do l <- mapM (fun p => do v <- greenwell_raw X g fs p; Ok (ordered X p, v)) ps; Ok (table N srt l))).
  Proof.
    intros HX Hg Hr H. unfold greenwell_ovo in H.
    destruct (calculate_pd_pairs O N c (Some ps) true) as [c1 r0] eqn:E.
    assert (Hr1 : reachable O N m X P b c1) by (eapply (reachable_step O N m X P b c (OpPairs (Some ps) true)); [exact Hr|exact E]).
    destruct r0 as [[]|e].
    - injection H as <- <-. split; [exact Hr1|]. exists (Ok tt). split; [reflexivity|]. split; [discriminate|]. intros _.
      assert (Hkn : forall p, In p ps -> In (fst p) (f_cols X) /\ In (snd p) (f_cols X) /\ fst p <> snd p).
      { intros [f1 f2] Hin. destruct (pairs_outcome O N HO m X P b c (Some ps) true c1 (Ok tt) HX Hr E) as [_ Hk].
        destruct (Hk eq_refl f1 f2 Hin) as (Hi1 & Hi2 & Hd). cbn. auto. }
      split; [exact Hkn|]. unfold ovo_table. fold (table (A := string * string) N srt).
      erewrite (mapM_ext _ (fun p => do v <- greenwell_raw X g fs p; Ok (ordered X p, v))); [reflexivity|].
      intros p0 Hin. destruct (Hkn p0 Hin) as (Hi1 & Hi2 & Hne).
      exact (greenwell_body X fs ps c c1 m P b g p0 HX Hg Hr E Hin Hi1 Hi2 Hne).
    - injection H as <- <-. split; [exact Hr1|]. exists (Err e). split; [reflexivity|]. split; [congruence|discriminate].
  Qed.

  (** ** fit *)
  Definition all_features (a : fargs C V) : list string := match a_features a with None => f_cols (a_X a) | Some l => l end.
  Definition pf_of (a : fargs C V) := get_predict_function (a_model a) (a_predict a).

  Lemma fit_ok k s a s' : fit O N R srt k s a = (s', Ok tt) ->
    exists Xs rng' c c1 t c2 fi,
      sample_if_not_none R (m_rng s) (a_X a) (a_n a) = Ok (Xs, rng')
      /\ pick_calc O N (a_model a) Xs (pf_of a) (a_batch a) (a_calc a) = Ok c
      /\ ovo_of O N srt k Xs (all_features a) (combinations2 (all_features a)) c = (c1, Ok t)
      /\ pdp_importance O N srt Xs (all_features a) c1 = (c2, Ok fi)
      /\ m_X s' = Some Xs /\ m_features s' = Some (all_features a) /\ m_ovo s' = Some t /\ m_fi s' = Some fi /\ m_rng s' = rng'
      /\ match k with
         | Greenwell => m_ova s' = m_ova s /\ m_calc s' = Some c2
         | Friedman norm =>
             if a_ova a then exists c3 ova, friedman_ova O N srt norm (pf_of a) Xs (all_features a) c2 = (c3, Ok ova)
                                            /\ m_ova s' = Some ova /\ m_calc s' = Some c3
             else m_ova s' = m_ova s /\ m_calc s' = Some c2
         end.
  Proof.
    intros H. unfold fit in H. destruct (fit_base O N R srt k s a) as [s1 [[]|e]] eqn:Eb; [|discriminate].
    unfold fit_base in Eb. fold (all_features a) in Eb. fold (pf_of a) in Eb.
    destruct (sample_if_not_none R (m_rng s) (a_X a) (a_n a)) as [[Xs rng']|e] eqn:Es; [|discriminate].
    destruct (pick_calc O N (a_model a) Xs (pf_of a) (a_batch a) (a_calc a)) as [c|e] eqn:Ec; [|discriminate].
    destruct (ovo_of O N srt k Xs (all_features a) (combinations2 (all_features a)) c) as [c1 [t|e]] eqn:Eo; [|discriminate].
    unfold pd_importance in Eb. cbn [sample_if_not_none] in Eb.
    destruct (pick_calc O N (a_model a) Xs (get_predict_function (a_model a) None) 2000 (Some c1)) as [c1'|e] eqn:Ep; [|discriminate].
    assert (c1' = c1). { unfold pick_calc in Ep. destruct (negb _); [discriminate|]. destruct (negb _); [discriminate|]. congruence. } subst c1'.
    destruct (pdp_importance O N srt Xs (all_features a) c1) as [c2 [fi|e]] eqn:Ei; [|discriminate].
    injection Eb as <-. cbn [m_calc m_X m_features m_predict m_rng m_ova m_ovo m_fi] in H.
    exists Xs, rng', c, c1, t, c2, fi. split; [first [reflexivity|exact Es]|]. split; [first [reflexivity|exact Ec]|]. split; [exact Eo|]. split; [exact Ei|].
    destruct k as [norm|].
    - destruct (a_ova a).
      + destruct (friedman_ova O N srt norm (pf_of a) Xs (all_features a) c2) as [c3 [ova|e]] eqn:Ev; [|discriminate].
        injection H as <-. cbn. eauto 12.
      + injection H as <-. cbn. auto 12.
    - injection H as <-. cbn. auto 12.
  Qed.

  (** the predict function of the call, and of the supplied calculator if there is one,
      compute [g] row by row; the calculator is for the data [Xs] *)
  Definition explains (a : fargs C V) (g : list C -> V) (Xs : frame C) : Prop :=
    rowwise (callable (pf_of a)) g
    /\ match a_calc a with
       | None => True
       | Some c => exists m P b, reachable O N m Xs P b c /\ rowwise P g
       end.

  Lemma explains_calc a g Xs c : explains a g Xs ->
    pick_calc O N (a_model a) Xs (pf_of a) (a_batch a) (a_calc a) = Ok c ->
    exists m P b, reachable O N m Xs P b c /\ rowwise P g.
  Proof.
    intros [H1 H2] H. unfold pick_calc in H. destruct (a_calc a) as [c0|].
    - destruct (negb _); [discriminate|]. destruct (negb _); [discriminate|]. injection H as <-. exact H2.
    - injection H as <-. exists (md_id (a_model a)), (callable (pf_of a)), (a_batch a). split; [|exact H1].
      exists []; reflexivity.
  Qed.

  Lemma combinations2_fst_snd {A} (l : list A) p : In p (combinations2 l) -> In (fst p) l /\ In (snd p) l.
  Proof. destruct p; intros H; apply combinations2_In in H; exact H. Qed.

  (** everything a successful Friedman fit reports *)
  Lemma friedman_fit norm s a s' g Xs :
    wf_frame (a_X a) -> fit O N R srt (Friedman norm) s a = (s', Ok tt) -> m_X s' = Some Xs -> explains a g Xs ->
    wf_frame Xs
    /\ m_features s' = Some (all_features a)
    /\ (forall f1 f2, In (f1, f2) (combinations2 (all_features a)) -> In f1 (f_cols Xs) /\ In f2 (f_cols Xs) /\ f1 <> f2)
    /\ m_ovo s' = Some (table N srt (map (friedman_raw Xs g norm) (combinations2 (all_features a))))
    /\ (if a_ova a then m_ova s' = Some (table N srt (map (ova_raw Xs g norm) (all_features a))) else m_ova s' = m_ova s)
    /\ exists c1 c2 fi m P b, reachable O N m Xs P b c1 /\ rowwise P g
         /\ pdp_importance O N srt Xs (all_features a) c1 = (c2, Ok fi) /\ m_fi s' = Some fi.
  Proof.
    intros HX H HXs Hex. apply fit_ok in H as (Xs' & rng' & c & c1 & t & c2 & fi & Es & Ec & Eo & Ei & E1 & E2 & E3 & E4 & E5 & E6).
    rewrite HXs in E1; injection E1 as <-.
    destruct (sample_wf R _ _ _ _ _ HR HX Es) as (HwX & _).
    destruct (explains_calc _ _ _ _ Hex Ec) as (m & P & b & Hr & Hg). cbn [ovo_of] in Eo.
    apply (friedman_ovo_spec norm Xs _ _ _ _ _ m P b g HwX Hg Hr) in Eo as (-> & Hr1 & Hk); [|intros p; apply combinations2_fst_snd].
    split; [exact HwX|]. split; [exact E2|]. split; [intros f1 f2 Hin; apply (Hk _ Hin)|].
    split; [exact E3|]. split; [|eauto 12].
    destruct (a_ova a); [|apply E6]. destruct E6 as (c3 & ova & Ev & -> & _). f_equal.
    destruct (pdp_importance_spec Xs _ _ _ _ m P b g HwX Hg Hr1 Ei) as (l & _ & _ & _ & Hcs & _).
    apply (friedman_ova_spec norm _ Xs _ _ _ _ m P b g c1 HwX Hg) in Ev as [-> _]; auto. apply Hex.
  Qed.
End Facts.
