(** C111-C113: from the model and the data to what the user sees, for the partial dependence
    methods: the assumptions are about the input of [fit] only, the conclusions about the values
    returned, the charts and the comparison. *)
From Verif Require Import Py Num NumR Sorting Frame Rng PdCalc PdSpec PdFacts PdProofs PdTheorems PdErrors PdApi PdMethods MethodSpec
  PdMethodFacts PdMethodRun PdMethodReal PdMethodReal2 GreenwellFacts Props_Pd Props_Methods Props_Methods2 SplitScore Comparator Props_Split Props_Compare
  Visual VisualFacts Props_Visual Props_Visual2 Props_Visual3 Props_Visual5 Compared.
From Coq Require Import Reals Lra.
Open Scope string_scope.
Open Scope nat_scope.
Open Scope list_scope.

(** ** Specification: the statistics of a function on the rows of a table, in the reals *)
Section Spec.
  Context {C : Type} (O : cell_ops C) (h : list C -> R) (X : frame C).
  Notation rows := (f_rows X).
  Notation pd1 p := (PD1 Rmean h rows p).
  Notation pd2 p q := (PD2 Rmean h rows p q).
  (** effects at a row's own values *)
  Definition own1 (p : nat) (r : list C) : R := match nth_error r p with Some v => pd1 p v | None => 0%R end.
  Definition own2 (p q : nat) (r : list C) : R := match nth_error r p, nth_error r q with Some v, Some u => pd2 p q v u | _, _ => 0%R end.
  Definition others (p : nat) (r : list C) : R := Rmean (map (fun r' => match nth_error r' p with Some v => h (with_value p v r) | None => 0%R end) rows).

  (** Friedman's H: the share of the joint effect's variation that is not additive, or the root
      of the mean square of the non-additive part *)
  Definition Hstat (norm : bool) (joint e1 e2 : list C -> R) : ext R :=
    let c (f : list C -> R) r := (f r - Rmean (map f rows))%R in
    let rest := Rsum (map (fun r => Rsqr (c joint r - c e1 r - c e2 r)) rows) in
    let all := Rsum (map (fun r => Rsqr (c joint r)) rows) in
    if norm then if Req_EM_T all 0 then if Req_EM_T rest 0 then Fin 0%R else PInf else Fin (rest / all)%R
    else Fin (sqrt (rest / INR (length rows))).

  Definition distinct (p : nat) : list C := np_unique O (col_at p rows).
  Definition numeric (p : nat) : bool := match nth_error (f_cols X) p with Some f => str_in f (f_num X) | None => false end.

  Definition statistic (k : kind) (p q : nat) : ext R :=
    match k with
    | Friedman norm => Hstat norm (own2 p q) (own1 p) (own1 q)
    | Greenwell => Fin (Rgreenwell (numeric p) (numeric q) (pd2 p q) (distinct p) (distinct q))
    end.

  (** the value of an unordered pair of column names *)
  Definition pair_value (k : kind) (f1 f2 : string) (v : ext R) : Prop :=
    exists p q, p < q /\ v = statistic k p q
      /\ ((nth_error (f_cols X) p = Some f1 /\ nth_error (f_cols X) q = Some f2) \/ (nth_error (f_cols X) p = Some f2 /\ nth_error (f_cols X) q = Some f1)).
  (** the importance of a column, and its interaction with all others *)
  Definition importance_value (f : string) (v : ext R) : Prop :=
    exists p, nth_error (f_cols X) p = Some f /\ v = Fin (Rspread (numeric p) (map (pd1 p) (distinct p))).
  Definition overall_value (norm : bool) (f : string) (v : ext R) : Prop :=
    exists p, nth_error (f_cols X) p = Some f /\ v = Hstat norm h (own1 p) (others p).
End Spec.

(** names are columns of the same table: a pair has at most one value *)
Lemma nth_once {A} (l : list A) p q x : NoDup l -> nth_error l p = Some x -> nth_error l q = Some x -> p = q.
Proof. intros Hn Hp Hq. rewrite NoDup_nth_error in Hn. apply Hn; [apply nth_error_Some; congruence|congruence]. Qed.
Lemma pair_value_unique {C} (O : cell_ops C) h X k f1 f2 v v' : NoDup (f_cols X) -> pair_value O h X k f1 f2 v -> pair_value O h X k f1 f2 v' -> v = v'.
Proof.
  intros Hn (p & q & Hpq & -> & H) (p' & q' & Hpq' & -> & H').
  assert (U : forall p p' f, nth_error (f_cols X) p = Some f -> nth_error (f_cols X) p' = Some f -> p = p') by (intros; eapply nth_once; eassumption).
  destruct H as [[H1 H2]|[H1 H2]], H' as [[H3 H4]|[H3 H4]].
  - rewrite (U _ _ _ H1 H3), (U _ _ _ H2 H4). reflexivity.
  - pose proof (U _ _ _ H1 H4). pose proof (U _ _ _ H2 H3). lia.
  - pose proof (U _ _ _ H1 H4). pose proof (U _ _ _ H2 H3). lia.
  - rewrite (U _ _ _ H1 H3), (U _ _ _ H2 H4). reflexivity.
Qed.
Lemma pair_value_sym {C} (O : cell_ops C) h X k f1 f2 v : pair_value O h X k f1 f2 v -> pair_value O h X k f2 f1 v.
Proof. intros (p & q & Hpq & E & H). exists p, q. tauto. Qed.

Lemma combinations2_all {A} (l : list A) x y : In x l -> In y l -> x <> y -> In (x, y) (combinations2 l) \/ In (y, x) (combinations2 l).
Proof.
  induction l as [|a l IH]; [intros []|]. intros [->|Hx] [->|Hy] Hne; cbn [combinations2]; try congruence.
  - left. apply in_or_app. left. apply in_map, Hy.
  - right. apply in_or_app. left. apply in_map, Hx.
  - destruct (IH Hx Hy Hne); [left|right]; apply in_or_app; right; assumption.
Qed.
Lemma lists_pairs_all {V} fs (t : list (string * string * V)) f1 f2 : lists_pairs fs t -> In f1 fs -> In f2 fs -> f1 <> f2 -> exists r, In r t /\ about f1 f2 r.
Proof.
  intros (l & HP & HF) H1 H2 Hne.
  assert (G : forall a b, In (a, b) (combinations2 fs) -> exists r, In r t /\ about a b r).
  { intros a b Hab. apply In_nth_error in Hab as (i & Hi).
    assert (Hq : exists q, nth_error l i = Some q /\ (q = (a, b) \/ q = (b, a))).
    { clear -HF Hi. revert i Hi. induction HF as [|x y l1 l2 H HF IH]; intros [|i] Hi; try discriminate; [injection Hi as ->; exists y; auto|apply IH, Hi]. }
    destruct Hq as (q & Hq & Hq'). apply nth_error_In, (Permutation_in _ (Permutation_sym HP)) in Hq. apply in_map_iff in Hq as (r & Er & Hr).
    exists r. split; [exact Hr|]. unfold about. destruct Hq' as [->| ->]; rewrite Er; cbn; auto. }
  destruct (combinations2_all fs f1 f2 H1 H2 Hne) as [H|H]; apply G in H as (r & Hr & Ha); exists r; (split; [exact Hr|]); unfold about in *; tauto.
Qed.
Lemma lists_pairs_In {V} fs (t : list (string * string * V)) r : NoDup fs -> lists_pairs fs t -> In r t -> In (fst (fst r)) fs /\ In (snd (fst r)) fs /\ fst (fst r) <> snd (fst r).
Proof.
  intros Hn (l & HP & HF) Hr. apply (in_map fst), (Permutation_in _ HP) in Hr. destruct (Forall2_In_r _ _ _ HF _ Hr) as (p & Hp & Hq).
  destruct p as [a b]. pose proof (combinations2_In _ _ Hp) as [Ha Hb]. cbn [fst snd] in Ha, Hb.
  assert (Hab : a <> b) by (exact (combinations2_irrefl fs a b Hn Hp)). cbn [fst snd] in Hq. destruct Hq as [Hq|Hq]; rewrite Hq; cbn [fst snd]; auto.
Qed.
Lemma lists_pairs_perm {V} fs (t t' : list (string * string * V)) : Permutation t t' -> lists_pairs fs t -> lists_pairs fs t'.
Proof. intros HP (l & H1 & H2). exists l. split; [|exact H2]. rewrite <- H1. apply Permutation_map, Permutation_sym, HP. Qed.

Section EndToEnd.
  Context {C G : Type} (O : cell_ops C) (HO : cell_ok O) (Rg : rng_ops G) (HR : rng_ok Rg) (srt : sorter) (Hs : sorter_ok srt) (lower : string -> string).
  Notation fit := (PdMethods.fit O xR Rg srt).
  Notation plot := (pd_plot xR srt lower).
  Notation compared k s := (pd_compared xR srt k s).

  (** the input of [fit]: the model computes [h] row by row and answers any table, the rows used
      are complete, the features are at least two different columns; Greenwell's measure needs
      features that vary *)
  Record input (k : kind) (s : mstate C (ext R) G) (a : fargs C (ext R)) (h : list C -> R) (X : frame C) : Prop := {
    in_frame : wf_frame (a_X a);
    in_sample : exists rng', sample_if_not_none Rg (m_rng s) (a_X a) (a_n a) = Ok (X, rng');
    in_model : explains_total O xR a (fun r => Fin (h r)) X;
    in_complete : complete O X;
    in_rows : f_rows X <> [];
    in_distinct : NoDup (fitted_features a);
    in_columns : forall f, In f (fitted_features a) -> In f (f_cols X);
    in_two : 2 <= length (fitted_features a);
    in_varies : k = Greenwell -> forall f, In f (fitted_features a) ->
                  exists p u v, nth_error (f_cols X) p = Some f /\ In u (col_at p (f_rows X)) /\ In v (col_at p (f_rows X)) /\ u <> v }.

  Lemma H_value_Hstat (X : frame C) norm f12 f1 f2 h12 h1 h2 : f_rows X <> [] -> is_fin (f_rows X) f12 h12 -> is_fin (f_rows X) f1 h1 -> is_fin (f_rows X) f2 h2 ->
    or_zero xR (H_value xR (f_rows X) norm f12 f1 f2) = Hstat X norm h12 h1 h2.
  Proof.
    intros Hne E12 E1 E2. rewrite (H_value_fin (f_rows X) norm f12 f1 f2 h12 h1 h2 E12 E1 E2). unfold Hstat.
    change (Rsum (map (fun r => Rsqr (h12 r - Rmean (map h12 (f_rows X)) - (h1 r - Rmean (map h1 (f_rows X))) - (h2 r - Rmean (map h2 (f_rows X))))) (f_rows X)))
      with (RHnum (f_rows X) h12 h1 h2).
    change (Rsum (map (fun r => Rsqr (h12 r - Rmean (map h12 (f_rows X)))) (f_rows X))) with (RHden (f_rows X) h12).
    pose proof (RHnum_nonneg (f_rows X) h12 h1 h2) as Hn. generalize dependent (RHnum (f_rows X) h12 h1 h2). generalize (RHden (f_rows X) h12). intros den num Hn. destruct norm.
    - destruct (Req_EM_T den 0) as [->|Hd].
      + rewrite xR_div_zero. destruct (Req_EM_T num 0) as [->|Hz].
        * replace (Rltb 0 0) with false by (symmetry; apply Rltb_false; lra). reflexivity.
        * replace (Rltb 0 num) with true by (symmetry; apply Rltb_spec; lra). reflexivity.
      + rewrite xR_div_fin by exact Hd. reflexivity.
    - assert (Hl : (0 < INR (length (f_rows X)))%R) by (apply lt_0_INR; destruct (f_rows X); [congruence|cbn; lia]).
      rewrite xR_div_fin by lra. rewrite xR_sqrt_fin by (apply Rmult_le_pos; [exact Hn|left; apply Rinv_0_lt_compat, Hl]). reflexivity.
  Qed.

  (** everything the charts are drawn from *)
  Record output (k : kind) (a : fargs C (ext R)) h X (s' : mstate C (ext R) G) t fi : Prop := {
    out_ovo : m_ovo s' = Some t;
    out_fi : m_fi s' = Some fi;
    out_pairs : lists_pairs (fitted_features a) t;
    out_values : forall r, In r t -> pair_value O h X k (fst (fst r)) (snd (fst r)) (snd r);
    out_sorted : StronglySorted (fun x y => le_dir xR false (snd x) (snd y) = true) t;
    out_names : Permutation (map fst fi) (fitted_features a);
    out_importance : forall f v, In (f, v) fi -> importance_value O h X f v;
    out_ova : forall norm, k = Friedman norm -> a_ova a = true -> exists ova, m_ova s' = Some ova /\ Permutation (map fst ova) (fitted_features a)
      /\ (forall f v, In (f, v) ova -> overall_value h X norm f v) /\ StronglySorted (fun x y => le_dir xR false (snd x) (snd y) = true) ova }.

  Lemma sorted_dir {A} (t : list (A * ext R)) : (forall r, In r t -> n_isnan xR (snd r) = false) -> StronglySorted (fun x y => n_ltb xR (snd x) (snd y) = false) t ->
    StronglySorted (fun x y => le_dir xR false (snd x) (snd y) = true) t.
  Proof.
    intros Hn H. eapply StronglySorted_impl; [|exact H]. intros x y Hx Hy E. cbn [le_dir]. unfold le_desc. rewrite (Hn _ Hx), (Hn _ Hy), E. reflexivity.
  Qed.
  Lemma explains_of a g X : explains_total O xR a g X -> explains O xR a g X.
  Proof. intros (H1 & _ & H2). split; [exact H1|]. destruct (a_calc a); [|exact I]. destruct H2 as (P & b & Hr & Hg & _). eauto. Qed.
  Lemma numeric_at (X : frame C) p f : nth_error (f_cols X) p = Some f -> numeric X p = str_in f (f_num X).
  Proof. intros E. unfold numeric. rewrite E. reflexivity. Qed.

  Lemma fit_output k s a h X : input k s a h X -> exists s' t fi, fit k s a = (s', Ok tt) /\ wf_frame X /\ output k a h X s' t fi.
  Proof.
    intros [Hf (rng' & Hsmp) Hm Hc Hr Hd Hcol H2 Hvar].
    destruct (fit k s a) as [s' r] eqn:E.
    assert (Er : r = Ok tt).
    { destruct k as [norm|].
      - eapply (C66_fit_succeeds_partial O xR HO xR_ord Rg HR srt); eassumption.
      - destruct (C19_greenwell_constant_feature O xR HO xR_ord Rg HR srt s a s' r _ X rng' Hf Hsmp Hm Hc Hr Hd Hcol H2 E) as (_ & G1 & _). apply G1.
        intros f Hin Hcon. destruct (Hvar eq_refl f Hin) as (p & u & v & Hp & Hu & Hv & Hne). apply Hne, (Hcon p u v Hp Hu Hv). }
    subst r. pose proof (explains_of _ _ _ Hm) as He.
    assert (HX : m_X s' = Some X).
    { pose proof E as E'. apply fit_ok in E' as (Xs & r' & _ & _ & _ & _ & _ & Es & _ & _ & _ & EX & _). rewrite Hsmp in Es. injection Es as <- _. exact EX. }
    destruct (sample_wf Rg _ _ _ _ _ HR Hf Hsmp) as (HwX & _).
    destruct (pd_tables O xR Rg srt Hs xR_ord x0 k s a s' E) as (t & fi & Et & Efi & HL & HP & Hnan & _).
    destruct (C20_fit_importance O HO Rg HR srt Hs k s a s' h X Hf E HX He) as (fi' & Efi' & _ & Himp & _). rewrite Efi in Efi'. injection Efi' as <-.
    exists s', t, fi. split; [reflexivity|]. split; [exact HwX|].
    assert (Hval : (forall r, In r t -> pair_value O h X k (fst (fst r)) (snd (fst r)) (snd r)) /\ StronglySorted (fun x y => le_dir xR false (snd x) (snd y) = true) t).
    { destruct k as [norm|].
      - destruct (C12_friedman_pairs O xR HO xR_ord x0 Rg HR srt Hs norm s a s' _ X Hf E HX He) as (t' & Et' & _ & Hv & Hnn). rewrite Et in Et'. injection Et' as <-.
        destruct (C12_friedman_order O HO Rg HR srt Hs norm s a s' _ X Hf E HX He) as (t' & Et' & Hsd). rewrite Et in Et'. injection Et' as <-.
        split; [|exact (sorted_dir t Hnn Hsd)]. intros [[f1 f2] v] Hin. cbn [fst snd]. destruct (Hv _ _ _ Hin) as (p & q & Hp & Hq & Hpq & ->).
        assert (Hst : forall i j, i < length (f_cols X) -> j < length (f_cols X) -> or_zero xR (H_pair xR (fun r => Fin (h r)) (f_rows X) norm i j) = statistic O h X (Friedman norm) i j).
        { intros i j Hi Hj. unfold H_pair, statistic. apply H_value_Hstat; [exact Hr|..].
          - apply (PD2_at_fin (f_rows X) _ (wf_rows X HwX)); assumption.
          - apply (PD1_at_fin (f_rows X) _ (wf_rows X HwX)); assumption.
          - apply (PD1_at_fin (f_rows X) _ (wf_rows X HwX)); assumption. }
        destruct (Nat.lt_total p q) as [Hlt|[->|Hlt]]; [|congruence|].
        + exists p, q. split; [exact Hlt|]. split; [apply Hst; eapply pos_lt; eassumption|auto].
        + exists q, p. split; [exact Hlt|]. split; [|auto]. rewrite <- Hst by (eapply pos_lt; eassumption). f_equal.
          apply (H_pair_swap _ _ norm p q (length (f_cols X)) (wf_rows X HwX)); [exact Hpq|eapply pos_lt; eassumption..].
      - destruct (C17_greenwell_pairs O HO Rg HR srt Hs s a s' h X Hf E HX He) as (t' & Et' & _ & Hv & Hsd). rewrite Et in Et'. injection Et' as <-.
        assert (Hnn : forall r, In r t -> n_isnan xR (snd r) = false).
        { intros [[f1 f2] v] Hin. destruct (Hv _ _ _ Hin) as (p & q & _ & _ & _ & _ & _ & ->). reflexivity. }
        split; [|exact (sorted_dir t Hnn Hsd)]. intros [[f1 f2] v] Hin. cbn [fst snd]. destruct (Hv _ _ _ Hin) as (p & q & Hp & Hq & Hpq & _ & _ & ->).
        exists p, q. split; [exact Hpq|]. split; [|auto]. cbn [statistic]. rewrite (numeric_at X p f1 Hp), (numeric_at X q f2 Hq). reflexivity. }
    destruct Hval as [Hval Hsd]. constructor; try assumption.
    - intros f v Hin. destruct (Himp f v Hin) as (p & Hp & ->). exists p. split; [exact Hp|]. rewrite (numeric_at X p f Hp). reflexivity.
    - intros norm -> Hova.
      destruct (C13_friedman_ova O xR HO xR_ord x0 Rg HR srt Hs norm s a s' _ X Hf E HX He Hova) as (ova & Eo & HPo & Hv & Hnn). exists ova. split; [exact Eo|]. split; [exact HPo|].
      destruct (C13_friedman_ova_order O HO Rg HR srt Hs norm s a s' _ X Hf E HX He Hova) as (ova' & Eo' & Hso). rewrite Eo in Eo'. injection Eo' as <-.
      split; [|exact (sorted_dir ova Hnn Hso)]. intros f v Hin. destruct (Hv f v Hin) as (p & Hp & ->). exists p. split; [exact Hp|]. unfold H_all. apply H_value_Hstat; [exact Hr|..].
      + intros r _. reflexivity.
      + apply (PD1_at_fin (f_rows X) _ (wf_rows X HwX)). eapply pos_lt, Hp.
      + apply (PDminus_at_fin (f_rows X) _ (wf_rows X HwX)). eapply pos_lt, Hp.
  Qed.

  (** ** C111: interaction_value after fit *)
  Theorem C111_value k s a h X f1 f2 : input k s a h X ->
    exists s', fit k s a = (s', Ok tt)
      /\ (In f1 (fitted_features a) -> In f2 (fitted_features a) -> f1 <> f2 ->
          exists v, interaction_value (mv_compare (compared k s')) f1 f2 = Ok v /\ pair_value O h X k f1 f2 v)
      /\ (~ (In f1 (fitted_features a) /\ In f2 (fitted_features a) /\ f1 <> f2) -> interaction_value (mv_compare (compared k s')) f1 f2 = Err IndexError).
  Proof.
    intros Hin. destruct (fit_output k s a h X Hin) as (s' & t & fi & E & HwX & [Et _ HL Hv _ _ _ _]). exists s'. split; [exact E|].
    cbn [pd_compared mv_compare compare_table]. rewrite Et. destruct (sort_values_ok xR srt false (fun r => snd r) t Hs xR_ord) as [HP _].
    pose proof (interaction_value_ok (sort_values xR srt false (fun r => snd r) t) f1 f2) as Hi. cbn [compare_table].
    destruct (interaction_value _ f1 f2) as [v|e].
    - destruct Hi as (r & Hr & Ha & <-). apply (Permutation_in _ HP) in Hr. destruct (lists_pairs_In _ t r (in_distinct _ _ _ _ _ Hin) HL Hr) as (H1 & H2 & H3).
      assert (Hpv : pair_value O h X k f1 f2 (snd r)) by (specialize (Hv r Hr); destruct Ha as [[<- <-]|[<- <-]]; [exact Hv|apply pair_value_sym, Hv]).
      split; [intros; exists (snd r); auto|]. intros Hno. exfalso. apply Hno. destruct Ha as [[<- <-]|[<- <-]]; auto.
    - destruct Hi as [-> Hi]. split; [|reflexivity]. intros H1 H2 H3. exfalso. destruct (lists_pairs_all _ t f1 f2 HL H1 H2 H3) as (r & Hr & Ha).
      apply (Hi r); [apply (Permutation_in _ (Permutation_sym HP)), Hr|exact Ha].
  Qed.

  (** ** C112: the charts after fit *)
  Lemma plot_data_of k (s' : mstate C (ext R) G) t fi ova vis title kw : m_ovo s' = Some t -> m_fi s' = Some fi -> m_fi_obj s' = true -> (forall norm, k = Friedman norm -> m_ova s' = Some ova) ->
    plot k s' vis title kw
    = visualize xR srt lower (match k with Friedman _ => HStatistic | Greenwell => VariableInteraction end)
        {| pd_ovo := t; pd_ova := match k with Friedman _ => Some ova | Greenwell => None end; pd_fi := Some fi; pd_int_asc := false; pd_imp_asc := false;
           pd_directed := false; pd_full := None; pd_cond := [] |} vis title kw.
  Proof. intros E1 E2 E3 E4. destruct k as [norm|]; unfold pd_plot; [rewrite (E4 norm eq_refl)|]; rewrite ?E1, ?E2, ?E3; reflexivity. Qed.

  Theorem C112_heatmap k s a h X title kw : input k s a h X -> (forall norm, k = Friedman norm -> a_ova a = true) -> usable kw ->
    exists s' t c1 c2 labels importance interaction, fit k s a = (s', Ok tt)
      /\ plot k s' "heatmap" title kw = Ok (None, [PHeatmap t c1 c2 labels importance interaction])
      /\ Permutation labels (fitted_features a)
      /\ (forall i f, nth_error labels i = Some f -> entry interaction i i = Some None /\ exists v, entry importance i i = Some (Some v) /\ importance_value O h X f v)
      /\ (forall i j f1 f2, i <> j -> nth_error labels i = Some f1 -> nth_error labels j = Some f2 ->
            entry importance i j = Some None /\ exists v, entry interaction i j = Some (Some v) /\ pair_value O h X k f1 f2 v).
  Proof.
    intros Hin Hova Hu. destruct (fit_output k s a h X Hin) as (s' & t & fi & E & HwX & [Et Efi HL Hv _ HP Himp Ho]). exists s'.
    pose proof (fit_obj O xR Rg srt k s a s' E) as Hobj. destruct Hin as [Hf _ _ _ _ Hd Hcol H2 _].
    assert (Hpl : exists f, plot k s' "heatmap" title kw = Ok f /\ snd f <> []).
    { destruct k as [norm|]; [apply (C56_friedman_partial O xR Rg srt lower Hs xR_ord x0 norm s a)|apply (C56_greenwell_partial O xR Rg srt lower Hs xR_ord x0 s a)]; eauto; cbn; tauto. }
    assert (Hov : exists ova, forall norm, k = Friedman norm -> m_ova s' = Some ova).
    { destruct k as [norm|]; [|exists []; discriminate]. destruct (Ho norm eq_refl (Hova norm eq_refl)) as (ova & Eo & _). exists ova. intros _ _. exact Eo. }
    destruct Hov as (ova & Hov). rewrite (plot_data_of k s' t fi ova _ _ _ Et Efi Hobj Hov) in *. destruct Hpl as (f & Ef & _).
    assert (Ef' : (do p <- plot_heatmap xR srt lower t (Some fi) title false false false (k_own kw); Ok (None, [p])) = Ok f) by (rewrite <- Ef; destruct k; reflexivity).
    destruct (plot_heatmap xR srt lower t (Some fi) title false false false (k_own kw)) as [p|] eqn:Ep; [|discriminate]. cbn [bind] in Ef'. injection Ef' as <-.
    assert (Hp : exists ti c1 c2 labels imp int, p = PHeatmap ti c1 c2 labels imp int).
    { clear -Ep. unfold plot_heatmap in Ep. destruct (all_pairs _ _ _) as [rows|]; [|discriminate]. cbn [bind] in Ep. destruct (order_heatmap _ _ _ _ _ _) as [[|x l]|]; try discriminate. cbn [bind] in Ep. injection Ep as <-. eauto 10. }
    destruct Hp as (ti & c1 & c2 & labels & imp & int & ->). exists ti, c1, c2, labels, imp, int. split; [exact E|]. split; [exact Ef|].
    assert (Hg : good_pairs false t).
    { split; [intros x Hx; apply (lists_pairs_In _ t x Hd HL Hx)|]. intros x y r c Hx Hy Fx Fy.
      assert (A : forall z, In z t -> fills false r c z -> pair_value O h X k r c (snd z)).
      { intros z Hz [[<- <-]|(_ & <- & <-)]; [exact (Hv z Hz)|apply pair_value_sym, (Hv z Hz)]. }
      destruct HwX as (HwX & _). eapply pair_value_unique; [exact HwX|exact (A x Hx Fx)|exact (A y Hy Fy)]. }
    destruct (C55_heatmap_partial xR srt lower Hs xR_ord t fi title false false false (k_own kw) ti c1 c2 labels imp int Ep Hg) as (Hnd & Hocc & Hall & Hdiag & Hoff).
    destruct (lists_pairs_first _ _ Hd H2 HL) as (x & y & v & _ & _ & x' & y' & l & Efs). pose proof (lists_pairs_occurs _ t x' y' l Efs HL) as Hoc.
    assert (Hnn : forall f v, In (f, v) fi -> n_isnan xR v = false) by (intros f w Hw; destruct (Himp f w Hw) as (p & _ & ->); reflexivity).
    split; [|split].
    - apply NoDup_Permutation; [exact Hnd|exact Hd|]. intros f. rewrite <- Hoc. split; [apply Hocc|apply (Hall Hnn)].
    - intros i f Hi. destruct (Hdiag i f Hi) as (w & Hw & E1 & E2). split; [exact E2|]. exists w.
      assert (Hin : In (f, w) fi) by (apply has_importance_In; exact Hw). split; [rewrite E1; unfold show; rewrite (Hnn _ _ Hin); reflexivity|exact (Himp f w Hin)].
    - intros i j f1 f2 Hij Hi Hj. destruct (Hoff i j f1 f2 Hi Hj Hij) as (E1 & o & E2 & Hsh). split; [exact E1|].
      assert (Hf1 : In f1 (fitted_features a)) by (apply Hoc, Hocc, (nth_error_In _ _ Hi)). assert (Hf2 : In f2 (fitted_features a)) by (apply Hoc, Hocc, (nth_error_In _ _ Hj)).
      assert (Hne : f1 <> f2) by (intros ->; apply Hij; eapply nth_once; eassumption).
      destruct (lists_pairs_all _ t f1 f2 HL Hf1 Hf2 Hne) as (r & Hr & Ha). exists (snd r).
      assert (Hpv : pair_value O h X k f1 f2 (snd r)) by (specialize (Hv r Hr); destruct Ha as [[<- <-]|[<- <-]]; [exact Hv|apply pair_value_sym, Hv]).
      split; [|exact Hpv]. rewrite E2. f_equal. apply Hsh. split.
      + destruct Hpv as (p & q & _ & -> & _). destruct k as [[|]|]; cbn [statistic]; unfold Hstat; [|reflexivity..]. destruct (Req_EM_T _ _); [destruct (Req_EM_T _ _)|]; reflexivity.
      + exists r. split; [exact Hr|]. split; [|reflexivity]. destruct Ha as [[<- <-]|[<- <-]]; unfold fills; auto.
  Qed.

  Theorem C112_bars k s a h X title kw : input k s a h X -> (forall norm, k = Friedman norm -> a_ova a = true) -> usable kw ->
    let n := match k_top (k_own kw) with Some n => n | None => 10 end in
    exists s' bars rest, fit k s a = (s', Ok tt)
      /\ plot k s' "bar_chart" title kw
         = Ok (None, [PBars (if String.eqb title "default" then "Pair interactions" else title)
                        (match k with Friedman _ => "Friedman H-statistic Interaction Measure" | Greenwell => "Greenwell Variable Interaction Measure" end)
                        (map (fun r => (fst (fst r) ++ ":" ++ snd (fst r), snd r)%string) bars)])
      (* every pair once, with its value; the strongest [n] of them are drawn, in order *)
      /\ lists_pairs (fitted_features a) (bars ++ rest) /\ length bars = Nat.min n (length (bars ++ rest))
      /\ (forall f1 f2 v, In (f1, f2, v) (bars ++ rest) -> pair_value O h X k f1 f2 v)
      /\ StronglySorted (fun x y => n_ltb xR (snd x) (snd y) = false) (bars ++ rest).
  Proof.
    intros Hin Hova Hu n. destruct (fit_output k s a h X Hin) as (s' & t & fi & E & HwX & [Et Efi HL Hv Hsd HP Himp Ho]).
    pose proof (fit_obj O xR Rg srt k s a s' E) as Hobj. destruct Hin as [Hf _ _ _ _ Hd Hcol H2 _].
    assert (Hpl : exists f, plot k s' "bar_chart" title kw = Ok f /\ snd f <> []).
    { destruct k as [norm|]; [apply (C56_friedman_partial O xR Rg srt lower Hs xR_ord x0 norm s a)|apply (C56_greenwell_partial O xR Rg srt lower Hs xR_ord x0 s a)]; eauto; cbn; tauto. }
    assert (Hov : exists ova, forall norm, k = Friedman norm -> m_ova s' = Some ova).
    { destruct k as [norm|]; [|exists []; discriminate]. destruct (Ho norm eq_refl (Hova norm eq_refl)) as (ova & Eo & _). exists ova. intros _ _. exact Eo. }
    destruct Hov as (ova & Hov). pose proof (plot_data_of k s' t fi ova "bar_chart" title kw Et Efi Hobj Hov) as Epl. rewrite Epl in Hpl. destruct Hpl as (f & Ef & _).
    destruct (C73_pairs xR srt lower _ _ title kw f Ef Hsd) as (bars & rest & -> & Eb & Hlen & _ & _ & _). cbn [pd_ovo] in Eb, Hlen.
    exists s', bars, rest. split; [exact E|]. split; [rewrite Epl, Ef; destruct k; reflexivity|]. rewrite <- Eb. split; [exact HL|]. split; [exact Hlen|].
    split; [intros f1 f2 v Hr; exact (Hv _ Hr)|]. eapply StronglySorted_impl; [|exact Hsd]. intros x y Hx Hy Hle. cbn [le_dir] in Hle. unfold le_desc in Hle.
    assert (Hnn : forall r, In r t -> n_isnan xR (snd r) = false).
    { intros r Hr. destruct (Hv r Hr) as (p & q & _ & -> & _). destruct k as [[|]|]; cbn [statistic]; unfold Hstat; [|reflexivity..]. destruct (Req_EM_T _ _); [destruct (Req_EM_T _ _)|]; reflexivity. }
    rewrite (Hnn _ Hx), (Hnn _ Hy) in Hle. apply negb_true_iff, Hle.
  Qed.

  Theorem C112_bars_ova norm s a h X title kw : input (Friedman norm) s a h X -> a_ova a = true -> usable kw ->
    let n := match k_top (k_own kw) with Some n => n | None => 10 end in
    exists s' bars rest, fit (Friedman norm) s a = (s', Ok tt)
      /\ plot (Friedman norm) s' "bar_chart_ova" title kw = Ok (None, [PBars "Interaction with all other features" "Friedman H-statistic Interaction Measure" bars])
      /\ Permutation (map fst (bars ++ rest)) (fitted_features a) /\ length bars = Nat.min n (length (fitted_features a))
      /\ (forall f v, In (f, v) (bars ++ rest) -> overall_value h X norm f v)
      /\ StronglySorted (fun x y => n_ltb xR (snd x) (snd y) = false) (bars ++ rest).
  Proof.
    intros Hin Hova Hu n. destruct (fit_output (Friedman norm) s a h X Hin) as (s' & t & fi & E & HwX & [Et Efi HL Hv Hsd HP Himp Ho]).
    pose proof (fit_obj O xR Rg srt (Friedman norm) s a s' E) as Hobj. destruct Hin as [Hf _ _ _ _ Hd Hcol H2 _].
    destruct (C56_friedman_partial O xR Rg srt lower Hs xR_ord x0 norm s a s' "bar_chart_ova" title kw E Hd H2 Hova Hu) as (f & Ef & _); [cbn; tauto|].
    destruct (Ho norm eq_refl Hova) as (ova & Eo & HPo & Hvo & Hso).
    pose proof (plot_data_of (Friedman norm) s' t fi ova "bar_chart_ova" title kw Et Efi Hobj (fun _ _ => Eo)) as Epl. pose proof Ef as Ef'. rewrite Epl in Ef'.
    destruct (C73_features xR srt lower _ _ title kw f ova Ef' eq_refl Hso) as (bars & rest & -> & Eb & Hlen & _ & _ & _).
    exists s', bars, rest. split; [exact E|]. split; [exact Ef|]. rewrite <- Eb. split; [exact HPo|]. split; [rewrite Hlen, <- (Permutation_length HPo), map_length; reflexivity|].
    split; [exact Hvo|]. eapply StronglySorted_impl; [|exact Hso]. intros x y Hx Hy Hle. cbn [le_dir] in Hle. unfold le_desc in Hle.
    assert (Hnn : forall r, In r ova -> n_isnan xR (snd r) = false).
    { intros [f v] Hr. destruct (Hvo f v Hr) as (p & _ & ->). cbn [snd]. unfold Hstat. destruct norm; [|reflexivity]. destruct (Req_EM_T _ _); [destruct (Req_EM_T _ _)|]; reflexivity. }
    rewrite (Hnn _ Hx), (Hnn _ Hy) in Hle. apply negb_true_iff, Hle.
  Qed.

  (** ** C113: the comparison of two fitted methods *)
  Theorem C113_points k1 s1 a1 h1 X1 k2 s2 a2 h2 X2 df n box : input k1 s1 a1 h1 X1 -> input k2 s2 a2 h2 X2 -> incl (fitted_features a1) (fitted_features a2) ->
    exists s1' s2' p pairs, fit k1 s1 a1 = (s1', Ok tt) /\ fit k2 s2 a2 = (s2', Ok tt)
      /\ comparison_plot xR df (compared k1 s1') (compared k2 s2') n box = Ok p
      (* one point per pair of features of the first method, at the values of the two statistics *)
      /\ lists_pairs (fitted_features a1) pairs
      /\ Forall2 (fun r xy => fst xy = snd r /\ pair_value O h1 X1 k1 (fst (fst r)) (snd (fst r)) (fst xy) /\ pair_value O h2 X2 k2 (fst (fst r)) (snd (fst r)) (snd xy)) pairs (cp_points p)
      (* the pairs strongest for the first method carry their names *)
      /\ StronglySorted (fun x y => n_ltb xR (snd x) (snd y) = false) pairs
      /\ cp_labels p = combine (map (fun r => fst (fst r) ++ "-" ++ snd (fst r))%string (firstn n pairs)) (firstn n (cp_points p))
      (* stronger is to the right and above *)
      /\ cp_axes p = (method_name (match k1 with Friedman _ => HStatistic | Greenwell => VariableInteraction end),
                      method_name (match k2 with Friedman _ => HStatistic | Greenwell => VariableInteraction end))
      /\ cp_invert_x p = false /\ cp_invert_y p = false.
  Proof.
    intros Hin1 Hin2 Hincl. destruct (fit_output k1 s1 a1 h1 X1 Hin1) as (s1' & t1 & fi1 & E1 & HwX1 & [Et1 _ HL1 Hv1 _ _ _ _]).
    destruct (fit_output k2 s2 a2 h2 X2 Hin2) as (s2' & t2 & fi2 & E2 & HwX2 & [Et2 _ HL2 Hv2 _ _ _ _]).
    pose (T1 := sort_values xR srt false (fun r => snd r) t1). pose (T2 := sort_values xR srt false (fun r => snd r) t2).
    destruct (sort_values_ok xR srt false (fun r : string * string * ext R => snd r) t1 Hs xR_ord) as [HP1 Hst1]. destruct (sort_values_ok xR srt false (fun r : string * string * ext R => snd r) t2 Hs xR_ord) as [HP2 _].
    fold T1 in HP1, Hst1. fold T2 in HP2.
    assert (C1 : mv_compare (compared k1 s1') = Ok T1) by (cbn [pd_compared mv_compare]; rewrite Et1; reflexivity).
    assert (C2 : mv_compare (compared k2 s2') = Ok T2) by (cbn [pd_compared mv_compare]; rewrite Et2; reflexivity).
    assert (N1 : T1 <> []).
    { destruct (lists_pairs_first _ _ (in_distinct _ _ _ _ _ Hin1) (in_two _ _ _ _ _ Hin1) HL1) as (x & y & v & Hr & _). intros En. rewrite En in HP1. apply Permutation_nil in HP1. rewrite HP1 in Hr. destruct Hr. }
    assert (N2 : T2 <> []).
    { destruct (lists_pairs_first _ _ (in_distinct _ _ _ _ _ Hin2) (in_two _ _ _ _ _ Hin2) HL2) as (x & y & v & Hr & _). intros En. rewrite En in HP2. apply Permutation_nil in HP2. rewrite HP2 in Hr. destruct Hr. }
    pose proof (C54_points xR df (compared k1 s1') (compared k2 s2') T1 T2 n C1 C2 N1 N2 box) as Hpts.
    destruct (comparison_plot xR df (compared k1 s1') (compared k2 s2') n box) as [p|e] eqn:Ep.
    2:{ exfalso. destruct Hpts as (_ & r & Hr & Hno). apply (Permutation_in _ HP1) in Hr. destruct (lists_pairs_In _ t1 r (in_distinct _ _ _ _ _ Hin1) HL1 Hr) as (Ha & Hb & Hab).
        destruct (lists_pairs_all _ t2 _ _ HL2 (Hincl _ Ha) (Hincl _ Hb) Hab) as (r2 & Hr2 & Hab2). apply (Hno r2); [apply (Permutation_in _ (Permutation_sym HP2)), Hr2|exact Hab2]. }
    destruct Hpts as (HF & Hl1 & Hl2 & Ix & Iy & Iax & _). exists s1', s2', p, T1. split; [exact E1|]. split; [exact E2|]. split; [exact Ep|]. split; [exact (lists_pairs_perm _ _ _ (Permutation_sym HP1) HL1)|].
    assert (Hnn : forall r, In r t1 -> n_isnan xR (snd r) = false).
    { intros r Hr. destruct (Hv1 r Hr) as (i & j & _ & -> & _). destruct k1 as [[|]|]; cbn [statistic]; unfold Hstat; [|reflexivity..]. destruct (Req_EM_T _ _); [destruct (Req_EM_T _ _)|]; reflexivity. }
    split; [|split; [|split; [|split; [exact Iax|split; [exact Ix|exact Iy]]]]].
    - assert (Hsub : forall r, In r T1 -> In r t1) by (intros r; apply (Permutation_in _ HP1)). clear -HF Hv1 Hv2 Hsub HP2. revert Hsub.
      induction HF as [|r xy l1 l2 (Hx & _ & r2 & Hr2 & Ha & Hy) HF IH]; intros Hsub; [constructor|]. constructor; [|apply IH; intros; apply Hsub; right; assumption].
      split; [exact Hx|]. rewrite Hx, <- Hy. split; [apply Hv1, Hsub; left; reflexivity|]. apply (Permutation_in _ HP2) in Hr2. specialize (Hv2 r2 Hr2).
      destruct Ha as [[Ea Eb]|[Ea Eb]]; rewrite Ea, Eb in Hv2; [exact Hv2|apply pair_value_sym, Hv2].
    - eapply StronglySorted_impl; [|exact Hst1]. intros x y Hx Hy Hle. cbn [le_dir] in Hle. unfold le_desc in Hle. apply (Permutation_in _ HP1) in Hx, Hy.
      rewrite (Hnn _ Hx), (Hnn _ Hy) in Hle. apply negb_true_iff, Hle.
    - rewrite <- Hl1, <- Hl2. clear. induction (cp_labels p) as [|[x y] l IH]; [reflexivity|]. cbn [map combine fst snd]. rewrite <- IH. reflexivity.
  Qed.
  (** a pair the second method was not fitted on: no plot at all *)
  Theorem C113_missing k1 s1 a1 h1 X1 k2 s2 a2 h2 X2 df n box : input k1 s1 a1 h1 X1 -> input k2 s2 a2 h2 X2 -> ~ incl (fitted_features a1) (fitted_features a2) ->
    exists s1' s2', fit k1 s1 a1 = (s1', Ok tt) /\ fit k2 s2 a2 = (s2', Ok tt) /\ comparison_plot xR df (compared k1 s1') (compared k2 s2') n box = Err IndexError.
  Proof.
    intros Hin1 Hin2 Hincl. destruct (fit_output k1 s1 a1 h1 X1 Hin1) as (s1' & t1 & fi1 & E1 & HwX1 & [Et1 _ HL1 Hv1 _ _ _ _]).
    destruct (fit_output k2 s2 a2 h2 X2 Hin2) as (s2' & t2 & fi2 & E2 & HwX2 & [Et2 _ HL2 Hv2 _ _ _ _]). exists s1', s2'. split; [exact E1|]. split; [exact E2|].
    pose (T1 := sort_values xR srt false (fun r => snd r) t1). pose (T2 := sort_values xR srt false (fun r => snd r) t2).
    destruct (sort_values_ok xR srt false (fun r : string * string * ext R => snd r) t1 Hs xR_ord) as [HP1 Hst1]. destruct (sort_values_ok xR srt false (fun r : string * string * ext R => snd r) t2 Hs xR_ord) as [HP2 _].
    fold T1 in HP1, Hst1. fold T2 in HP2.
    assert (C1 : mv_compare (compared k1 s1') = Ok T1) by (cbn [pd_compared mv_compare]; rewrite Et1; reflexivity).
    assert (C2 : mv_compare (compared k2 s2') = Ok T2) by (cbn [pd_compared mv_compare]; rewrite Et2; reflexivity).
    assert (N1 : T1 <> []).
    { destruct (lists_pairs_first _ _ (in_distinct _ _ _ _ _ Hin1) (in_two _ _ _ _ _ Hin1) HL1) as (x & y & v & Hr & _). intros En. rewrite En in HP1. apply Permutation_nil in HP1. rewrite HP1 in Hr. destruct Hr. }
    assert (N2 : T2 <> []).
    { destruct (lists_pairs_first _ _ (in_distinct _ _ _ _ _ Hin2) (in_two _ _ _ _ _ Hin2) HL2) as (x & y & v & Hr & _). intros En. rewrite En in HP2. apply Permutation_nil in HP2. rewrite HP2 in Hr. destruct Hr. }
    pose proof (C54_points xR df (compared k1 s1') (compared k2 s2') T1 T2 n C1 C2 N1 N2 box) as Hpts.
    destruct (comparison_plot xR df (compared k1 s1') (compared k2 s2') n box) as [p|e] eqn:Ep; [|destruct Hpts as [-> _]; reflexivity].
    exfalso. apply Hincl. destruct Hpts as (HF & _). intros f Hf.
    (* f occurs in a pair of the first table, that pair is in the second *)
    destruct (lists_pairs_first _ _ (in_distinct _ _ _ _ _ Hin1) (in_two _ _ _ _ _ Hin1) HL1) as (_ & _ & _ & _ & _ & x' & y' & l & Efs). apply (lists_pairs_occurs _ t1 x' y' l Efs HL1) in Hf as (r & Hr & Hf).
    apply (Permutation_in _ (Permutation_sym HP1)) in Hr.
    assert (Hr2 : exists r2, In r2 T2 /\ about (fst (fst r)) (snd (fst r)) r2).
    { clear -HF Hr. induction HF as [|r0 xy l1 l2 (_ & _ & r2 & Hr2 & Ha & _) HF IH]; [destruct Hr|]. destruct Hr as [->|Hr]; [eauto|exact (IH Hr)]. }
    destruct Hr2 as (r2 & Hr2 & Ha). apply (Permutation_in _ HP2) in Hr2. destruct (lists_pairs_In _ t2 r2 (in_distinct _ _ _ _ _ Hin2) HL2 Hr2) as (Hb1 & Hb2 & _).
    destruct Ha as [[Ea Eb]|[Ea Eb]]; destruct Hf as [<-|<-]; congruence.
  Qed.
End EndToEnd.

(** the model b * c + a * c on three rows meets the assumptions; its pair (a, c) has H = 1/28 *)
Lemma ex_input k : input Zcell rotR k init0 (rargs rh true) rh rX.
Proof.
  constructor; [exact rX_wf|exists 0; reflexivity|apply rargs_total|apply Z_complete|discriminate|apply rX_wf|intros f Hf; exact Hf|cbn; lia|].
  intros _ f [<-|[<-|[<-|[]]]].
  - exists 0, 1%Z, 0%Z. cbn. intuition congruence.
  - exists 1, 0%Z, 1%Z. cbn. intuition congruence.
  - exists 2, 2%Z, 1%Z. cbn. intuition congruence.
Qed.
Lemma ex_H : statistic Zcell rh rX (Friedman true) 0 2 = Fin (1 / 28)%R.
Proof.
  unfold statistic, Hstat. match goal with |- (if Req_EM_T ?x 0 then if Req_EM_T ?y 0 then _ else _ else _) = _ => assert (Ex : x = (56 / 9)%R); [|assert (Ey : y = (2 / 9)%R); [|rewrite Ex, Ey]] end.
  - unfold own2, PD2, Rmean, Rsum, rh, rpart. cbn. unfold Rsqr. field.
  - unfold own2, own1, PD1, PD2, Rmean, Rsum, rh, rpart. cbn. unfold Rsqr. field.
  - destruct (Req_EM_T (56 / 9) 0) as [E|_]; [exfalso; lra|]. f_equal. field.
Qed.
Example C111_example : exists s', PdMethods.fit Zcell xR rotR isort (Friedman true) init0 (rargs rh true) = (s', Ok tt)
  /\ interaction_value (mv_compare (pd_compared xR isort (Friedman true) s')) "c" "a" = Ok (Fin (1 / 28)%R).
Proof.
  destruct (C111_value Zcell Zcell_ok rotR rotR_ok isort isort_ok (Friedman true) init0 (rargs rh true) rh rX "c" "a" (ex_input _)) as (s' & E & Hv & _).
  exists s'. split; [exact E|]. destruct Hv as (v & -> & Hv); [cbn; tauto..|discriminate|]. f_equal. rewrite <- ex_H.
  apply (pair_value_unique Zcell rh rX (Friedman true) "c" "a"); [apply rX_wf|exact Hv|]. exists 0, 2. split; [lia|]. split; [reflexivity|]. right. split; reflexivity.
Qed.
Example C112_example k : input Zcell rotR k init0 (rargs rh true) rh rX /\ a_ova (rargs rh true) = true /\ usable (no_all_kwargs (V := ext R)).
Proof. split; [apply ex_input|]. split; [reflexivity|]. repeat split; cbn; discriminate. Qed.
Example C113_example : incl (fitted_features (rargs rh true)) (fitted_features (rargs rh true)) /\ input Zcell rotR Greenwell init0 (rargs rh true) rh rX /\ input Zcell rotR (Friedman false) init0 (rargs rh true) rh rX.
Proof. split; [intros f Hf; exact Hf|]. split; apply ex_input. Qed.

Print Assumptions C111_value.
Print Assumptions C112_heatmap.
Print Assumptions C112_bars.
Print Assumptions C112_bars_ova.
Print Assumptions C113_points.
Print Assumptions C113_missing.
