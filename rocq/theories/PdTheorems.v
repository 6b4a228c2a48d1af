(** The partial dependence calculator: theorems in terms of its API. *)
From Verif Require Import Py Num Frame PdCalc EngineFacts PdSpec PdFacts PdProofs.

Lemma Forall2_nth {A B} (R : A -> B -> Prop) l m : length l = length m ->
  (forall i a b, nth_error l i = Some a -> nth_error m i = Some b -> R a b) -> Forall2 R l m.
Proof.
  revert m; induction l as [|a l IH]; intros [|b m] Hl H; cbn in *; try discriminate; constructor.
  - apply (H 0); reflexivity.
  - apply IH; [lia|]. intros i; apply (H (S i)).
Qed.

Lemma Forall2_impl {A B} (R R' : A -> B -> Prop) l m : (forall a b, R a b -> R' a b) -> Forall2 R l m -> Forall2 R' l m.
Proof. intros H; induction 1; constructor; auto. Qed.

Lemma Forall2_map_eq {A B} (f : A -> B) l m : Forall2 (fun a b => b = f a) l m -> m = map f l.
Proof. induction 1; cbn; congruence. Qed.

Lemma nth_error_ext_len {A} (a b : list A) :
  length a = length b -> (forall i x y, nth_error a i = Some x -> nth_error b i = Some y -> x = y) -> a = b.
Proof.
  intros Hl H. apply nth_error_ext; intros i.
  destruct (nth_error a i) eqn:Ea, (nth_error b i) eqn:Eb; auto.
  - f_equal; eauto.
  - apply nth_error_None in Eb. assert (i < length a) by (apply nth_error_Some; congruence). lia.
  - apply nth_error_None in Ea. assert (i < length b) by (apply nth_error_Some; congruence). lia.
Qed.

Definition pair_dec (a b : string * string) : {a = b} + {a <> b}.
Proof. decide equality; apply string_dec. Defined.

Section PdTheorems.
  Context {C V : Type} (O : cell_ops C) (N : num_ops V).
  Hypothesis HO : cell_ok O.
  Hypothesis Hnan : n_isnan N (n_nan N) = true.
  Notation calc := (calc C V).
  Notation Shaped := (Shaped O N).
  Notation Coherent := (Coherent O N).

  (** ** Invariance under every operation *)
  Lemma step_env (c : calc) o c' r : step O N c o = (c', r) ->
    c_X c' = c_X c /\ c_model c' = c_model c /\ c_predict c' = c_predict c /\ c_batchsize c' = c_batchsize c.
  Proof.
    destruct o; cbn; unfold calculate_pd_single, calculate_pd_pairs, calculate_pd_minus_single;
      destruct (seq2 _ _) as [s r']; intros H; injection H as <- <-; cbn; auto.
  Qed.

  Lemma step_inv g (c : calc) o c' r : wf_frame (c_X c) -> rowwise (c_predict c) g -> Shaped c -> Coherent g c ->
    step O N c o = (c', r) -> Shaped c' /\ Coherent g c'.
  Proof.
    intros HX Hg Hs Hc H. pose proof Hs as (Hs1 & Hs2 & Hs3). pose proof Hc as (Hc1 & Hc2 & Hc3).
    destruct o as [fs|ps a|fs]; cbn in H; unfold calculate_pd_single, calculate_pd_pairs, calculate_pd_minus_single in H;
      destruct (seq2 _ _) as [s r'] eqn:E; injection H as <- <-.
    - eapply (single_run_good O N HO Hnan) in E as (A1 & A2 & _); eauto.
      split; [split; [exact A1|split; assumption]|split; [exact A2|split; assumption]].
    - eapply (pairs_run_good O N HO) in E as (A1 & A2 & _); eauto.
      split; [split; [|split]; assumption|split; [|split]; assumption].
    - eapply (minus_run_good O N) in E as (A1 & A2 & _); eauto.
      split; [split; [|split]; assumption|split; [|split]; assumption].
  Qed.

  Lemma run_inv g (c : calc) ops : wf_frame (c_X c) -> rowwise (c_predict c) g -> Shaped c -> Coherent g c ->
    let c' := run O N c ops in
    Shaped c' /\ Coherent g c' /\ c_X c' = c_X c /\ c_predict c' = c_predict c /\ c_model c' = c_model c
    /\ c_batchsize c' = c_batchsize c.
  Proof.
    unfold run; revert c; induction ops as [|o t IH]; cbn; intros c HX Hg Hs Hc; [auto 10|].
    destruct (step O N c o) as [c1 r] eqn:E. cbn.
    destruct (step_env _ _ _ _ E) as (E1 & E2 & E3 & E4).
    destruct (step_inv g _ _ _ _ HX Hg Hs Hc E) as [Hs1 Hc1].
    destruct (IH c1) as (B1 & B2 & B3 & B4 & B5 & B6); [rewrite E1; exact HX|rewrite E3; exact Hg|exact Hs1|exact Hc1|].
    repeat split; try congruence; apply B1 || apply B2.
  Qed.

  (** A calculator that has been through any sequence of calls. *)
  Definition reachable (m : nat) (X : frame C) P b (c : calc) : Prop :=
    exists ops, c = run O N (calc_init O N m X P b) ops.

  Lemma reachable_inv m X P b c g : wf_frame X -> rowwise P g -> reachable m X P b c ->
    Shaped c /\ Coherent g c /\ c_X c = X /\ c_predict c = P /\ c_model c = m /\ c_batchsize c = b.
  Proof.
    intros HX Hg [ops ->]. apply (run_inv g (calc_init O N m X P b) ops); cbn; auto.
    - apply init_shaped.
    - apply init_coherent, Hnan.
  Qed.

  Lemma run_env (c : calc) ops : let c' := run O N c ops in c_X c' = c_X c /\ c_predict c' = c_predict c.
  Proof.
    unfold run; revert c; induction ops as [|o t IH]; cbn; intros c; [auto|].
    destruct (step O N c o) as [c1 r] eqn:E. destruct (step_env _ _ _ _ E) as (E1 & _ & E3 & _).
    destruct (IH c1); cbn in *; split; congruence.
  Qed.

  Lemma reachable_step m X P b c o c' r : reachable m X P b c -> step O N c o = (c', r) -> reachable m X P b c'.
  Proof.
    intros [ops ->] H. exists (ops ++ [o]). unfold run in *; rewrite fold_left_app; cbn. rewrite H; reflexivity.
  Qed.

  (** ** Reading the tables *)
  Lemma single_elem (c : calc) f v x :
    (do e <- dict_get String.eqb f (c_single c); do i <- get_index O (fst e) v; get_nth i (snd e)) = Ok x
    <-> sget O (c_single c) (f, v) = Some x.
  Proof.
    unfold sget, dict_get; cbn. destruct (assoc _ _ _) as [e|]; cbn; [|split; discriminate].
    destruct (get_index _ _ _); cbn; [apply get_nth_inv|split; discriminate].
  Qed.

  Lemma get_index_NoDup a v i : NoDup a -> nth_error a i = Some v -> c_isnan O v = false -> get_index O a v = Ok i.
  Proof.
    intros Hnd Hi Hn. destruct (get_index_In O a v) as (k & Hk); [eapply nth_error_In; exact Hi|exact Hn|].
    rewrite Hk; f_equal. apply (get_index_spec O HO) in Hk as [Hk _].
    apply (NoDup_nth_error a); [exact Hnd|apply nth_error_Some; congruence|congruence].
  Qed.

  Lemma grid_NoDup X f : NoDup (grid O X f).
  Proof. unfold grid. destruct (column X f); [apply (np_unique_NoDup O HO)|constructor]. Qed.

  Lemma nanvals_nth fv (pv : list V) i v x : nth_error fv i = Some v -> c_isnan O v = true -> nth_error pv i = Some x ->
    nth_error (nanvals O fv pv) i = Some (Some x).
  Proof.
    unfold nanvals; revert pv i; induction fv as [|w fv IH]; intros [|y pv] [|i] Hv Hn Hx; cbn in *; try discriminate.
    - injection Hv as ->. injection Hx as ->. rewrite Hn; reflexivity.
    - apply IH; assumption.
  Qed.

  Lemma single_raw X t f e i v x : ssh O t = sshape O N X -> assoc String.eqb f t = Some e ->
    nth_error (grid O X f) i = Some v -> nth_error (snd e) i = Some x ->
    if c_isnan O v then x = n_nan N else sget O t (f, v) = Some x.
  Proof.
    intros Hs He Hv Hx. destruct (sshape_assoc O N X t f Hs) as [_ H2]. destruct (H2 _ He) as (_ & Hf & Hl & Hn).
    destruct (c_isnan O v) eqn:Ev.
    - pose proof (nanvals_nth _ _ _ _ _ Hv Ev Hx) as A. rewrite Hn in A.
      rewrite (nanvals_nth (grid O X f) (repeat (n_nan N) (length (grid O X f))) i v (n_nan N) Hv Ev) in A.
      + congruence.
      + apply nth_error_repeat. apply nth_error_Some; congruence.
    - unfold sget; cbn. rewrite He, Hf, (get_index_NoDup _ _ _ (grid_NoDup X f) Hv Ev). exact Hx.
  Qed.

  (** ** C01: single features *)
  Lemma pd_single_sound m X P b c g p f vs xs : wf_frame X -> rowwise P g -> reachable m X P b c ->
    nth_error (f_cols X) p = Some f -> get_pd_single O c f (Some vs) = Ok xs ->
    Forall2 (fun v x => n_isnan N x = true \/ x = PD1 (np_mean N) g (f_rows X) p v) vs xs.
  Proof.
    intros HX Hg Hr Hp H. destruct (reachable_inv _ _ _ _ _ g HX Hg Hr) as (_ & (Hc & _) & HXc & _).
    apply mapM_Ok_inv in H. eapply Forall2_impl; [|exact H]. intros v x Hx. apply single_elem in Hx.
    destruct (Hc _ _ Hx) as [Hn| ->]; [auto|right]. rewrite HXc. unfold sspec. apply job_single_spec; assumption.
  Qed.

  Lemma pd_single_all_sound m X P b c g p f xs : wf_frame X -> rowwise P g -> reachable m X P b c ->
    nth_error (f_cols X) p = Some f -> get_pd_single O c f None = Ok xs ->
    Forall2 (fun v x => n_isnan N x = true \/ x = PD1 (np_mean N) g (f_rows X) p v) (np_unique O (col_at p (f_rows X))) xs.
  Proof.
    intros HX Hg Hr Hp H. destruct (reachable_inv _ _ _ _ _ g HX Hg Hr) as ((Hs & _) & (Hc & _) & HXc & _).
    cbn in H. bsplit H. apply dict_get_assoc in E. injection H as <-.
    rewrite HXc in Hs. destruct (sshape_assoc O N X _ f Hs) as [_ H2]. destruct (H2 _ E) as (_ & _ & Hl & _).
    rewrite <- (grid_of O X HX p f Hp). apply Forall2_nth; [congruence|]. intros i v y Hv Hy.
    pose proof (single_raw _ _ _ _ _ _ _ Hs E Hv Hy) as A. destruct (c_isnan O v).
    - left; subst; exact Hnan.
    - destruct (Hc _ _ A) as [Hn| ->]; [auto|right]. rewrite HXc. unfold sspec. apply job_single_spec; assumption.
  Qed.

  Definition feats (X : frame C) (fs : option (list string)) : list string :=
    match fs with None => f_cols X | Some l => l end.

  Lemma calc_single_done m X P b c g fs c' : wf_frame X -> rowwise P g -> reachable m X P b c ->
    calculate_pd_single O N c fs = (c', Ok tt) ->
    forall f v, In f (feats X fs) -> In v (grid O X f) -> sget O (c_single c') (f, v) = Some (sspec N X g (f, v)).
  Proof.
    intros HX Hg Hr H f v Hf Hv. destruct (reachable_inv _ _ _ _ _ g HX Hg Hr) as (Hs & Hc & HXc & HPc & _).
    unfold calculate_pd_single in H. destruct (seq2 _ _) as [s r'] eqn:E. injection H as <- ->. cbn.
    eapply (single_run_good O N HO Hnan) in E as (_ & _ & _ & A); eauto; [|rewrite HPc; exact Hg].
    rewrite HXc in A. apply (A eq_refl). split; cbn [fst snd]; [unfold feats in Hf; exact Hf|rewrite HXc; exact Hv].
  Qed.

  Lemma grid_no_nan_done (t : list (string * (list C * list V))) f v x : sget O t (f, v) = Some x -> c_isnan O v = false.
  Proof.
    unfold sget; cbn. destruct (assoc _ _ _) as [e|]; [|discriminate]. destruct (get_index O (fst e) v) eqn:E; [|discriminate].
    intros _. apply (get_index_spec O HO) in E; tauto.
  Qed.

  Lemma pd_single_exact m X P b c g fs c' p f : wf_frame X -> rowwise P g -> reachable m X P b c ->
    calculate_pd_single O N c fs = (c', Ok tt) -> In f (feats X fs) -> nth_error (f_cols X) p = Some f ->
    (forall vs, (forall v, In v vs -> In v (col_at p (f_rows X))) ->
      get_pd_single O c' f (Some vs) = Ok (map (PD1 (np_mean N) g (f_rows X) p) vs))
    /\ get_pd_single O c' f None = Ok (map (PD1 (np_mean N) g (f_rows X) p) (np_unique O (col_at p (f_rows X)))).
  Proof.
    intros HX Hg Hr H Hf Hp.
    pose proof (calc_single_done _ _ _ _ _ _ _ _ HX Hg Hr H f) as Hd. pose proof (grid_of O X HX p f Hp) as Hgr.
    assert (Hnn : forall v, In v (col_at p (f_rows X)) -> c_isnan O v = false).
    { intros v Hv. destruct (c_isnan O v) eqn:Ev; [|reflexivity]. exfalso.
      destruct (np_unique_nan O (col_at p (f_rows X))) as (w & Hw & Hwn); [eauto|].
      rewrite <- Hgr in Hw. apply (Hd w Hf), grid_no_nan_done in Hw. congruence. }
    assert (Hcell : forall v, In v (col_at p (f_rows X)) -> sget O (c_single c') (f, v) = Some (PD1 (np_mean N) g (f_rows X) p v)).
    { intros v Hv. rewrite (Hd v Hf); [|rewrite Hgr; apply np_unique_In; auto].
      f_equal. apply job_single_spec; assumption. }
    split.
    - intros vs Hvs. cbn. apply mapM_total. intros v Hv. apply single_elem, Hcell, Hvs, Hv.
    - assert (Hr' : reachable m X P b c') by (eapply (reachable_step m X P b c (OpSingle fs)); [exact Hr|exact H]).
      destruct (reachable_inv _ _ _ _ _ g HX Hg Hr') as ((Hs & _) & _ & HXc & _). rewrite HXc in Hs.
      destruct (sshape_assoc O N X _ f Hs) as [H1 H2]. destruct (H1 (nth_error_In _ _ Hp)) as (pv & Ha).
      destruct (H2 _ Ha) as (_ & _ & Hl & _). cbn in *. unfold dict_get; rewrite Ha. cbn. f_equal.
      rewrite <- Hgr. apply Forall2_map_eq, Forall2_nth; [congruence|]. intros i v y Hv Hy.
      pose proof (single_raw _ _ _ _ _ _ _ Hs Ha Hv Hy) as A.
      assert (Hvc : In v (col_at p (f_rows X))).
      { apply (np_unique_sub O HO). rewrite <- Hgr. eapply nth_error_In; exact Hv. }
      rewrite (Hnn v Hvc), (Hcell v Hvc) in A. congruence.
  Qed.

  (** ** C03: complement *)
  Lemma calc_minus_done m X P b c g fs c' : wf_frame X -> rowwise P g -> reachable m X P b c ->
    calculate_pd_minus_single N c fs = (c', Ok tt) ->
    forall f i, In f (feats X fs) -> i < length (f_rows X) -> mget (c_minus c') (f, i) = Some (mspec N X g (f, i)).
  Proof.
    intros HX Hg Hr H f i Hf Hi. destruct (reachable_inv _ _ _ _ _ g HX Hg Hr) as (Hs & Hc & HXc & HPc & _).
    unfold calculate_pd_minus_single in H. destruct (seq2 _ _) as [s r'] eqn:E. injection H as <- ->. cbn.
    eapply (minus_run_good O N) in E as (_ & _ & _ & A); eauto; [|rewrite HPc; exact Hg].
    rewrite HXc in A. apply (A eq_refl). split; cbn [fst snd]; [unfold feats in Hf; exact Hf|rewrite HXc; exact Hi].
  Qed.

  Lemma pd_minus_sound m X P b c g p f xs : wf_frame X -> rowwise P g -> reachable m X P b c ->
    nth_error (f_cols X) p = Some f -> get_pd_minus_single c f = Ok xs ->
    Forall2 (fun row x => n_isnan N x = true \/ x = PDminus (np_mean N) g (f_rows X) p row) (f_rows X) xs.
  Proof.
    intros HX Hg Hr Hp H. destruct (reachable_inv _ _ _ _ _ g HX Hg Hr) as ((_ & _ & Hs) & (_ & _ & Hc) & HXc & _).
    rewrite HXc in *. unfold get_pd_minus_single in H. apply dict_get_assoc in H.
    destruct (mshape_assoc X _ f Hs) as [_ H2]. destruct (H2 _ H) as (_ & Hl).
    apply Forall2_nth; [congruence|]. intros i row y Hv Hy.
    assert (A : mget (c_minus c) (f, i) = Some y) by (unfold mget; cbn; rewrite H; exact Hy).
    destruct (Hc _ _ A) as [Hn| ->]; [auto|right]. apply job_minus_spec; assumption.
  Qed.

  Lemma pd_minus_exact m X P b c g fs c' p f : wf_frame X -> rowwise P g -> reachable m X P b c ->
    calculate_pd_minus_single N c fs = (c', Ok tt) -> In f (feats X fs) -> nth_error (f_cols X) p = Some f ->
    get_pd_minus_single c' f = Ok (map (PDminus (np_mean N) g (f_rows X) p) (f_rows X)).
  Proof.
    intros HX Hg Hr H Hf Hp. pose proof (calc_minus_done _ _ _ _ _ _ _ _ HX Hg Hr H f) as Hd.
    assert (Hr' : reachable m X P b c') by (eapply (reachable_step m X P b c (OpMinus fs)); [exact Hr|exact H]).
    destruct (reachable_inv _ _ _ _ _ g HX Hg Hr') as ((_ & _ & Hs) & _ & HXc & _). rewrite HXc in Hs.
    destruct (mshape_assoc X _ f Hs) as [H1 H2]. destruct (H1 (nth_error_In _ _ Hp)) as (a & Ha).
    destruct (H2 _ Ha) as (_ & Hl). unfold get_pd_minus_single, dict_get; rewrite Ha. f_equal.
    apply Forall2_map_eq, Forall2_nth; [congruence|]. intros i row y Hv Hy.
    assert (A : mget (c_minus c') (f, i) = Some y) by (unfold mget; cbn; rewrite Ha; exact Hy).
    rewrite Hd in A; [|exact Hf|apply nth_error_Some; congruence].
    injection A as <-. apply job_minus_spec; assumption.
  Qed.

  (** ** C02: pairs *)
  Lemma in_combinations_key c X f1 f2 : wf_frame X -> psh O (c_pairs c) = pshape O N X ->
    (In (f1, f2) (combinations2 (f_cols X)) -> get_pair_key c (f1, f2) = (f1, f2))
    /\ (~ In (f1, f2) (combinations2 (f_cols X)) -> get_pair_key c (f1, f2) = (f2, f1)).
  Proof.
    intros HX Hs. unfold get_pair_key. destruct (pshape_assoc O N X _ (f1, f2) Hs) as [H1 H2].
    split; intros H.
    - destruct (H1 H) as (mm & ->); reflexivity.
    - destruct (assoc _ _ _) as [e|] eqn:E; [destruct (H2 _ eq_refl); contradiction|reflexivity].
  Qed.

  Lemma pair_key_swap c X f1 f2 : wf_frame X -> psh O (c_pairs c) = pshape O N X ->
    In f1 (f_cols X) -> In f2 (f_cols X) -> f1 <> f2 -> get_pair_key c (f1, f2) = get_pair_key c (f2, f1)
    /\ In (get_pair_key c (f1, f2)) (combinations2 (f_cols X)).
  Proof.
    intros HX Hs H1 H2 Hne. pose proof HX as (Hnd & _).
    destruct (in_combinations_key c X f1 f2 HX Hs) as [A1 A2]. destruct (in_combinations_key c X f2 f1 HX Hs) as [B1 B2].
    destruct (combinations2_complete (f_cols X) f1 f2 H1 H2 Hne) as [Hi|Hi].
    - rewrite (A1 Hi), B2; [auto|]. apply combinations2_asym; assumption.
    - rewrite (B1 Hi), A2; [auto|]. apply combinations2_asym; assumption.
  Qed.

  Lemma get_pd_pairs_swap c X f1 f2 vals : wf_frame X -> psh O (c_pairs c) = pshape O N X ->
    In f1 (f_cols X) -> In f2 (f_cols X) ->
    get_pd_pairs O c f1 f2 vals = get_pd_pairs O c f2 f1 (map (fun p => (snd p, fst p)) vals).
  Proof.
    intros HX Hs H1 H2. destruct (string_dec f1 f2) as [<-|Hne].
    - (* the same feature twice is never a key: both sides raise *)
      pose proof HX as (Hnd & _). unfold get_pd_pairs.
      destruct (in_combinations_key c X f1 f1 HX Hs) as [_ A]. rewrite A.
      + unfold dict_get. destruct (assoc _ _ _) as [e|] eqn:E; [|reflexivity].
        destruct (pshape_assoc O N X _ (f1, f1) Hs) as [_ B]. apply B in E as [E _].
        apply combinations2_irrefl in E; [congruence|exact Hnd].
      + intros Hin; apply combinations2_irrefl in Hin; [congruence|exact Hnd].
    - destruct (pair_key_swap c X f1 f2 HX Hs H1 H2 Hne) as [Hk Hin]. unfold get_pd_pairs. rewrite <- Hk.
      destruct (dict_get _ _ _) as [e|]; [|reflexivity]. cbn [bind].
      assert (Hs1 : map (fun p : C * C => (snd p, fst p)) (map (fun p => (snd p, fst p)) vals) = vals).
      { rewrite map_map; cbn. rewrite <- (map_id vals) at 2. apply map_ext; intros []; reflexivity. }
      destruct (in_combinations_key c X f1 f2 HX Hs) as [A1 A2].
      destruct (in_dec pair_dec (f1, f2) (combinations2 (f_cols X))) as [Hc|Hc].
      + rewrite (A1 Hc), pair_eqb_refl. replace (pair_eqb (f1, f2) (f2, f1)) with false.
        * unfold reorder_pair_values. rewrite Hs1. reflexivity.
        * symmetry. apply not_true_iff_false. rewrite pair_eqb_eq. congruence.
      + rewrite (A2 Hc), pair_eqb_refl. replace (pair_eqb (f2, f1) (f1, f2)) with false.
        * reflexivity.
        * symmetry. apply not_true_iff_false. rewrite pair_eqb_eq. congruence.
  Qed.

  Lemma pairs_elem c X f1 f2 vals : wf_frame X -> psh O (c_pairs c) = pshape O N X ->
    In (f1, f2) (combinations2 (f_cols X)) ->
    forall xs, get_pd_pairs O c f1 f2 vals = Ok xs <->
      Forall2 (fun p x => pget O (c_pairs c) ((f1, f2), fst p, snd p) = Some x) vals xs.
  Proof.
    intros HX Hs Hin xs. unfold get_pd_pairs. destruct (in_combinations_key c X f1 f2 HX Hs) as [A _]. rewrite (A Hin), pair_eqb_refl.
    destruct (pshape_assoc O N X _ (f1, f2) Hs) as [H1 _]. destruct (H1 Hin) as (mm & Ha).
    unfold dict_get; rewrite Ha; cbn [bind fst snd].
    assert (Hel : forall p x, (do i <- get_index O (grid O X f1) (fst p); do j <- get_index O (grid O X f2) (snd p); mat_get i j mm) = Ok x
      <-> pget O (c_pairs c) ((f1, f2), fst p, snd p) = Some x).
    { intros p x. unfold pget; cbn [fst snd]. rewrite Ha; cbn [fst snd].
      destruct (get_index _ (grid O X f1) _); cbn [bind]; [|split; discriminate].
      destruct (get_index _ (grid O X f2) _); cbn [bind]; [|split; discriminate].
      unfold mat_get, get_nth. destruct (nth_error mm a) as [r|]; cbn [bind]; [|split; discriminate].
      destruct (nth_error r a0); split; intros; congruence. }
    split; intros H.
    - apply mapM_Ok_inv in H. eapply Forall2_impl; [|exact H]. intros p x; apply Hel.
    - apply mapM_Ok_intro. eapply Forall2_impl; [|exact H]. intros p x; apply Hel.
  Qed.

  (** positions of a key *)
  Lemma combos_pos (X : frame C) f1 f2 p q : wf_frame X -> nth_error (f_cols X) p = Some f1 -> nth_error (f_cols X) q = Some f2 -> p <> q ->
    In f1 (f_cols X) /\ In f2 (f_cols X) /\ f1 <> f2.
  Proof.
    intros (Hnd & _) Hp Hq Hne. split; [eapply nth_error_In; exact Hp|]. split; [eapply nth_error_In; exact Hq|].
    intros ->. apply Hne. apply (NoDup_nth_error (f_cols X)); [exact Hnd|apply nth_error_Some; congruence|congruence].
  Qed.

  Lemma PD2_swap (X : frame C) g p q v w : wf_frame X -> p <> q -> p < length (f_cols X) -> q < length (f_cols X) ->
    PD2 (np_mean N) g (f_rows X) q p w v = PD2 (np_mean N) g (f_rows X) p q v w.
  Proof.
    intros HX Hne Hp Hq. unfold PD2. f_equal. apply map_ext_in; intros r Hr. f_equal.
    pose proof (row_length X HX r Hr). apply with_value_swap; lia || congruence.
  Qed.

  Lemma pd_pairs_sound m X P b c g p q f1 f2 vals xs : wf_frame X -> rowwise P g -> reachable m X P b c ->
    nth_error (f_cols X) p = Some f1 -> nth_error (f_cols X) q = Some f2 -> p <> q ->
    get_pd_pairs O c f1 f2 vals = Ok xs ->
    Forall2 (fun v x => n_isnan N x = true \/ x = PD2 (np_mean N) g (f_rows X) p q (fst v) (snd v)) vals xs.
  Proof.
    intros HX Hg Hr Hp Hq Hne H. destruct (reachable_inv _ _ _ _ _ g HX Hg Hr) as ((_ & Hs & _) & (_ & Hc & _) & HXc & _).
    rewrite HXc in *. destruct (combos_pos _ _ _ _ _ HX Hp Hq Hne) as (Hi1 & Hi2 & Hd).
    destruct (combinations2_complete (f_cols X) f1 f2 Hi1 Hi2 Hd) as [Hi|Hi].
    - apply (pairs_elem c X f1 f2 vals HX Hs Hi) in H. eapply Forall2_impl; [|exact H]. cbn; intros v x Hx.
      destruct (Hc _ _ Hx) as [Hn| ->]; [auto|right]. apply job_pairs_spec; assumption.
    - rewrite (get_pd_pairs_swap c X) in H by assumption.
      apply (pairs_elem c X f2 f1 _ HX Hs Hi) in H.
      clear -H Hc Hp Hq Hne HX. revert xs H; induction vals as [|v t IH]; cbn; intros xs H; inversion H as [|? x ? ys Hx Ht]; subst; constructor.
      + cbn in Hx. destruct (Hc _ _ Hx) as [Hn| ->]; [auto|right]. unfold pspec.
        rewrite (job_pairs_spec N X HX g f2 f1 q p) by assumption. apply PD2_swap; auto; apply nth_error_Some; congruence.
      + apply IH, Ht.
  Qed.

  Definition pairsof (c : calc) (ps : option (list (string * string))) : list (string * string) :=
    match ps with None => map fst (c_pairs c) | Some l => l end.

  (** the pair is among those requested, in either order *)
  Definition requested (X : frame C) (ps : option (list (string * string))) (f1 f2 : string) : Prop :=
    match ps with None => In (f1, f2) (combinations2 (f_cols X)) \/ In (f2, f1) (combinations2 (f_cols X))
                | Some l => In (f1, f2) l \/ In (f2, f1) l end.

  Lemma calc_pairs_done m X P b c g ps a c' f1 f2 p q : wf_frame X -> rowwise P g -> reachable m X P b c ->
    calculate_pd_pairs O N c ps a = (c', Ok tt) -> requested X ps f1 f2 ->
    nth_error (f_cols X) p = Some f1 -> nth_error (f_cols X) q = Some f2 -> In (f1, f2) (combinations2 (f_cols X)) ->
    forall v w, (if a then In v (grid O X f1) /\ In w (grid O X f2)
                 else exists r, In r (f_rows X) /\ nth_error r p = Some v /\ nth_error r q = Some w) ->
    pget O (c_pairs c') ((f1, f2), v, w) = Some (PD2 (np_mean N) g (f_rows X) p q v w).
  Proof.
    intros HX Hg Hr H Hreq Hp Hq Hcomb v w Hvw. destruct (reachable_inv _ _ _ _ _ g HX Hg Hr) as (Hs & Hc & HXc & HPc & _).
    pose proof Hs as (_ & Hs2 & _). rewrite HXc in Hs2. pose proof HX as (Hnd & _).
    unfold calculate_pd_pairs in H. destruct (seq2 _ _) as [s r'] eqn:E. injection H as <- ->. cbn.
    eapply (pairs_run_good O N HO) in E as (_ & _ & _ & A); eauto; [|rewrite HPc; exact Hg].
    rewrite HXc in A. rewrite (A eq_refl); cbn [fst snd].
    - f_equal. apply job_pairs_spec; assumption.
    - destruct (in_combinations_key c X f1 f2 HX Hs2) as [K1 _]. destruct (in_combinations_key c X f2 f1 HX Hs2) as [_ K2].
      assert (Hn21 : ~ In (f2, f1) (combinations2 (f_cols X))) by (apply combinations2_asym; assumption).
      unfold requested in Hreq. destruct ps as [l|].
      + destruct Hreq as [Hi|Hi]; [exists (f1, f2)|exists (f2, f1)]; split; auto; symmetry; [apply K1, Hcomb|apply K2, Hn21].
      + exists (f1, f2). split; [|symmetry; apply K1, Hcomb].
        pose proof (dshape_keys _ _ _ (fun p => ((grid O X (fst p), grid O X (snd p)), repeat (length (grid O X (snd p))) (length (grid O X (fst p))),
           nanvals2 O (grid O X (fst p)) (grid O X (snd p)) (pinit O N X p))) Hs2) as Hk.
        rewrite Hk; exact Hcomb.
    - unfold pair_vals. rewrite HXc. destruct a; [exact Hvw|]. destruct Hvw as (r & Hr0 & Hv & Hw).
      unfold column; cbn [fst snd]. rewrite (col_pos_of X HX p f1 Hp), (col_pos_of X HX q f2 Hq).
      eexists; eexists; split; [reflexivity|]. split; [reflexivity|].
      apply In_nth_error in Hr0 as (i & Hi). apply combine_In_nth. exists i. destruct HX as (_ & Hrows & _).
      rewrite (col_at_nth p (length (f_cols X))), (col_at_nth q (length (f_cols X))), Hi;
        auto; apply nth_error_Some; congruence.
  Qed.

  Lemma pget_nonnan (t : list ((string * string) * (list C * list C * list (list V)))) p v w x : pget O t (p, v, w) = Some x -> c_isnan O v = false /\ c_isnan O w = false.
  Proof.
    unfold pget; cbn. destruct (assoc _ _ _) as [e|]; [|discriminate].
    destruct (get_index O (fst (fst e)) v) eqn:E1; [|discriminate]. destruct (get_index O (snd (fst e)) w) eqn:E2; [|discriminate].
    intros _. apply (get_index_spec O HO) in E1, E2; tauto.
  Qed.

  Lemma Forall2_map_r {A B} (R : A -> B -> Prop) (f : A -> B) l : (forall a, In a l -> R a (f a)) -> Forall2 R l (map f l).
  Proof. induction l; cbn; intros H; constructor; auto. Qed.

  Lemma pd_pairs_exact m X P b c g ps a c' p q f1 f2 : wf_frame X -> rowwise P g -> reachable m X P b c ->
    calculate_pd_pairs O N c ps a = (c', Ok tt) -> requested X ps f1 f2 ->
    nth_error (f_cols X) p = Some f1 -> nth_error (f_cols X) q = Some f2 -> p <> q ->
    forall vals,
    (forall v w, In (v, w) vals ->
       if a then In v (col_at p (f_rows X)) /\ In w (col_at q (f_rows X))
       else exists r, In r (f_rows X) /\ nth_error r p = Some v /\ nth_error r q = Some w) ->
    get_pd_pairs O c' f1 f2 vals = Ok (map (fun v => PD2 (np_mean N) g (f_rows X) p q (fst v) (snd v)) vals).
  Proof.
    intros HX Hg Hr H Hreq Hp Hq Hne vals Hvals.
    assert (Hr' : reachable m X P b c') by (eapply (reachable_step m X P b c (OpPairs ps a)); [exact Hr|exact H]).
    destruct (reachable_inv _ _ _ _ _ g HX Hg Hr') as ((_ & Hs & _) & _ & HXc & _). rewrite HXc in Hs.
    destruct (combos_pos _ _ _ _ _ HX Hp Hq Hne) as (Hi1 & Hi2 & Hd).
    (* values in columns are grid values once the calculation succeeded *)
    assert (Hgen : forall f1 f2 p q, nth_error (f_cols X) p = Some f1 -> nth_error (f_cols X) q = Some f2 -> requested X ps f1 f2 ->
       In (f1, f2) (combinations2 (f_cols X)) ->
       forall v w, (if a then In v (col_at p (f_rows X)) /\ In w (col_at q (f_rows X))
                    else exists r, In r (f_rows X) /\ nth_error r p = Some v /\ nth_error r q = Some w) ->
       pget O (c_pairs c') ((f1, f2), v, w) = Some (PD2 (np_mean N) g (f_rows X) p q v w)).
    { clear p q f1 f2 Hp Hq Hreq Hvals Hi1 Hi2 Hd Hne. intros f1 f2 p q Hp Hq Hreq Hin v w Hvw.
      pose proof (calc_pairs_done m X P b c g ps a c' f1 f2 p q HX Hg Hr H Hreq Hp Hq Hin) as Hd.
      apply Hd. destruct a; [|exact Hvw]. destruct Hvw as [Hv Hw].
      rewrite (grid_of O X HX p f1 Hp), (grid_of O X HX q f2 Hq) in *.
      assert (Hg1 : exists v0, In v0 (np_unique O (col_at p (f_rows X)))).
      { destruct (np_unique O (col_at p (f_rows X))) eqn:E; [|eexists; left; reflexivity].
        pose proof (proj1 (np_unique_nil O HO _) E) as E0. rewrite E0 in Hv; destruct Hv. }
      assert (Hg2 : exists v0, In v0 (np_unique O (col_at q (f_rows X)))).
      { destruct (np_unique O (col_at q (f_rows X))) eqn:E; [|eexists; left; reflexivity].
        pose proof (proj1 (np_unique_nil O HO _) E) as E0. rewrite E0 in Hw; destruct Hw. }
      destruct Hg1 as (v0 & Hv0), Hg2 as (w0 & Hw0).
      split.
      - apply np_unique_In; auto. destruct (c_isnan O v) eqn:Ev; [|reflexivity]. exfalso.
        destruct (np_unique_nan O (col_at p (f_rows X))) as (z & Hz & Hzn); [eauto|].
        specialize (Hd z w0 (conj Hz Hw0)). apply pget_nonnan in Hd. destruct Hd; congruence.
      - apply np_unique_In; auto. destruct (c_isnan O w) eqn:Ev; [|reflexivity]. exfalso.
        destruct (np_unique_nan O (col_at q (f_rows X))) as (z & Hz & Hzn); [eauto|].
        specialize (Hd v0 z (conj Hv0 Hz)). apply pget_nonnan in Hd. destruct Hd; congruence. }
    destruct (combinations2_complete (f_cols X) f1 f2 Hi1 Hi2 Hd) as [Hi|Hi].
    - apply (pairs_elem c' X f1 f2 vals HX Hs Hi). apply Forall2_map_r. intros [v w] Hvw; cbn.
      exact (Hgen f1 f2 p q Hp Hq Hreq Hi v w (Hvals v w Hvw)).
    - rewrite (get_pd_pairs_swap c' X) by assumption. apply (pairs_elem c' X f2 f1 _ HX Hs Hi).
      assert (Hreq' : requested X ps f2 f1) by (unfold requested in *; destruct ps; tauto).
      clear Hi1 Hi2. induction vals as [|[v w] t IH]; cbn; constructor.
      + cbn. rewrite (Hgen f2 f1 q p Hq Hp Hreq' Hi).
        * f_equal. apply PD2_swap; auto; apply nth_error_Some; congruence.
        * specialize (Hvals v w (or_introl eq_refl)). destruct a; [tauto|]. destruct Hvals as (r & ? & ? & ?); eauto.
      + apply IH. intros; apply Hvals; right; assumption.
  Qed.
End PdTheorems.
