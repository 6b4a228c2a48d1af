(** Property C132: what the partial dependence calculator reports for a model about which nothing
    is known - it may give different answers for the same row, depend on the other rows of the
    request, or fail now and then.  C01-C03 assume a model that predicts row by row; here only the
    requests that were made and the answers that were given count. *)
From Verif Require Import Py Num NumR Frame PdCalc EngineFacts PdSpec PdFacts PdProofs PdTheorems PdAny Props_Pd.
From Coq Require Import QArith Reals Lra.
Open Scope string_scope.
Open Scope nat_scope.
Open Scope list_scope.

(** ** Specification *)

(** [x] is the mean of the answers that one of the requests made so far got for the consecutive
    rows [rows] *)
Definition answered {C V} (mean : list V -> V) (P : nat -> list (list C) -> result (list V)) (requests : list (list (list C)))
  (rows : list (list C)) (x : V) : Prop :=
  exists n request answers before after,
    nth_error requests n = Some request /\ P n request = Ok answers
    /\ request = before ++ rows ++ after
    /\ x = mean (firstn (length rows) (skipn (length before) answers)).

(** the data with one column, or two columns, set to a value; the data with every column but one
    set to the values of one row *)
Definition column_set {C} (rows : list (list C)) (p : nat) (v : C) := map (with_value p v) rows.
Definition columns_set {C} (rows : list (list C)) (p q : nat) (v w : C) := map (fun r => with_value q w (with_value p v r)) rows.
Definition others_set {C} (rows : list (list C)) (p : nat) (row : list C) :=
  map (fun r => match nth_error r p with Some v => with_value p v row | None => row end) rows.

(** ** Auxiliary facts *)
Lemma skipn_twice {A} a b (l : list A) : skipn a (skipn b l) = skipn (b + a) l.
Proof. revert l; induction b as [|b IH]; intros [|x l]; cbn; rewrite ?skipn_nil; auto. Qed.

Section Aux.
  Context {C V : Type} (O : cell_ops C) (N : num_ops V).
  Hypothesis HO : cell_ok O.
  Hypothesis Hnan : n_isnan N (n_nan N) = true.
  Variable X : frame C.
  Hypothesis HX : wf_frame X.

  Lemma job_single_rows p f v : nth_error (f_cols X) p = Some f -> job_single X (f, v) = column_set (f_rows X) p v.
  Proof.
    intros Hp. unfold job_single, assign_rows, column_set. apply map_ext_in. intros r Hr.
    unfold assign_row; cbn. rewrite (col_pos_of X HX p f Hp). apply set_nth_with_value.
    rewrite (row_length X HX) by exact Hr. apply nth_error_Some. congruence.
  Qed.
  Lemma job_pairs_rows p q f1 f2 v w : nth_error (f_cols X) p = Some f1 -> nth_error (f_cols X) q = Some f2 ->
    job_pairs X ((f1, f2), v, w) = columns_set (f_rows X) p q v w.
  Proof.
    intros Hp Hq. unfold job_pairs, assign_rows, columns_set. apply map_ext_in. intros r Hr.
    unfold assign_row; cbn. rewrite (col_pos_of X HX p f1 Hp), (col_pos_of X HX q f2 Hq).
    pose proof (row_length X HX r Hr) as Hl. assert (p < length (f_cols X)) by (apply nth_error_Some; congruence).
    assert (q < length (f_cols X)) by (apply nth_error_Some; congruence).
    rewrite (set_nth_with_value p), set_nth_with_value; [reflexivity| |lia]. rewrite with_value_length; lia.
  Qed.
  Lemma job_minus_rows p f i row : nth_error (f_cols X) p = Some f -> nth_error (f_rows X) i = Some row ->
    job_minus X (f, i) = others_set (f_rows X) p row.
  Proof.
    intros Hp Hi. unfold job_minus; cbn [fst snd]. rewrite Hi. unfold assign_rows, others_set. apply map_ext_in. intros r Hr.
    destruct (nth_error r p) as [v|] eqn:Ev.
    - apply (assign_minus_row X HX); auto. eapply nth_error_In; exact Hi.
    - apply nth_error_None in Ev. rewrite (row_length X HX) in Ev by exact Hr. assert (p < length (f_cols X)) by (apply nth_error_Some; congruence). lia.
  Qed.
  Lemma columns_set_swap p q v w : p <> q -> p < length (f_cols X) -> q < length (f_cols X) ->
    columns_set (f_rows X) q p w v = columns_set (f_rows X) p q v w.
  Proof.
    intros Hne Hp Hq. unfold columns_set. apply map_ext_in. intros r Hr. pose proof (row_length X HX r Hr).
    apply with_value_swap; lia || congruence.
  Qed.

  Lemma sourced_answered {K} P (job : K -> list (list C)) log k x : length (job k) = length (f_rows X) ->
    Sourced P (np_mean N) job (length (f_rows X)) log k x -> answered (np_mean N) P log (job k) x.
  Proof.
    intros Hl (n & rows & ys & s & Hn & Hp & Hb & Hs & Hx). unfold slice in *.
    replace (s + length (f_rows X) - s) with (length (f_rows X)) in * by lia.
    exists n, rows, ys, (firstn s rows), (skipn (s + length (f_rows X)) rows).
    split; [exact Hn|]. split; [exact Hp|]. split.
    - rewrite <- Hs. rewrite <- (firstn_skipn s rows) at 1. f_equal.
      rewrite <- (firstn_skipn (length (f_rows X)) (skipn s rows)) at 1. f_equal. rewrite skipn_twice. reflexivity.
    - rewrite Hl, firstn_length_le by lia. exact Hx.
  Qed.

  (** after a successful calculation every requested cell has its answers *)
  Lemma single_done_any m P b c fs c' f v : reachable O N m X P b c -> calculate_pd_single O N c fs = (c', Ok tt) ->
    In f (feats X fs) -> In v (grid O X f) ->
    exists x, sget O (c_single c') (f, v) = Some x /\ Sourced P (np_mean N) (job_single X) (length (f_rows X)) (c_log c') (f, v) x.
  Proof.
    intros Hr H Hf Hv. destruct (reachable_any O N HO Hnan m X P b c Hr) as (Hs & Hc & HXc & HPc).
    unfold calculate_pd_single in H. destruct (seq2 _ _) as [s r'] eqn:E. injection H as <- ->. cbn.
    eapply (single_run_any O N HO Hnan) in E as (_ & _ & _ & A); eauto. rewrite HXc, HPc in A.
    apply (A eq_refl (f, v)). split; cbn [fst snd]; [exact Hf|rewrite HXc; exact Hv].
  Qed.
  Lemma minus_done_any m P b c fs c' f i : reachable O N m X P b c -> calculate_pd_minus_single N c fs = (c', Ok tt) ->
    In f (feats X fs) -> i < length (f_rows X) ->
    exists x, mget (c_minus c') (f, i) = Some x /\ Sourced P (np_mean N) (job_minus X) (length (f_rows X)) (c_log c') (f, i) x.
  Proof.
    intros Hr H Hf Hi. destruct (reachable_any O N HO Hnan m X P b c Hr) as (Hs & Hc & HXc & HPc).
    unfold calculate_pd_minus_single in H. destruct (seq2 _ _) as [s r'] eqn:E. injection H as <- ->. cbn.
    eapply (minus_run_any O N) in E as (_ & _ & _ & A); eauto. rewrite HXc, HPc in A.
    apply (A eq_refl (f, i)). split; cbn [fst snd]; [exact Hf|rewrite HXc; exact Hi].
  Qed.
  Lemma pairs_done_any m P b c ps a c' f1 f2 p q : reachable O N m X P b c -> calculate_pd_pairs O N c ps a = (c', Ok tt) ->
    requested X ps f1 f2 -> nth_error (f_cols X) p = Some f1 -> nth_error (f_cols X) q = Some f2 -> In (f1, f2) (combinations2 (f_cols X)) ->
    forall v w, (if a then In v (grid O X f1) /\ In w (grid O X f2)
                 else exists r, In r (f_rows X) /\ nth_error r p = Some v /\ nth_error r q = Some w) ->
    exists x, pget O (c_pairs c') ((f1, f2), v, w) = Some x
      /\ Sourced P (np_mean N) (job_pairs X) (length (f_rows X)) (c_log c') ((f1, f2), v, w) x.
  Proof.
    intros Hr H Hreq Hp Hq Hcomb v w Hvw. destruct (reachable_any O N HO Hnan m X P b c Hr) as (Hs & Hc & HXc & HPc).
    pose proof Hs as (_ & Hs2 & _). rewrite HXc in Hs2. pose proof HX as (Hnd & _).
    unfold calculate_pd_pairs in H. destruct (seq2 _ _) as [s r'] eqn:E. injection H as <- ->. cbn.
    eapply (pairs_run_any O N HO) in E as (_ & _ & _ & A); eauto. rewrite HXc, HPc in A.
    apply (A eq_refl ((f1, f2), v, w)); cbn [fst snd].
    - destruct (in_combinations_key O N c X f1 f2 HX Hs2) as [K1 _]. destruct (in_combinations_key O N c X f2 f1 HX Hs2) as [_ K2].
      assert (Hn21 : ~ In (f2, f1) (combinations2 (f_cols X))) by (apply combinations2_asym; assumption).
      unfold requested in Hreq. destruct ps as [l|].
      + destruct Hreq as [Hi|Hi]; [exists (f1, f2)|exists (f2, f1)]; split; auto; symmetry; [apply K1, Hcomb|apply K2, Hn21].
      + exists (f1, f2). split; [|symmetry; apply K1, Hcomb].
        pose proof (dshape_keys _ _ _ (fun p => ((grid O X (fst p), grid O X (snd p)), repeat (length (grid O X (snd p))) (length (grid O X (fst p))),
           nanvals2 O (grid O X (fst p)) (grid O X (snd p)) (pinit O N X p))) Hs2) as Hk.
        rewrite Hk; exact Hcomb.
    - unfold pair_vals. rewrite HXc. destruct a; [exact Hvw|]. destruct Hvw as (r & Hr0 & Hv & Hw).
      unfold column; cbn [fst snd]. rewrite (col_pos_of X HX p f1 Hp), (col_pos_of X HX q f2 Hq).
      eexists; eexists; split; [reflexivity|]. split; [reflexivity|].
      apply In_nth_error in Hr0 as (i & Hi). apply combine_In_nth. exists i. pose proof HX as (_ & Hrows & _).
      rewrite (col_at_nth p (length (f_cols X))), (col_at_nth q (length (f_cols X))), Hi;
        auto; apply nth_error_Some; congruence.
  Qed.

  Lemma Forall2_exists {A B} (R : A -> B -> Prop) l : (forall a, In a l -> exists b, R a b) -> exists k, Forall2 R l k.
  Proof.
    induction l as [|a l IH]; intros H; [exists []; constructor|]. destruct (H a (or_introl eq_refl)) as (b & Hb).
    destruct IH as (k & Hk); [intros; apply H; right; assumption|]. exists (b :: k). constructor; assumption.
  Qed.
  Lemma Forall2_weaken {A B} (R S : A -> B -> Prop) l k : (forall a b, In a l -> R a b -> S a b) -> Forall2 R l k -> Forall2 S l k.
  Proof. intros H F. induction F; constructor; [apply H; [left; reflexivity|assumption]|apply IHF; intros; apply H; [right; assumption|assumption]]. Qed.
End Aux.

(** ** C132 *)
Theorem C132_single {C V} (O : cell_ops C) (N : num_ops V) (HO : cell_ok O) (Hnan : n_isnan N (n_nan N) = true) m X P b c p f :
  wf_frame X -> reachable O N m X P b c -> nth_error (f_cols X) p = Some f ->
  (forall vs xs, get_pd_single O c f (Some vs) = Ok xs ->
     Forall2 (fun v x => n_isnan N x = true \/ answered (np_mean N) P (c_log c) (column_set (f_rows X) p v) x) vs xs)
  /\ (forall xs, get_pd_single O c f None = Ok xs ->
     Forall2 (fun v x => n_isnan N x = true \/ answered (np_mean N) P (c_log c) (column_set (f_rows X) p v) x) (np_unique O (col_at p (f_rows X))) xs)
  /\ (forall fs c', calculate_pd_single O N c fs = (c', Ok tt) -> In f (feats X fs) ->
       (forall vs, (forall v, In v vs -> In v (col_at p (f_rows X))) -> exists xs, get_pd_single O c' f (Some vs) = Ok xs
          /\ Forall2 (fun v x => answered (np_mean N) P (c_log c') (column_set (f_rows X) p v) x) vs xs)
       /\ exists xs, get_pd_single O c' f None = Ok xs
          /\ Forall2 (fun v x => answered (np_mean N) P (c_log c') (column_set (f_rows X) p v) x) (np_unique O (col_at p (f_rows X))) xs).
Proof.
  intros HX Hr Hp.
  assert (Hl : forall v, length (job_single X (f, v)) = length (f_rows X)) by (intros; apply job_single_length).
  destruct (reachable_any O N HO Hnan m X P b c Hr) as ((Hs & _) & (Hc & _) & HXc & HPc). rewrite HXc, HPc in Hc.
  assert (Hcell : forall v x, sget O (c_single c) (f, v) = Some x -> n_isnan N x = true \/ answered (np_mean N) P (c_log c) (column_set (f_rows X) p v) x).
  { intros v x Hx. destruct (Hc _ _ Hx) as [Hn|Hsrc]; [left; exact Hn|right]. rewrite <- (job_single_rows X HX p f v Hp). apply (sourced_answered N X); auto. }
  split; [|split].
  - intros vs xs H. apply mapM_Ok_inv in H. eapply Forall2_impl; [|exact H]. intros v x Hx. apply single_elem in Hx. apply Hcell, Hx.
  - intros xs H. cbn in H. bsplit H. apply dict_get_assoc in E. injection H as <-.
    rewrite HXc in Hs. destruct (sshape_assoc O N X _ f Hs) as [_ H2]. destruct (H2 _ E) as (_ & _ & Hl2 & _).
    rewrite <- (grid_of O X HX p f Hp). apply Forall2_nth; [congruence|]. intros i v y Hv Hy.
    pose proof (single_raw O N HO _ _ _ _ _ _ _ Hs E Hv Hy) as A. destruct (c_isnan O v); [left; subst; exact Hnan|apply Hcell, A].
  - intros fs c' H Hf. pose proof (grid_of O X HX p f Hp) as Hgr.
    assert (Hd : forall v, In v (grid O X f) -> exists x, sget O (c_single c') (f, v) = Some x /\ answered (np_mean N) P (c_log c') (column_set (f_rows X) p v) x).
    { intros v Hv. destruct (single_done_any O N HO Hnan X m P b c fs c' f v Hr H Hf Hv) as (x & Hx & Hsrc).
      exists x. split; [exact Hx|]. rewrite <- (job_single_rows X HX p f v Hp). apply (sourced_answered N X); auto. }
    assert (Hnn : forall v, In v (col_at p (f_rows X)) -> c_isnan O v = false).
    { intros v Hv. destruct (c_isnan O v) eqn:Ev; [|reflexivity]. exfalso.
      destruct (np_unique_nan O (col_at p (f_rows X))) as (w & Hw & Hwn); [eauto|].
      rewrite <- Hgr in Hw. destruct (Hd w Hw) as (x & Hx & _). apply (grid_no_nan_done O HO) in Hx. congruence. }
    assert (Hd2 : forall v, In v (col_at p (f_rows X)) -> exists x, sget O (c_single c') (f, v) = Some x /\ answered (np_mean N) P (c_log c') (column_set (f_rows X) p v) x).
    { intros v Hv. apply Hd. rewrite Hgr. apply np_unique_In; auto. }
    split.
    + intros vs Hvs. destruct (Forall2_exists (fun v x => sget O (c_single c') (f, v) = Some x /\ answered (np_mean N) P (c_log c') (column_set (f_rows X) p v) x) vs) as (xs & Hxs);
        [intros v Hv; apply Hd2, Hvs, Hv|].
      exists xs. split; [|eapply Forall2_impl; [|exact Hxs]; intros v x [_ Hx]; exact Hx].
      cbn. apply mapM_Ok_intro. eapply Forall2_impl; [|exact Hxs]. intros v x [Hx _]. apply single_elem, Hx.
    + assert (Hr' : reachable O N m X P b c') by (eapply (reachable_step O N m X P b c (OpSingle fs)); [exact Hr|exact H]).
      destruct (reachable_any O N HO Hnan m X P b c' Hr') as ((Hs' & _) & _ & HXc' & _). rewrite HXc' in Hs'.
      destruct (sshape_assoc O N X _ f Hs') as [H1 H2]. destruct (H1 (nth_error_In _ _ Hp)) as (pv & Ha).
      destruct (H2 _ Ha) as (_ & _ & Hl2 & _). exists pv. cbn in *. unfold dict_get; rewrite Ha. cbn. split; [reflexivity|].
      rewrite <- Hgr. apply Forall2_nth; [congruence|]. intros i v y Hv Hy.
      pose proof (single_raw O N HO _ _ _ _ _ _ _ Hs' Ha Hv Hy) as A.
      assert (Hvc : In v (col_at p (f_rows X))).
      { apply (np_unique_sub O HO). rewrite <- Hgr. eapply nth_error_In; exact Hv. }
      rewrite (Hnn v Hvc) in A. destruct (Hd2 v Hvc) as (x & Hx & Hans). rewrite A in Hx. injection Hx as ->. exact Hans.
Qed.

Theorem C132_minus {C V} (O : cell_ops C) (N : num_ops V) (HO : cell_ok O) (Hnan : n_isnan N (n_nan N) = true) m X P b c p f :
  wf_frame X -> reachable O N m X P b c -> nth_error (f_cols X) p = Some f ->
  (forall xs, get_pd_minus_single c f = Ok xs ->
     Forall2 (fun row x => n_isnan N x = true \/ answered (np_mean N) P (c_log c) (others_set (f_rows X) p row) x) (f_rows X) xs)
  /\ (forall fs c', calculate_pd_minus_single N c fs = (c', Ok tt) -> In f (feats X fs) ->
       exists xs, get_pd_minus_single c' f = Ok xs
          /\ Forall2 (fun row x => answered (np_mean N) P (c_log c') (others_set (f_rows X) p row) x) (f_rows X) xs).
Proof.
  intros HX Hr Hp.
  assert (Hl : forall i, i < length (f_rows X) -> length (job_minus X (f, i)) = length (f_rows X)) by (intros; apply job_minus_length; assumption).
  split.
  - intros xs H. destruct (reachable_any O N HO Hnan m X P b c Hr) as ((_ & _ & Hs) & (_ & _ & Hc) & HXc & HPc). rewrite HXc, HPc in Hc. rewrite HXc in Hs.
    unfold get_pd_minus_single in H. apply dict_get_assoc in H. destruct (mshape_assoc X _ f Hs) as [_ H2]. destruct (H2 _ H) as (_ & Hl2).
    apply Forall2_nth; [congruence|]. intros i row y Hv Hy.
    assert (A : mget (c_minus c) (f, i) = Some y) by (unfold mget; cbn; rewrite H; exact Hy).
    destruct (Hc _ _ A) as [Hn|Hsrc]; [left; exact Hn|right]. rewrite <- (job_minus_rows X HX p f i row Hp Hv).
    apply (sourced_answered N X); [apply Hl, nth_error_Some; congruence|exact Hsrc].
  - intros fs c' H Hf.
    assert (Hr' : reachable O N m X P b c') by (eapply (reachable_step O N m X P b c (OpMinus fs)); [exact Hr|exact H]).
    destruct (reachable_any O N HO Hnan m X P b c' Hr') as ((_ & _ & Hs') & _ & HXc' & _). rewrite HXc' in Hs'.
    destruct (mshape_assoc X _ f Hs') as [H1 H2]. destruct (H1 (nth_error_In _ _ Hp)) as (a & Ha).
    destruct (H2 _ Ha) as (_ & Hl2). exists a. unfold get_pd_minus_single, dict_get; rewrite Ha. split; [reflexivity|].
    apply Forall2_nth; [congruence|]. intros i row y Hv Hy. assert (Hi : i < length (f_rows X)) by (apply nth_error_Some; congruence).
    destruct (minus_done_any O N HO Hnan X m P b c fs c' f i Hr H Hf Hi) as (x & Hx & Hsrc).
    assert (A : mget (c_minus c') (f, i) = Some y) by (unfold mget; cbn; rewrite Ha; exact Hy).
    rewrite A in Hx. injection Hx as ->. rewrite <- (job_minus_rows X HX p f i row Hp Hv).
    apply (sourced_answered N X); [apply Hl, Hi|exact Hsrc].
Qed.

Theorem C132_pairs {C V} (O : cell_ops C) (N : num_ops V) (HO : cell_ok O) (Hnan : n_isnan N (n_nan N) = true) m X P b c p q f1 f2 :
  wf_frame X -> reachable O N m X P b c -> nth_error (f_cols X) p = Some f1 -> nth_error (f_cols X) q = Some f2 -> p <> q ->
  (forall vals xs, get_pd_pairs O c f1 f2 vals = Ok xs ->
     Forall2 (fun v x => n_isnan N x = true \/ answered (np_mean N) P (c_log c) (columns_set (f_rows X) p q (fst v) (snd v)) x) vals xs)
  /\ (forall ps (a : bool) c' vals, calculate_pd_pairs O N c ps a = (c', Ok tt) -> requested X ps f1 f2 ->
       (forall v w, In (v, w) vals ->
          if a then In v (col_at p (f_rows X)) /\ In w (col_at q (f_rows X))
          else exists r, In r (f_rows X) /\ nth_error r p = Some v /\ nth_error r q = Some w) ->
       exists xs, get_pd_pairs O c' f1 f2 vals = Ok xs
         /\ Forall2 (fun v x => answered (np_mean N) P (c_log c') (columns_set (f_rows X) p q (fst v) (snd v)) x) vals xs).
Proof.
  intros HX Hr Hp Hq Hne. destruct (combos_pos _ _ _ _ _ HX Hp Hq Hne) as (Hi1 & Hi2 & Hd).
  assert (Hpl : p < length (f_cols X)) by (apply nth_error_Some; congruence). assert (Hql : q < length (f_cols X)) by (apply nth_error_Some; congruence).
  split.
  - intros vals xs H. destruct (reachable_any O N HO Hnan m X P b c Hr) as ((_ & Hs & _) & (_ & Hc & _) & HXc & HPc). rewrite HXc, HPc in Hc. rewrite HXc in Hs.
    destruct (combinations2_complete (f_cols X) f1 f2 Hi1 Hi2 Hd) as [Hi|Hi].
    + apply (pairs_elem O N c X f1 f2 vals HX Hs Hi) in H. eapply Forall2_impl; [|exact H]. cbn; intros v x Hx.
      destruct (Hc _ _ Hx) as [Hn|Hsrc]; [auto|right]. rewrite <- (job_pairs_rows X HX p q f1 f2 _ _ Hp Hq).
      apply (sourced_answered N X); [apply job_pairs_length|exact Hsrc].
    + rewrite (get_pd_pairs_swap O N c X) in H by assumption. apply (pairs_elem O N c X f2 f1 _ HX Hs Hi) in H.
      clear HXc HPc. revert xs H; induction vals as [|v t IH]; cbn; intros xs H; inversion H as [|? x ? ys Hx Ht]; subst; constructor; [|apply IH, Ht].
      cbn in Hx. destruct (Hc _ _ Hx) as [Hn|Hsrc]; [auto|right]. rewrite <- (columns_set_swap X HX p q) by assumption.
      rewrite <- (job_pairs_rows X HX q p f2 f1 _ _ Hq Hp). apply (sourced_answered N X); [apply job_pairs_length|exact Hsrc].
  - intros ps a c' vals H Hreq Hvals.
    assert (Hr' : reachable O N m X P b c') by (eapply (reachable_step O N m X P b c (OpPairs ps a)); [exact Hr|exact H]).
    destruct (reachable_any O N HO Hnan m X P b c' Hr') as ((_ & Hs & _) & _ & HXc & _). rewrite HXc in Hs.
    assert (Hgen : forall f1 f2 p q, nth_error (f_cols X) p = Some f1 -> nth_error (f_cols X) q = Some f2 -> requested X ps f1 f2 ->
       In (f1, f2) (combinations2 (f_cols X)) ->
       forall v w, (if a then In v (col_at p (f_rows X)) /\ In w (col_at q (f_rows X))
                    else exists r, In r (f_rows X) /\ nth_error r p = Some v /\ nth_error r q = Some w) ->
       exists x, pget O (c_pairs c') ((f1, f2), v, w) = Some x /\ answered (np_mean N) P (c_log c') (columns_set (f_rows X) p q v w) x).
    { clear p q f1 f2 Hp Hq Hreq Hvals Hi1 Hi2 Hd Hne Hpl Hql. intros f1 f2 p q Hp Hq Hreq Hin v w Hvw.
      pose proof (pairs_done_any O N HO Hnan X HX m P b c ps a c' f1 f2 p q Hr H Hreq Hp Hq Hin) as Hd.
      enough (Hq2 : exists x, pget O (c_pairs c') ((f1, f2), v, w) = Some x /\ Sourced P (np_mean N) (job_pairs X) (length (f_rows X)) (c_log c') ((f1, f2), v, w) x).
      { destruct Hq2 as (x & Hx & Hsrc). exists x. split; [exact Hx|]. rewrite <- (job_pairs_rows X HX p q f1 f2 v w Hp Hq).
        apply (sourced_answered N X); [apply job_pairs_length|exact Hsrc]. }
      apply Hd. destruct a; [|exact Hvw]. destruct Hvw as [Hv Hw].
      rewrite (grid_of O X HX p f1 Hp), (grid_of O X HX q f2 Hq) in *.
      assert (Hg1 : exists v0, In v0 (np_unique O (col_at p (f_rows X)))).
      { destruct (np_unique O (col_at p (f_rows X))) eqn:E; [|eexists; left; reflexivity].
        pose proof (proj1 (np_unique_nil O HO _) E) as E0. rewrite E0 in Hv; destruct Hv. }
      assert (Hg2 : exists v0, In v0 (np_unique O (col_at q (f_rows X)))).
      { destruct (np_unique O (col_at q (f_rows X))) eqn:E; [|eexists; left; reflexivity].
        pose proof (proj1 (np_unique_nil O HO _) E) as E0. rewrite E0 in Hw; destruct Hw. }
      destruct Hg1 as (v0 & Hv0), Hg2 as (w0 & Hw0).
      split.
      - apply np_unique_In; auto. destruct (c_isnan O v) eqn:Ev; [|reflexivity]. exfalso.
        destruct (np_unique_nan O (col_at p (f_rows X))) as (z & Hz & Hzn); [eauto|].
        destruct (Hd z w0 (conj Hz Hw0)) as (x & Hx & _). apply (pget_nonnan O HO) in Hx. destruct Hx; congruence.
      - apply np_unique_In; auto. destruct (c_isnan O w) eqn:Ev; [|reflexivity]. exfalso.
        destruct (np_unique_nan O (col_at q (f_rows X))) as (z & Hz & Hzn); [eauto|].
        destruct (Hd v0 z (conj Hv0 Hz)) as (x & Hx & _). apply (pget_nonnan O HO) in Hx. destruct Hx; congruence. }
    destruct (combinations2_complete (f_cols X) f1 f2 Hi1 Hi2 Hd) as [Hi|Hi].
    + destruct (Forall2_exists (fun v x => pget O (c_pairs c') ((f1, f2), fst v, snd v) = Some x
        /\ answered (np_mean N) P (c_log c') (columns_set (f_rows X) p q (fst v) (snd v)) x) vals) as (xs & Hxs).
      { intros [v w] Hvw. exact (Hgen f1 f2 p q Hp Hq Hreq Hi v w (Hvals v w Hvw)). }
      exists xs. split; [|eapply Forall2_impl; [|exact Hxs]; intros v x [_ Hx]; exact Hx].
      apply (pairs_elem O N c' X f1 f2 vals HX Hs Hi). eapply Forall2_impl; [|exact Hxs]. intros v x [Hx _]; exact Hx.
    + assert (Hreq' : requested X ps f2 f1) by (unfold requested in *; destruct ps; tauto).
      destruct (Forall2_exists (fun v x => pget O (c_pairs c') ((f2, f1), snd v, fst v) = Some x
        /\ answered (np_mean N) P (c_log c') (columns_set (f_rows X) p q (fst v) (snd v)) x) vals) as (xs & Hxs).
      { intros [v w] Hvw. cbn [fst snd]. rewrite <- (columns_set_swap X HX p q) by assumption. apply (Hgen f2 f1 q p Hq Hp Hreq' Hi w v).
        specialize (Hvals v w Hvw). destruct a; [tauto|]. destruct Hvals as (r & ? & ? & ?); eauto. }
      exists xs. split; [|eapply Forall2_impl; [|exact Hxs]; intros v x [_ Hx]; exact Hx].
      rewrite (get_pd_pairs_swap O N c' X) by assumption. apply (pairs_elem O N c' X f2 f1 _ HX Hs Hi).
      clear -Hxs. induction Hxs as [|v x l k [Hx _] _ IH]; cbn; constructor; [exact Hx|exact IH].
Qed.

(** ** Noisy models *)

(** every answer of the model is a number within [eps] of [h]; within [lo] and [hi] *)
Definition noisy {C} (P : nat -> list (list C) -> result (list (ext R))) (h : list C -> R) (eps : R) : Prop :=
  forall n request answers, P n request = Ok answers -> Forall2 (fun r y => exists a, y = Fin a /\ (Rabs (a - h r) <= eps)%R) request answers.
Definition in_range {C} (P : nat -> list (list C) -> result (list (ext R))) (lo hi : R) : Prop :=
  forall n request answers, P n request = Ok answers -> Forall2 (fun _ y => exists a, y = Fin a /\ (lo <= a <= hi)%R) request answers.
Definition within (a eps : R) (x : ext R) : Prop := exists y, x = Fin y /\ (Rabs (y - a) <= eps)%R.

Lemma Forall2_same_length {A B} (R : A -> B -> Prop) l k : Forall2 R l k -> length l = length k.
Proof. induction 1; cbn; congruence. Qed.
Lemma Rmean_close (h : R -> R -> Prop) eps (l k : list R) : l <> [] -> (forall a b, h a b -> (Rabs (a - b) <= eps)%R) -> Forall2 h l k -> (Rabs (Rmean l - Rmean k) <= eps)%R.
Proof.
  intros Hne Hh F. assert (Hlen : length l = length k) by (eapply Forall2_same_length; exact F).
  unfold Rmean. rewrite <- Hlen. pose proof (INR_pos_length l Hne) as Hp.
  assert (Hs : (Rabs (Rsum l - Rsum k) <= INR (length l) * eps)%R).
  { clear Hne Hp Hlen. induction F as [|a b l k Hab F IH]; [unfold Rsum; cbn [fold_right length INR]; rewrite Rminus_0_r, Rabs_R0; lra|].
    cbn [length]. rewrite S_INR. specialize (Hh a b Hab).
    replace (Rsum (a :: l) - Rsum (b :: k))%R with ((a - b) + (Rsum l - Rsum k))%R by (unfold Rsum; cbn [fold_right]; ring).
    eapply Rle_trans; [apply Rabs_triang|]. lra. }
  replace (Rsum l / INR (length l) - Rsum k / INR (length l))%R with ((Rsum l - Rsum k) * / INR (length l))%R by (field; lra).
  rewrite Rabs_mult, (Rabs_pos_eq (/ _)%R) by (left; apply Rinv_0_lt_compat; exact Hp).
  apply (Rmult_le_reg_r (INR (length l))); [exact Hp|]. rewrite Rmult_assoc, Rinv_l by lra. lra.
Qed.

Lemma answered_noise {C} P (h : list C -> R) eps requests rows x : noisy P h eps -> rows <> [] ->
  answered (np_mean xR) P requests rows x -> within (Rmean (map h rows)) eps x.
Proof.
  intros Hn Hne (n & request & answers & before & after & _ & Hp & -> & ->).
  specialize (Hn n _ _ Hp). apply Forall2_app_inv_l in Hn as (y1 & y2 & F1 & F2 & ->).
  apply Forall2_app_inv_l in F2 as (y3 & y4 & F3 & _ & ->).
  assert (E : firstn (length rows) (skipn (length before) (y1 ++ y3 ++ y4)) = y3).
  { rewrite (Forall2_same_length _ _ _ F1), skipn_app, skipn_all, Nat.sub_diag. cbn. rewrite (Forall2_same_length _ _ _ F3), firstn_app, firstn_all, Nat.sub_diag. cbn. apply app_nil_r. }
  rewrite E. clear E F1 y1 y4 Hp.
  assert (G : exists ks, y3 = map Fin ks /\ Forall2 (fun a b => (Rabs (a - b) <= eps)%R) ks (map h rows)).
  { clear Hne. induction F3 as [|r y l k (a & -> & Ha) F IH]; [exists []; split; [reflexivity|constructor]|].
    destruct IH as (ks & -> & Hk). exists (a :: ks). split; [reflexivity|constructor; assumption]. }
  destruct G as (ks & -> & Hk).
  assert (Hks : ks <> []) by (intros ->; inversion Hk; destruct rows; [congruence|discriminate]).
  rewrite xR_mean_fin by exact Hks. eexists. split; [reflexivity|]. eapply (Rmean_close (fun a b => (Rabs (a - b) <= eps)%R)); [exact Hks|auto|exact Hk].
Qed.

Lemma others_PDminus {C} (rows : list (list C)) (w p : nat) h row : (forall r, In r rows -> length r = w) -> p < w ->
  Rmean (map h (others_set rows p row)) = PDminus Rmean h rows p row.
Proof.
  intros Hw Hp. unfold others_set, PDminus. f_equal. induction rows as [|r rows IH]; [reflexivity|]. cbn.
  destruct (nth_error r p) as [v|] eqn:E; [cbn; f_equal; apply IH; intros; apply Hw; right; assumption|].
  apply nth_error_None in E. rewrite (Hw r (or_introl eq_refl)) in E. lia.
Qed.

(** a model whose predictions are off by at most [eps], differently in every request, gives
    partial dependence values off by at most [eps] *)
Theorem C132_noise {C} (O : cell_ops C) (HO : cell_ok O) m X P b c (h : list C -> R) eps p f :
  wf_frame X -> f_rows X <> [] -> noisy P h eps -> reachable O xR m X P b c -> nth_error (f_cols X) p = Some f ->
  (forall fs c', calculate_pd_single O xR c fs = (c', Ok tt) -> In f (feats X fs) ->
     exists xs, get_pd_single O c' f None = Ok xs
       /\ Forall2 (fun v x => within (PD1 Rmean h (f_rows X) p v) eps x) (np_unique O (col_at p (f_rows X))) xs)
  /\ (forall fs c', calculate_pd_minus_single xR c fs = (c', Ok tt) -> In f (feats X fs) ->
     exists xs, get_pd_minus_single c' f = Ok xs
       /\ Forall2 (fun row x => within (PDminus Rmean h (f_rows X) p row) eps x) (f_rows X) xs)
  /\ (forall f2 q ps (a : bool) c' vals, nth_error (f_cols X) q = Some f2 -> p <> q ->
       calculate_pd_pairs O xR c ps a = (c', Ok tt) -> requested X ps f f2 ->
       (forall v w, In (v, w) vals ->
          if a then In v (col_at p (f_rows X)) /\ In w (col_at q (f_rows X))
          else exists r, In r (f_rows X) /\ nth_error r p = Some v /\ nth_error r q = Some w) ->
       exists xs, get_pd_pairs O c' f f2 vals = Ok xs
         /\ Forall2 (fun v x => within (PD2 Rmean h (f_rows X) p q (fst v) (snd v)) eps x) vals xs).
Proof.
  intros HX Hne Hn Hr Hp.
  assert (Hpl : p < length (f_cols X)) by (apply nth_error_Some; congruence).
  assert (Hm : forall A (g : list C -> A), map g (f_rows X) <> []) by (intros A g; destruct (f_rows X); [congruence|discriminate]).
  split; [|split].
  - intros fs c' H Hf. destruct (proj2 (proj2 (C132_single O xR HO eq_refl m X P b c p f HX Hr Hp)) fs c' H Hf) as (_ & xs & Hx & F).
    exists xs. split; [exact Hx|]. eapply Forall2_impl; [|exact F]. cbn. intros v x Ha.
    apply (answered_noise P h eps _ _ _ Hn) in Ha; [|apply Hm]. unfold column_set in Ha. rewrite map_map in Ha. exact Ha.
  - intros fs c' H Hf. destruct (proj2 (C132_minus O xR HO eq_refl m X P b c p f HX Hr Hp) fs c' H Hf) as (xs & Hx & F).
    exists xs. split; [exact Hx|]. eapply Forall2_impl; [|exact F]. cbn. intros v x Ha.
    apply (answered_noise P h eps _ _ _ Hn) in Ha; [|apply Hm].
    rewrite (others_PDminus _ (length (f_cols X))) in Ha; [exact Ha|apply (row_length X HX)|exact Hpl].
  - intros f2 q ps a c' vals Hq Hpq H Hreq Hv.
    destruct (proj2 (C132_pairs O xR HO eq_refl m X P b c p q f f2 HX Hr Hp Hq Hpq) ps a c' vals H Hreq Hv) as (xs & Hx & F).
    exists xs. split; [exact Hx|]. eapply Forall2_impl; [|exact F]. cbn. intros v x Ha.
    apply (answered_noise P h eps _ _ _ Hn) in Ha; [|apply Hm]. unfold columns_set in Ha. rewrite map_map in Ha. exact Ha.
Qed.

(** predictions between [lo] and [hi] - probabilities, say - give partial dependence values between [lo] and [hi] *)
Theorem C132_range {C} (O : cell_ops C) (HO : cell_ok O) m X P b c lo hi p f :
  wf_frame X -> in_range P lo hi -> reachable O xR m X P b c -> nth_error (f_cols X) p = Some f ->
  let ok := fun x => x = NaN \/ exists y, x = Fin y /\ (lo <= y <= hi)%R in
  (forall vs xs, get_pd_single O c f vs = Ok xs -> Forall ok xs)
  /\ (forall xs, get_pd_minus_single c f = Ok xs -> Forall ok xs)
  /\ (forall f2 q vals xs, nth_error (f_cols X) q = Some f2 -> p <> q -> get_pd_pairs O c f f2 vals = Ok xs -> Forall ok xs).
Proof.
  intros HX Hn Hr Hp ok.
  assert (Hn2 : noisy P (fun _ => ((lo + hi) / 2)%R) ((hi - lo) / 2)%R).
  { intros n rq an H. eapply Forall2_impl; [|exact (Hn n rq an H)]. intros r y (a & -> & Ha). exists a. split; [reflexivity|]. apply Rabs_le. lra. }
  assert (Hok : forall rows x, n_isnan xR x = true \/ answered (np_mean xR) P (c_log c) rows x -> ok x).
  { intros rows x [Hx|Hx]; [left; destruct x; cbn in Hx; congruence|]. destruct rows as [|r rows].
    - left. destruct Hx as (? & ? & ? & ? & ? & _ & _ & _ & ->). apply xR_mean_nil.
    - right. apply (answered_noise _ _ _ _ _ _ Hn2) in Hx as (y & -> & Hy); [|discriminate]. exists y. split; [reflexivity|].
      rewrite Rmean_map_const in Hy by discriminate. assert (Hy2 : (- ((hi - lo) / 2) <= y - (lo + hi) / 2 <= (hi - lo) / 2)%R) by (unfold Rabs in Hy; destruct (Rcase_abs _); lra). lra. }
  assert (HF : forall A (f : A -> list (list C)) l xs, Forall2 (fun v x => n_isnan xR x = true \/ answered (np_mean xR) P (c_log c) (f v) x) l xs -> Forall ok xs).
  { intros A g l xs F. induction F; constructor; [eapply Hok; eassumption|assumption]. }
  destruct (C132_single O xR HO eq_refl m X P b c p f HX Hr Hp) as (S1 & S2 & _).
  destruct (C132_minus O xR HO eq_refl m X P b c p f HX Hr Hp) as (M1 & _).
  split; [|split].
  - intros [vs|] xs H; eapply HF; [exact (S1 vs xs H)|exact (S2 xs H)].
  - intros xs H. eapply HF. exact (M1 xs H).
  - intros f2 q vals xs Hq Hpq H. destruct (C132_pairs O xR HO eq_refl m X P b c p q f f2 HX Hr Hp Hq Hpq) as (P1 & _). eapply HF. exact (P1 vals xs H).
Qed.

(** the product model of C01, off by the number of the request: not a row-wise model *)
Definition exPd : nat -> list (list Z) -> result (list (ext Q)) := fun n rows => Ok (map (fun r => n_add xQ (exg r) (Fin (inject_Z (Z.of_nat n)))) rows).
Example exPd_not_rowwise : forall g, ~ rowwise exPd g.
Proof.
  intros g H. pose proof (H 0 [[1; 1]]%Z _ eq_refl) as H0. pose proof (H 1 [[1; 1]]%Z _ eq_refl) as H1.
  rewrite <- H0 in H1. vm_compute in H1. discriminate H1.
Qed.
(* the first request answers for "a", the second one, off by one, for "b"; the complement of "a" is off by two *)
Example C132_example :
  let c := run Zcell xQ (calc_init Zcell xQ 0 exX exPd 3) [OpSingle None; OpMinus (Some ["a"])] in
  get_pd_single Zcell c "a" None = Ok [Fin (20 # 1); Fin (40 # 1)]
  /\ get_pd_single Zcell c "b" None = Ok [Fin (43 # 3); Fin (83 # 3); Fin (41 # 1)]
  /\ get_pd_minus_single c "a" = Ok [Fin (46 # 3); Fin (86 # 3); Fin (42 # 1)]
  /\ length (c_log c) = 3.
Proof. vm_compute; auto. Qed.
(* a model that alternates between h - 1/2 and h + 1/2 *)
Example C132_noise_example : noisy (fun n rows => Ok (map (fun r : list Z => Fin (INR (length r) + if Nat.even n then / 2 else - / 2)%R) rows)) (fun r => INR (length r)) (/ 2).
Proof.
  intros n rq an H. injection H as <-. induction rq as [|r rq IH]; cbn; constructor; [|exact IH].
  eexists. split; [reflexivity|]. destruct (Nat.even n); unfold Rabs; destruct (Rcase_abs _); lra.
Qed.

Print Assumptions C132_single.
Print Assumptions C132_minus.
Print Assumptions C132_pairs.
Print Assumptions C132_noise.
Print Assumptions C132_range.
