(** Model of artemis/additivity/_additivity_meter.py and the facts its properties rest on. *)
From Verif Require Import Py Num NumR Sorting Frame Rng PdCalc PdSpec PdFacts PdProofs PdTheorems PdErrors PdApi PdMethods MethodSpec
  PdMethodFacts PdMethodRun PdMethodReal PdMethodReal2.
From Coq Require Import Reals Lra.
Open Scope nat_scope.

Section Additivity.
  Context {C V G : Type} (O : cell_ops C) (N : num_ops V) (R : rng_ops G).
  Notation predictor := (nat -> list (list C) -> result (list V)).

  (** np.sum of a pandas Series: missing entries are skipped *)
  Definition series_sum (l : list V) : V := n_sum N (filter (fun x => negb (n_isnan N x)) l).

  (** the array [df.values[:, :-1].sum(axis=1)] of a frame with [n] rows given by its columns *)
  Definition row_sums (n : nat) (cols : list (list V)) : list V :=
    map (fun i => n_sum N (map (fun c => nth i c (n_nan N)) cols)) (seq 0 n).

  (** _additivity_meter.py:110-117, from the partial dependences [pds] (one array per column of
      the data, in order) and the predictions: the frame full_result and the returned index.
      Assigning the column "centered_prediction" overwrites a data column of that name. *)
  Definition additivity_of (pds : list (string * list V)) (preds : list V) : list (string * list V) * V :=
    let m := np_mean N preds in
    let full0 := map (fun e => (fst e, map (fun x => n_sub N x m) (snd e))) pds in
    let centered := map (fun x => n_sub N x m) preds in
    let full := dict_set String.eqb "centered_prediction"%string centered full0 in
    let sums := map (fun x => n_add N x m) (row_sums (length preds) (map snd (removelast full))) in
    (full, n_sub N (n_ofZ N 1) (n_div N (n_sum N (map (sqr N) (vsub N preds sums))) (series_sum (map (sqr N) centered)))).

  (** The attributes of an AdditivityMeter (_additivity_meter.py:28-38).  After a failed
      [fit] the real full_result may hold a mixture of data and results; [ad_full] is only
      updated by a successful one. *)
  Record astate := {
    ad_rng : G;
    ad_calc : option (calc C V);
    ad_X : option (frame C);
    ad_preds : option (list V);
    ad_full : option (list (string * list V));
    ad_index : option V }.

  Record aargs := {
    aa_model : model C V; aa_X : frame C; aa_n : option nat; aa_predict : option predictor;
    aa_batch : Z; aa_calc : option (calc C V) }.
  Definition aa_pf (a : aargs) := get_predict_function (aa_model a) (aa_predict a).

  (** _additivity_meter.py:40-117 [fit] and [_calculate_additivity] *)
  Definition add_fit (s : astate) (a : aargs) : astate * result V :=
    let pf := aa_pf a in
    match sample_if_not_none R (ad_rng s) (aa_X a) (aa_n a) with
    | Err e => (s, Err e)
    | Ok (Xs, rng') =>
        let st c p f i := {| ad_rng := rng'; ad_calc := c; ad_X := Some Xs; ad_preds := p; ad_full := f; ad_index := i |} in
        match pick_calc O N (aa_model a) Xs pf (aa_batch a) (aa_calc a) with
        | Err e => (st (ad_calc s) (ad_preds s) (ad_full s) (ad_index s), Err e)
        | Ok c =>
            match calculate_pd_single O N c None with
            | (c1, Err e) => (st (Some c1) (ad_preds s) (ad_full s) (ad_index s), Err e)
            | (c1, Ok _) =>
                match callable pf (length (c_log c1)) (f_rows Xs) with
                | Err e => (st (Some c1) (ad_preds s) (ad_full s) (ad_index s), Err e)
                | Ok preds =>
                    match (do pds <- mapM (fun f => do x <- column Xs f; do pd <- get_pd_single O c1 f (Some x); Ok (f, pd)) (f_cols Xs);
                           (* assigning an array of the wrong length to a column *)
                           if length preds =? length (f_rows Xs) then Ok (additivity_of pds preds) else Err ValueError) with
                    | Err e => (st (Some c1) (Some preds) (ad_full s) (ad_index s), Err e)
                    | Ok (full, v) => (st (Some c1) (Some preds) (Some full) (Some v), Ok v)
                    end
                end
            end
        end
    end.

  (** ** Specification *)
  Section Spec.
    Context (g : list C -> V) (rows : list (list C)) (w : nat).
    (** sum of the centred first-order effects of a row, plus the mean prediction *)
    Definition first_order (r : list C) : V :=
      let m := np_mean N (map g rows) in
      n_add N (n_sum N (map (fun p => n_sub N (PD1_at N g rows p r) m) (seq 0 w))) m.
    (** one minus the share of the variation of the predictions that the first-order effects
        leave unexplained *)
    Definition additivity_spec : V :=
      n_sub N (n_ofZ N 1)
        (n_div N (n_sum N (map (fun r => sq N (n_sub N (g r) (first_order r))) rows))
                 (series_sum (map (fun r => sq N (dev N rows g r)) rows))).
  End Spec.

  Context (HO : cell_ok O) (Hnan : n_isnan N (n_nan N) = true) (HR : rng_ok R).

  Definition add_explains (a : aargs) (g : list C -> V) (Xs : frame C) : Prop :=
    rowwise (callable (aa_pf a)) g
    /\ match aa_calc a with None => True | Some c => exists m P b, reachable O N m Xs P b c /\ rowwise P g end.

  Lemma dict_set_new {A} k (x : A) d : ~ In k (map fst d) -> dict_set String.eqb k x d = d ++ [(k, x)].
  Proof.
    induction d as [|[k' a'] t IH]; cbn; intros H; [reflexivity|].
    destruct (String.eqb_spec k k') as [->|_]; [exfalso; auto|]. rewrite IH by auto. reflexivity.
  Qed.

  Lemma vsub_map {A} (f k : A -> V) l : vsub N (map f l) (map k l) = map (fun x => n_sub N (f x) (k x)) l.
  Proof. unfold vsub. induction l as [|x t IH]; cbn; [reflexivity|]. f_equal. exact IH. Qed.

  Lemma map_seq_nth {A B} (l : list A) (f : nat -> B) (k : A -> B) :
    (forall i x, nth_error l i = Some x -> f i = k x) -> map f (seq 0 (length l)) = map k l.
  Proof.
    revert f; induction l as [|x t IH]; intros f H; cbn; [reflexivity|].
    f_equal; [apply H; reflexivity|]. rewrite <- seq_shift, map_map. apply IH. intros i y Hy. apply H. exact Hy.
  Qed.

  (** the rows and columns of the frame of effects *)
  Lemma row_sums_effects (rows : list (list C)) (w : nat) (F : nat -> list C -> V) :
    row_sums (length rows) (map (fun p => map (F p) rows) (seq 0 w)) = map (fun r => n_sum N (map (fun p => F p r) (seq 0 w))) rows.
  Proof.
    unfold row_sums. apply map_seq_nth. intros i r Hi. f_equal. rewrite map_map. apply map_ext. intros p.
    apply nth_error_nth. rewrite nth_error_map, Hi. reflexivity.
  Qed.

  Lemma add_calc a g Xs c : add_explains a g Xs -> pick_calc O N (aa_model a) Xs (aa_pf a) (aa_batch a) (aa_calc a) = Ok c ->
    exists m P b, reachable O N m Xs P b c /\ rowwise P g.
  Proof.
    intros [H1 H2] H. unfold pick_calc in H. destruct (aa_calc a) as [c0|].
    - destruct (negb _); [discriminate|]. destruct (negb _); [discriminate|]. injection H as <-. exact H2.
    - injection H as <-. exists (md_id (aa_model a)), (callable (aa_pf a)), (aa_batch a). split; [exists []; reflexivity|exact H1].
  Qed.

  (** the arrays fetched for the columns are the partial dependences at the rows' own values *)
  Lemma effects_of Xs c c1 m P b g : wf_frame Xs -> rowwise P g -> reachable O N m Xs P b c ->
    calculate_pd_single O N c None = (c1, Ok tt) ->
    mapM (fun f => do x <- column Xs f; do pd <- get_pd_single O c1 f (Some x); Ok (f, pd)) (f_cols Xs)
    = Ok (combine (f_cols Xs) (map (fun p => map (PD1_at N g (f_rows Xs) p) (f_rows Xs)) (seq 0 (length (f_cols Xs))))).
  Proof.
    intros HX Hg Hr E.
    rewrite (mapM_all _ (fun f => (f, map (PD1_at N g (f_rows Xs) (posn Xs f)) (f_rows Xs)))).
    - f_equal. assert (H : forall cols, (forall i f, nth_error cols i = Some f -> posn Xs f = i) \/ cols = [] -> map (fun f => (f, map (PD1_at N g (f_rows Xs) (posn Xs f)) (f_rows Xs))) cols
        = combine cols (map (fun p => map (PD1_at N g (f_rows Xs) p) (f_rows Xs)) (seq 0 (length cols)))).
      { intros cols [Hc| ->]; [|reflexivity].
        rewrite (map_seq_nth cols _ (fun f => map (PD1_at N g (f_rows Xs) (posn Xs f)) (f_rows Xs))).
        - clear. induction cols as [|f t IH]; cbn; [reflexivity|]. f_equal; exact IH.
        - intros i f Hi. rewrite (Hc i f Hi). reflexivity. }
      apply H. left. intros i f Hi. apply (posn_nth Xs i f HX Hi).
    - intros f Hf. apply In_nth_error in Hf as (p & Hp).
      rewrite (column_known Xs p f HX Hp). cbn [bind].
      destruct (pd_single_exact O N HO Hnan m Xs P b c g None c1 p f HX Hg Hr E (nth_error_In _ _ Hp) Hp) as [A _].
      rewrite A by auto. cbn [bind]. rewrite (posn_nth Xs p f HX Hp). do 2 f_equal.
      apply col_at_map. intros r Hrr. eapply wf_len; eassumption.
  Qed.

  Lemma map_snd_combine {A B} (l : list A) (k : list B) : length l = length k -> map snd (combine l k) = k.
  Proof. revert k; induction l as [|x l IH]; intros [|y k] H; cbn in *; try lia; [reflexivity|]. f_equal; auto. Qed.
  Lemma map_fst_combine {A B} (l : list A) (k : list B) : length l = length k -> map fst (combine l k) = l.
  Proof. revert k; induction l as [|x l IH]; intros [|y k] H; cbn in *; try lia; [reflexivity|]. f_equal; auto. Qed.

  (** what a successful [fit] returns *)
  Lemma add_fit_ok s a s' v : add_fit s a = (s', Ok v) ->
    exists Xs rng' c c1 preds pds,
      sample_if_not_none R (ad_rng s) (aa_X a) (aa_n a) = Ok (Xs, rng')
      /\ pick_calc O N (aa_model a) Xs (aa_pf a) (aa_batch a) (aa_calc a) = Ok c
      /\ calculate_pd_single O N c None = (c1, Ok tt)
      /\ callable (aa_pf a) (length (c_log c1)) (f_rows Xs) = Ok preds
      /\ mapM (fun f => do x <- column Xs f; do pd <- get_pd_single O c1 f (Some x); Ok (f, pd)) (f_cols Xs) = Ok pds
      /\ length preds = length (f_rows Xs)
      /\ v = snd (additivity_of pds preds)
      /\ s' = {| ad_rng := rng'; ad_calc := Some c1; ad_X := Some Xs; ad_preds := Some preds;
                 ad_full := Some (fst (additivity_of pds preds)); ad_index := Some v |}.
  Proof.
    unfold add_fit. intros H.
    destruct (sample_if_not_none R (ad_rng s) (aa_X a) (aa_n a)) as [[Xs rng']|e] eqn:Es; [|discriminate].
    destruct (pick_calc O N (aa_model a) Xs (aa_pf a) (aa_batch a) (aa_calc a)) as [c|e] eqn:Ec; [|discriminate].
    destruct (calculate_pd_single O N c None) as [c1 [[]|e]] eqn:Ep; [|discriminate].
    destruct (callable (aa_pf a) (length (c_log c1)) (f_rows Xs)) as [preds|e] eqn:Eq; [|discriminate].
    destruct (mapM _ (f_cols Xs)) as [pds|e] eqn:Em; cbn [bind] in H; [|discriminate].
    destruct (Nat.eqb_spec (length preds) (length (f_rows Xs))) as [Hl|]; [|discriminate].
    destruct (additivity_of pds preds) as [full v0] eqn:Ea.
    assert (v0 = v) by congruence. subst v0.
    exists Xs, rng', c, c1, preds, pds. do 6 (split; [assumption || reflexivity|]). rewrite Ea. split; [reflexivity|]. cbn [fst]. congruence.
  Qed.

  (** the returned index is the specified one, unless a data column is called "centered_prediction" *)
  Theorem add_fit_spec s a s' v g Xs : wf_frame (aa_X a) ->
    add_fit s a = (s', Ok v) -> ad_X s' = Some Xs -> add_explains a g Xs ->
    ~ In "centered_prediction"%string (f_cols (aa_X a)) ->
    wf_frame Xs /\ f_cols Xs = f_cols (aa_X a) /\ ad_index s' = Some v
    /\ v = additivity_spec g (f_rows Xs) (length (f_cols Xs))
    /\ ad_preds s' = Some (map g (f_rows Xs)).
  Proof.
    intros HX0 H HXs He Hcp. apply add_fit_ok in H as (Xs0 & rng' & c & c1 & preds & pds & Es & Ec & Ep & Eq & Em & Hl & Hv & ->).
    cbn [ad_X ad_index ad_preds] in *. injection HXs as ->.
    destruct (sample_wf R _ _ _ _ _ HR HX0 Es) as (HX & Hcols & _).
    destruct (add_calc a g Xs c He Ec) as (m & P & b & Hr & Hg).
    rewrite (effects_of Xs c c1 m P b g HX Hg Hr Ep) in Em.
    apply (proj1 He) in Eq. subst preds. rewrite map_length in Hl.
    do 3 (split; [assumption || reflexivity|]). split; [|reflexivity].
    assert (pds = combine (f_cols Xs) (map (fun p => map (PD1_at N g (f_rows Xs) p) (f_rows Xs)) (seq 0 (length (f_cols Xs))))) by congruence.
    subst v pds. clear Em. set (w := length (f_cols Xs)) in *. set (rows := f_rows Xs) in *.
    unfold additivity_of. cbn [snd]. set (mu := np_mean N (map g rows)).
    set (effs := map (fun p => map (PD1_at N g rows p) rows) (seq 0 w)).
    assert (Hle : length (f_cols Xs) = length effs) by (unfold effs; rewrite map_length, seq_length; reflexivity).
    rewrite dict_set_new.
    2:{ rewrite map_map. cbn [fst]. rewrite (map_ext _ fst) by reflexivity. rewrite map_fst_combine by exact Hle. rewrite Hcols. exact Hcp. }
    rewrite removelast_last, map_map. cbn [snd].
    rewrite <- (map_map snd (fun c => map (fun x => n_sub N x mu) c)), map_snd_combine by exact Hle.
    unfold effs. rewrite map_map.
    rewrite (map_ext _ (fun p => map (fun r => n_sub N (PD1_at N g rows p r) mu) rows)) by (intros; apply map_map).
    rewrite !map_length, (row_sums_effects rows w (fun p r => n_sub N (PD1_at N g rows p r) mu)), map_map, vsub_map, !map_map.
    reflexivity.
  Qed.
End Additivity.
Arguments astate : clear implicits.
Arguments aargs : clear implicits.
