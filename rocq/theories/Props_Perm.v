(** Properties C25 to C33: performance based interactions, permutation importance, metrics. *)
From Verif Require Import Py Num NumR Sorting Frame Rng PdCalc PdSpec PdProofs PdMethods PdMethodRun Perm PermFacts PermRun.
From Coq Require Import QArith Reals Lra.
Open Scope string_scope.
Open Scope nat_scope.
Open Scope list_scope.

(** the features a call includes: all columns by default *)
Definition included {C V} (a : sargs C V) : list string := match sa_features a with None => f_cols (sa_X a) | Some l => l end.

(** the cell in row [i] and column [j] *)
Definition cell {C} (rows : list (list C)) (i j : nat) : option C := match nth_error rows i with Some r => nth_error r j | None => None end.

Lemma sample_both_frame {C V G} (R : rng_ops G) (HR : rng_ok R) (g0 : G) (X : frame C) (y : target V) n Xs ys g1 : wf_frame X ->
  sample_both R g0 X y n = Ok (Xs, ys, g1) -> sample_if_not_none R g0 X n = Ok (Xs, g1) /\ wf_frame Xs /\ f_cols Xs = f_cols X.
Proof.
  intros HX H. assert (Hs : sample_if_not_none R g0 X n = Ok (Xs, g1)).
  { unfold sample_both in H. destruct n as [k|]; [|cbn; congruence].
    destruct (sample_if_not_none R g0 X (Some k)) as [[Xs' g']|]; [|discriminate]. cbn [bind] in H.
    destruct (t_series y).
    - destruct (series_take _ _ _); [|discriminate]. cbn [bind] in H. congruence.
    - destruct (np_take _ _); [|discriminate]. cbn [bind] in H. congruence. }
  split; [exact Hs|]. destruct (sample_wf R _ _ _ _ _ HR HX Hs) as (? & ? & _). auto.
Qed.

Section General.
  Context {C V G : Type} (N : num_ops V) (R : rng_ops G) (HR : rng_ok R) (srt : sorter).

  Lemma sj_fit_inv (m : metric V) e s (a : sargs C V) s' log Xs ys g1 : sample_both R (sj_rng s) (sa_X a) (sa_y a) (sa_n a) = Ok (Xs, ys, g1) ->
    sj_fit N R srt m e s a = (s', Ok tt, log) ->
    exists s1 s2 t fi, perf_based_ovo N R srt (md_predict (sa_model a)) m Xs ys (combinations2 (included a)) (sa_repeat a) {| p_log := []; p_rng := g1 |} = (s1, Ok t)
      /\ permutation_importance N R srt (md_predict (sa_model a)) m Xs ys (sa_repeat a) (Some (included a)) {| p_log := p_log s1; p_rng := e |} = (s2, Ok fi)
      /\ sj_ovo s' = Some t /\ sj_fi s' = Some fi /\ sj_X s' = Some Xs /\ sj_y s' = Some ys /\ sj_rng s' = p_rng s1 /\ log = p_log s2.
  Proof.
    intros Hs H. unfold sj_fit in H. rewrite Hs in H. fold (included a) in H. cbv zeta in H.
    destruct (perf_based_ovo _ _ _ _ _ _ _ _ _ _) as [s1 [t|er]] eqn:E1; [|exfalso; congruence].
    destruct (permutation_importance _ _ _ _ _ _ _ _ _ _) as [s2 [fi|er]] eqn:E2; [|exfalso; congruence].
    exists s1, s2, t, fi. split; [reflexivity|]. split; [exact E2|]. assert (H' : s' = _) by (symmetry; exact (f_equal (fun x => fst (fst x)) H)).
    subst s'. cbn. repeat split; auto. symmetry; exact (f_equal snd H).
  Qed.

  (** the sample a successful fit worked on *)
  Lemma sj_fit_sample (m : metric V) e s (a : sargs C V) s' log : sj_fit N R srt m e s a = (s', Ok tt, log) ->
    exists Xs ys g1, sample_both R (sj_rng s) (sa_X a) (sa_y a) (sa_n a) = Ok (Xs, ys, g1).
  Proof. unfold sj_fit. destruct (sample_both _ _ _ _ _) as [[[Xs ys] g1]|]; [eauto|]. intros H. exfalso. congruence. Qed.

  (** ** C26 *)
  (** [rs] is [rows] with the columns at [sel] rearranged by the one permutation [p] *)
  Definition shuffled_columns (rows rs : list (list C)) (sel p : list nat) : Prop :=
    length rs = length rows
    /\ forall i j, i < length rows -> cell rs i j = if existsb (Nat.eqb j) sel then cell rows (nth i p 0) j else cell rows i j.

  Lemma rearranged_cells (rows : list (list C)) w sel p : (forall r, In r rows -> length r = w) -> Permutation p (seq 0 (length rows)) ->
    shuffled_columns rows (rearranged rows sel p) sel p.
  Proof.
    intros Hw Hp. split; [apply rearranged_length, Hp|]. intros i j Hi.
    destruct (perm_nth_ex rows p i Hp Hi) as (r & k & r' & Hr & Hk & Hr').
    unfold cell. rewrite (rearranged_nth rows sel p i r k r' Hp Hr Hk Hr'), (nth_error_nth _ _ 0 Hk), Hr, Hr'.
    apply graft_nth. rewrite (Hw r (nth_error_In _ _ Hr)), (Hw r' (nth_error_In _ _ Hr')). reflexivity.
  Qed.

  (** what the model may be evaluated on: the data itself, the data with one included column
      shuffled, or with two included columns shuffled jointly *)
  Definition legal_request (X : frame C) (fs : list string) (rs : list (list C)) : Prop :=
    rs = f_rows X
    \/ exists p, Permutation p (seq 0 (length (f_rows X)))
       /\ ((exists f k, In f fs /\ nth_error (f_cols X) k = Some f /\ shuffled_columns (f_rows X) rs [k] p)
           \/ exists f f' k k', In (f, f') (combinations2 fs) /\ nth_error (f_cols X) k = Some f /\ nth_error (f_cols X) k' = Some f'
                /\ shuffled_columns (f_rows X) rs [k; k'] p).

  Lemma allowed_legal X fs rs : wf_frame X -> allowed X fs rs -> legal_request X fs rs.
  Proof.
    intros HX [->|(sel & p & Hp & -> & f & k & H)]; [left; reflexivity|right]. exists p. split; [exact Hp|].
    destruct H as [(-> & Hf & Hk)|(f' & k' & -> & Hf & Hk & Hk')]; [left; exists f, k|right; exists f, f', k, k'];
      repeat (split; [assumption|]); apply (rearranged_cells _ _ _ _ (X_width X HX) Hp).
  Qed.

  (** every request of every run, whatever the model does and however the run ends; the data
      and target kept on the object are the sampled ones *)
  Theorem C26_only_selected_columns (m : metric V) e s (a : sargs C V) s' out log Xs ys g1 :
    wf_frame (sa_X a) -> NoDup (included a) ->
    sample_both R (sj_rng s) (sa_X a) (sa_y a) (sa_n a) = Ok (Xs, ys, g1) -> sj_fit N R srt m e s a = (s', out, log) ->
    Forall (legal_request Xs (included a)) log /\ sj_X s' = Some Xs /\ sj_y s' = Some ys.
  Proof.
    intros HX Hnd Hs H. destruct (sample_both_frame R HR _ _ _ _ _ _ _ HX Hs) as (_ & HXs & _).
    assert (Hc : forall l, Forall (allowed Xs (included a)) l -> Forall (legal_request Xs (included a)) l).
    { intros l. apply Forall_impl. intros rs. apply allowed_legal, HXs. }
    unfold sj_fit in H. rewrite Hs in H. fold (included a) in H. cbv zeta in H.
    pose proof (hoare_ovo N R HR srt (md_predict (sa_model a)) Xs HXs m ys (included a) (sa_repeat a) Hnd {| p_log := []; p_rng := g1 |} (Forall_nil _)) as [Ho _].
    destruct (perf_based_ovo _ _ _ _ _ _ _ _ _ _) as [s1 [t|er]] eqn:E1; cbn [fst] in Ho.
    2: { pose proof (f_equal snd H) as H1. pose proof (f_equal (fun x => fst (fst x)) H) as H2. cbn [fst snd] in *. subst. auto. }
    pose proof (hoare_importance N R HR srt (md_predict (sa_model a)) Xs HXs m ys (included a) (sa_repeat a) {| p_log := p_log s1; p_rng := e |} Ho) as [Hi _].
    destruct (permutation_importance _ _ _ _ _ _ _ _ _ _) as [s2 [fi|er]] eqn:E2; cbn [fst] in Hi;
      pose proof (f_equal snd H) as H1; pose proof (f_equal (fun x => fst (fst x)) H) as H2; cbn [fst snd] in *; subst; auto.
  Qed.

  (** the same for PermutationImportance.importance on its own *)
  Theorem C26_importance_requests (m : metric V) pf (X : frame C) y n fs g0 s' out :
    wf_frame X -> permutation_importance N R srt pf m X y n (Some fs) {| p_log := []; p_rng := g0 |} = (s', out) ->
    Forall (legal_request X fs) (p_log s').
  Proof.
    intros HX H. pose proof (hoare_importance N R HR srt pf X HX m y fs n {| p_log := []; p_rng := g0 |} (Forall_nil _)) as [Hi _].
    rewrite H in Hi. cbn [fst] in Hi. eapply Forall_impl; [|exact Hi]. intros rs. apply allowed_legal, HX.
  Qed.

  (** ** C25: the run succeeds *)
  Theorem C25_fit_returns (m : metric V) e s (a : sargs C V) Xs ys g1 P g :
    wf_frame (sa_X a) -> NoDup (included a) -> included a <> [] -> (forall f, In f (included a) -> In f (f_cols (sa_X a))) ->
    sample_both R (sj_rng s) (sa_X a) (sa_y a) (sa_n a) = Ok (Xs, ys, g1) ->
    md_predict (sa_model a) = Some P -> rowwise P g -> total P ->
    (forall rs, length rs = length (f_rows Xs) -> exists u, mt_calc m ys (map g rs) = Ok u) ->
    exists s' log, sj_fit N R srt m e s a = (s', Ok tt, log).
  Proof.
    intros HX Hnd Hne Hin Hs HPf HP HT Hm. destruct (sample_both_frame R HR _ _ _ _ _ _ _ HX Hs) as (_ & HXs & Hcols).
    unfold sj_fit. rewrite Hs, HPf. fold (included a). cbv zeta. rewrite <- Hcols in Hin.
    destruct (succ_ovo N R HR srt P g HP HT Xs HXs m ys Hm (combinations2 (included a)) (sa_repeat a)) with (s := {| p_log := @nil (list (list C)); p_rng := g1 |}) as (s1 & t & E1 & _).
    { intros [f1 f2] Hpr. pose proof (combinations2_In _ _ Hpr) as []. pose proof (combinations2_irrefl _ _ _ Hnd Hpr). cbn [fst snd] in *. auto. }
    rewrite E1.
    destruct (succ_importance N R HR srt P g HP HT Xs HXs m ys Hm (included a) (sa_repeat a) Hne Hin) with (s := {| p_log := p_log s1; p_rng := e |}) as (s2 & fi & E2 & _).
    rewrite E2. eauto.
  Qed.

  (** ** C29: the interactions do not depend on the state of the unseeded generator *)
  Theorem C29_interactions_reproducible_partial (m : metric V) e1 e2 seed (a : sargs C V) s1 o1 l1 s2 o2 l2 :
    sj_fit N R srt m e1 (sj_init (r_seed R seed)) a = (s1, o1, l1) -> sj_fit N R srt m e2 (sj_init (r_seed R seed)) a = (s2, o2, l2) ->
    sj_ovo s1 = sj_ovo s2 /\ sj_X s1 = sj_X s2 /\ sj_y s1 = sj_y s2 /\ sj_pairs s1 = sj_pairs s2 /\ sj_rng s1 = sj_rng s2.
  Proof.
    unfold sj_fit. destruct (sample_both _ _ _ _ _) as [[[Xs ys] g1]|er].
    - cbv zeta. destruct (perf_based_ovo _ _ _ _ _ _ _ _ _ _) as [q [t|er]].
      + destruct (permutation_importance _ _ _ _ _ _ _ _ _ {| p_log := p_log q; p_rng := e1 |}) as [q1 [fi1|er1]],
                 (permutation_importance _ _ _ _ _ _ _ _ _ {| p_log := p_log q; p_rng := e2 |}) as [q2 [fi2|er2]];
        intros H1 H2; pose proof (f_equal (fun x => fst (fst x)) H1) as E1; pose proof (f_equal (fun x => fst (fst x)) H2) as E2;
        cbn [fst] in *; subst; cbn; auto.
      + intros H1 H2. pose proof (f_equal (fun x => fst (fst x)) H1) as E1; pose proof (f_equal (fun x => fst (fst x)) H2) as E2; cbn [fst] in *; subst; cbn; auto.
    - intros H1 H2. pose proof (f_equal (fun x => fst (fst x)) H1) as E1; pose proof (f_equal (fun x => fst (fst x)) H2) as E2; cbn [fst] in *; subst; cbn; auto.
  Qed.

  (** ** C30 *)
  (** labels that are the positions: the default index with an array target; or a Series target
      carrying the same distinct labels as the data *)
  Definition target_matches (X : frame C) (y : target V) : Prop :=
    length (t_vals y) = length (f_rows X)
    /\ (t_series y = false /\ f_index X = map Z.of_nat (seq 0 (length (f_rows X)))
        \/ t_series y = true /\ t_index y = f_index X /\ NoDup (f_index X)).

  Lemma picks_map {A B} (h : A -> B) l ps : picks (map h l) ps = map h (picks l ps).
  Proof.
    unfold picks. induction ps as [|i t IH]; cbn; [reflexivity|]. rewrite map_app, IH, nth_error_map. f_equal. destruct (nth_error l i); reflexivity.
  Qed.

  Lemma np_take_positions (vals : list V) ps : (forall i, In i ps -> i < length vals) -> np_take vals (map Z.of_nat ps) = Ok (picks vals ps).
  Proof.
    intros H. unfold np_take. induction ps as [|i t IH]; [reflexivity|]. cbn [map mapM].
    assert (Hi : i < length vals) by (apply H; left; reflexivity).
    replace ((- Z.of_nat (length vals) <=? Z.of_nat i)%Z && (Z.of_nat i <? Z.of_nat (length vals))%Z) with true
      by (symmetry; apply andb_true_iff; split; [apply Z.leb_le|apply Z.ltb_lt]; lia).
    replace (Z.of_nat i <? 0)%Z with false by (symmetry; apply Z.ltb_ge; lia). rewrite Nat2Z.id.
    destruct (nth_error vals i) as [v|] eqn:E; [|apply nth_error_None in E; lia].
    unfold get_nth at 1. rewrite E. cbn [bind]. rewrite IH by (intros; apply H; right; assumption). cbn [bind]. unfold picks at 2. cbn [flat_map]. rewrite E. reflexivity.
  Qed.

  Lemma filter_label (idx : list Z) (vals : list V) i z v : NoDup idx -> length idx = length vals ->
    nth_error idx i = Some z -> nth_error vals i = Some v -> filter (fun e => Z.eqb (fst e) z) (combine idx vals) = [(z, v)].
  Proof.
    revert vals i; induction idx as [|x idx IH]; intros [|u vals] [|i] Hnd Hl Hz Hv; cbn in *; try discriminate; inversion Hnd; subst.
    - injection Hz as ->. injection Hv as ->. rewrite Z.eqb_refl. f_equal.
      assert (forall (l : list Z) (vs : list V), ~ In z l -> filter (fun e => Z.eqb (fst e) z) (combine l vs) = []) as Hno; [|apply Hno; assumption].
      clear. induction l as [|a l IH]; intros [|b vs] Hn; cbn; auto. destruct (Z.eqb_spec a z); [subst; destruct Hn; left; reflexivity|]. apply IH. intros Hi; apply Hn; right; exact Hi.
    - destruct (Z.eqb_spec x z); [subst; destruct H1; eapply nth_error_In, Hz|]. eapply IH; eauto.
  Qed.

  Lemma series_take_labels (idx : list Z) (vals : list V) ps : NoDup idx -> length idx = length vals -> (forall i, In i ps -> i < length vals) ->
    exists l, series_take idx vals (picks idx ps) = Ok l /\ map snd l = picks vals ps /\ map fst l = picks idx ps.
  Proof.
    intros Hnd Hl H. unfold series_take.
    assert (Hm : exists ls, mapM (fun z => match filter (fun e => Z.eqb (fst e) z) (combine idx vals) with [] => Err KeyError | l => Ok l end) (picks idx ps) = Ok ls
                 /\ map snd (concat ls) = picks vals ps /\ map fst (concat ls) = picks idx ps).
    { induction ps as [|i t IH]; [exists []; repeat split; reflexivity|].
      destruct IH as (ls & E & Hs & Hf); [intros; apply H; right; assumption|].
      assert (Hi : i < length vals) by (apply H; left; reflexivity).
      destruct (nth_error vals i) as [v|] eqn:Ev; [|apply nth_error_None in Ev; lia].
      destruct (nth_error idx i) as [z|] eqn:Ez; [|apply nth_error_None in Ez; lia].
      unfold picks. cbn [flat_map]. rewrite Ev, Ez. cbn [app mapM].
      rewrite (filter_label idx vals i z v Hnd Hl Ez Ev). cbn [bind]. fold (picks idx t). rewrite E. cbn [bind].
      exists ([(z, v)] :: ls). split; [reflexivity|]. cbn [concat app map fst snd]. split; f_equal; assumption. }
    destruct Hm as (ls & -> & Hs & Hf). cbn [bind]. eauto.
  Qed.

  (** for data whose labels identify the target entries, sampling succeeds for every n up to the
      number of rows and pairs each sampled row with its own target *)
  Theorem C30_rows_keep_targets_partial g0 (X : frame C) (y : target V) n : wf_frame X -> target_matches X y -> n <= length (f_rows X) ->
    exists Xs ys g1 ps, sample_both R g0 X y (Some n) = Ok (Xs, ys, g1)
      /\ length ps = n /\ NoDup ps /\ (forall i, In i ps -> i < length (f_rows X))
      /\ f_cols Xs = f_cols X /\ t_series ys = t_series y /\ (t_series y = true -> t_index ys = f_index Xs)
      /\ forall j i, nth_error ps j = Some i -> nth_error (f_rows Xs) j = nth_error (f_rows X) i /\ nth_error (t_vals ys) j = nth_error (t_vals y) i.
  Proof.
    intros HX [Hl Hy] Hn. pose proof (rk_sample R HR g0 _ _ Hn) as Hs. cbv zeta in Hs.
    unfold sample_both. cbn [sample_if_not_none]. apply Nat.leb_le in Hn as Hnb. rewrite Hnb.
    destruct (r_sample R g0 (length (f_rows X)) n) as [ps g1]. cbn [fst] in Hs. destruct Hs as (H1 & H2 & H3). cbn [bind frame_take f_index].
    assert (Hp : forall i, In i ps -> i < length (t_vals y)) by (rewrite Hl; exact H3).
    destruct Hy as [(-> & Hi)|(-> & Hi & Hnd)].
    - rewrite Hi, picks_map. replace (picks (seq 0 (length (f_rows X))) ps) with ps.
      2: { clear - H3. induction ps as [|i t IH]; [reflexivity|]. unfold picks. cbn [flat_map].
           assert (i < length (f_rows X)) by (apply H3; left; reflexivity).
           rewrite (nth_error_nth' _ 0), seq_nth by (rewrite ?seq_length; assumption). cbn [app]. f_equal. apply IH. intros; apply H3; right; assumption. }
      rewrite np_take_positions by exact Hp. cbn [bind]. do 4 eexists. split; [reflexivity|]. repeat (split; [eassumption|]).
      cbn [t_vals t_series t_index f_rows f_cols frame_take]. split; [reflexivity|]. split; [reflexivity|]. split; [discriminate|]. intros j i Hj. split; apply picks_nth; assumption.
    - rewrite Hi. destruct (series_take_labels (f_index X) (t_vals y) ps Hnd) as (l & E & Hm & Hf); [destruct HX as (_ & _ & ->); auto|exact Hp|].
      rewrite E. cbn [bind]. do 4 eexists. split; [reflexivity|]. repeat (split; [eassumption|]).
      cbn [t_vals t_series t_index f_rows f_cols f_index frame_take]. split; [reflexivity|]. split; [reflexivity|]. split; [intros _; exact Hf|]. intros j i Hj. rewrite Hm. split; apply picks_nth; assumption.
  Qed.

  (** the rows are always distinct rows of X, and more than there are cannot be drawn *)
  Theorem C30_distinct_rows g0 (X : frame C) (y : target V) n Xs ys g1 : sample_both R g0 X y (Some n) = Ok (Xs, ys, g1) ->
    exists ps, length ps = n /\ NoDup ps /\ (forall i, In i ps -> i < length (f_rows X))
      /\ length (f_rows Xs) = n /\ forall j i, nth_error ps j = Some i -> nth_error (f_rows Xs) j = nth_error (f_rows X) i.
  Proof.
    unfold sample_both. cbn [sample_if_not_none]. destruct (Nat.leb_spec n (length (f_rows X))) as [Hn|]; [|discriminate].
    pose proof (rk_sample R HR g0 _ _ Hn) as Hs. cbv zeta in Hs. destruct (r_sample R g0 (length (f_rows X)) n) as [ps g']. cbn [fst] in Hs.
    destruct Hs as (H1 & H2 & H3). cbn [bind]. intros H.
    assert (Xs = frame_take X ps).
    { destruct (t_series y); [destruct (series_take _ _ _)|destruct (np_take _ _)]; cbn [bind] in H; congruence. }
    subst Xs. exists ps. cbn [f_rows frame_take]. destruct (picks_nth (f_rows X) ps H3) as [A B]. repeat split; auto. congruence.
  Qed.
  Theorem C30_too_many g0 (X : frame C) (y : target V) n : length (f_rows X) < n -> sample_both R g0 X y (Some n) = Err ValueError.
  Proof. intros H. unfold sample_both. cbn [sample_if_not_none]. destruct (Nat.leb_spec n (length (f_rows X))); [lia|]. reflexivity. Qed.
  Theorem C30_all_rows g0 (X : frame C) (y : target V) : sample_both R g0 X y None = Ok (X, y, g0).
  Proof. reflexivity. Qed.

  (** ** C32: without features the call fails, whatever the model and the data *)
  Theorem C32_default_features_refuted (m : metric V) pf (X : frame C) (y : target V) n s :
    exists s' e, permutation_importance N R srt pf m X y n None s = (s', Err e).
  Proof.
    unfold permutation_importance, andthen. destruct (score pf m y (f_rows X) s) as [s1 [b|e]]; unfold raise; eauto.
  Qed.
End General.

(** ** C33: the metrics *)
Section Metrics.
  (** textbook forms *)
  Definition Rmse (ys zs : list R) : R := Rmean (map (fun p => Rsqr (snd p - fst p)) (combine ys zs)).
  Definition hits (ys zs : list R) : nat := length (filter (fun p => if Req_EM_T (fst p) (snd p) then true else false) (combine ys zs)).
  Definition Raccuracy (ys zs : list R) : R := (INR (hits ys zs) / INR (length ys))%R.
  Definition fin_target (series : bool) (idx : list Z) (ys : list R) : target (ext R) := {| t_series := series; t_index := idx; t_vals := map Fin ys |}.

  Lemma combine_eq {A} (ys zs : list A) : length ys = length zs -> (forall p, In p (combine ys zs) -> fst p = snd p) <-> (length ys = length zs -> ys = zs).
  Proof.
    intros Hl. split.
    - intros H _. revert zs Hl H; induction ys as [|a ys IH]; intros [|b zs] Hl H; cbn in *; try lia; [reflexivity|].
      pose proof (H (a, b) (or_introl eq_refl)) as E; cbn in E. subst. f_equal. apply IH; [lia|]. intros p Hp; apply H; right; exact Hp.
    - intros H p Hp. rewrite <- (H Hl) in Hp. clear - Hp. induction ys as [|a ys IH]; cbn in Hp; [destruct Hp|]. destruct Hp as [<-|Hp]; [reflexivity|auto].
  Qed.

  Lemma mean_like_fin b (l : list R) : l <> [] -> mean_like xR b (map Fin l) = Fin (Rmean l).
  Proof.
    intros Hl. unfold mean_like. replace (if b then filter (fun x => negb (n_isnan xR x)) (map Fin l) else map Fin l) with (map (@Fin R) l).
    - apply xR_mean_fin, Hl.
    - destruct b; [|reflexivity]. clear. induction l as [|x t IH]; cbn; [reflexivity|]. f_equal. exact IH.
  Qed.

  Lemma combine_nonempty {A B} (a : list A) (b : list B) : a <> [] -> length a = length b -> combine a b <> [].
  Proof. destruct a, b; cbn; congruence. Qed.

  Lemma mse_fin b idx ys zs : ys <> [] -> length ys = length zs -> mse_calc xR (fin_target b idx ys) (map Fin zs) = Ok (Fin (Rmse ys zs)).
  Proof.
    intros Hne Hl. unfold mse_calc, fin_target. cbn [t_vals t_series]. rewrite !map_length, Hl, Nat.eqb_refl. f_equal.
    rewrite xR_vsub_fin, xR_sqr_fin, mean_like_fin.
    - f_equal. unfold Rmse. rewrite map_map. f_equal. clear. revert zs; induction ys as [|a ys IH]; intros [|z zs]; cbn; try reflexivity. f_equal. apply IH.
    - intros E. apply map_eq_nil, map_eq_nil in E. revert E. apply combine_nonempty; [|congruence]. destruct zs; [|congruence]. destruct ys; [congruence|discriminate].
  Qed.

  Lemma Rmse_nonneg ys zs : (0 <= Rmse ys zs)%R.
  Proof. apply Rmean_nonneg. intros x Hx. apply in_map_iff in Hx as (p & <- & _). apply Rle_0_sqr. Qed.

  Theorem C33_mse b idx ys zs : ys <> [] -> length ys = length zs ->
    mt_calc (MSE xR) (fin_target b idx ys) (map Fin zs) = Ok (Fin (Rmse ys zs))
    /\ (0 <= Rmse ys zs)%R /\ (Rmse ys zs = 0%R <-> ys = zs).
  Proof.
    intros Hne Hl. split; [apply mse_fin; assumption|]. split; [apply Rmse_nonneg|]. split.
    - intros H. apply combine_eq; auto. intros p Hp. unfold Rmse, Rmean in H.
      assert (Hlen : (0 < INR (length (map (fun p : R * R => Rsqr (snd p - fst p)) (combine ys zs))))%R).
      { apply INR_pos_length. intros E. apply map_eq_nil in E. revert E. apply combine_nonempty; assumption. }
      assert (Hs : Rsum (map (fun p => Rsqr (snd p - fst p)) (combine ys zs)) = 0%R).
      { apply (f_equal (fun x => x * INR (length (map (fun p : R * R => Rsqr (snd p - fst p)) (combine ys zs))))%R) in H.
        unfold Rdiv in H. rewrite Rmult_assoc, Rinv_l, Rmult_1_r, Rmult_0_l in H by lra. exact H. }
      rewrite <- (map_map (fun p : R * R => (snd p - fst p)%R) Rsqr) in Hs.
      pose proof (Rsum_sqr_zero _ Hs (snd p - fst p)%R (in_map (fun p : R * R => (snd p - fst p)%R) _ _ Hp)). lra.
    - intros <-. unfold Rmse. rewrite (Rmean_map_ext _ (fun _ => 0%R)).
      + apply Rmean_map_const. apply combine_nonempty; auto.
      + intros p Hp. assert (fst p = snd p) as ->; [|rewrite Rminus_diag_eq by reflexivity; apply Rsqr_0].
        clear - Hp. induction ys as [|a ys IH]; cbn in Hp; [destruct Hp|]. destruct Hp as [<-|Hp]; [reflexivity|auto].
  Qed.

  Theorem C33_rmse b idx ys zs : ys <> [] -> length ys = length zs ->
    mt_calc (RMSE xR) (fin_target b idx ys) (map Fin zs) = Ok (Fin (sqrt (Rmse ys zs)))
    /\ (0 <= sqrt (Rmse ys zs))%R /\ (sqrt (Rmse ys zs) = 0%R <-> ys = zs).
  Proof.
    intros Hne Hl. destruct (C33_mse b idx ys zs Hne Hl) as (H1 & H2 & H3). split; [|split].
    - cbn [RMSE mt_calc]. cbn [MSE mt_calc] in H1. rewrite H1. cbn [bind]. rewrite xR_sqrt_fin by exact H2. reflexivity.
    - apply sqrt_pos.
    - rewrite <- H3. split; [apply sqrt_eq_0; exact H2|intros ->; apply sqrt_0].
  Qed.

  Lemma accuracy_fin b idx ys zs : ys <> [] -> length ys = length zs ->
    mt_calc (Accuracy xR) (fin_target b idx ys) (map Fin zs) = Ok (Fin (Raccuracy ys zs)).
  Proof.
    intros Hne Hl. cbn [Accuracy mt_calc]. unfold accuracy_calc, fin_target. cbn [t_vals]. rewrite !map_length, Hl, Nat.eqb_refl. f_equal.
    assert (E : map (fun p => n_ofZ xR (if n_eqb xR (fst p) (snd p) then 1 else 0)) (combine (map Fin ys) (map Fin zs))
                = map Fin (map (fun p => if Req_EM_T (fst p) (snd p) then 1%R else 0%R) (combine ys zs))).
    { clear. revert zs; induction ys as [|a ys IH]; intros [|z zs]; cbn [map combine]; try reflexivity. f_equal; [|apply IH].
      cbn [fst snd]. destruct (Req_EM_T a z) as [->|Hne].
      - replace (n_eqb xR (Fin z) (Fin z)) with true; [reflexivity|]. cbn. unfold x_eqb, f_eqb. cbn. replace (Rltb z z) with false; [reflexivity|]. symmetry. apply Rltb_false. lra.
      - replace (n_eqb xR (Fin a) (Fin z)) with false; [reflexivity|]. cbn. unfold x_eqb, f_eqb. cbn. symmetry. apply andb_false_iff.
        destruct (Rlt_dec a z); [left; apply negb_false_iff, Rltb_spec; assumption|right; apply negb_false_iff, Rltb_spec; lra]. }
    rewrite E, xR_mean_fin by (intros E'; apply map_eq_nil in E'; revert E'; apply combine_nonempty; assumption).
    f_equal. unfold Rmean, Raccuracy. f_equal.
    - unfold hits. clear. induction (combine ys zs) as [|p l IH]; cbn [map filter]; [rewrite Rsum_nil; reflexivity|]. rewrite Rsum_cons, IH.
      destruct (Req_EM_T (fst p) (snd p)); cbn [length]; [rewrite S_INR|]; lra.
    - rewrite map_length, combine_length, Hl, Nat.min_id. reflexivity.
  Qed.

  Lemma filter_length_all {A} (p : A -> bool) l : length (filter p l) <= length l /\ (length (filter p l) = length l <-> forall x, In x l -> p x = true).
  Proof.
    induction l as [|a t [IH1 IH2]]; cbn; [intuition|]. destruct (p a) eqn:E; cbn; split; try lia.
    - split; [intros H x [<-|Hx]; [exact E|apply IH2; [lia|exact Hx]]|intros H; f_equal; apply IH2; auto].
    - split; [lia|]. intros H. specialize (H a (or_introl eq_refl)). congruence.
  Qed.

  Theorem C33_accuracy b idx ys zs : ys <> [] -> length ys = length zs ->
    mt_calc (Accuracy xR) (fin_target b idx ys) (map Fin zs) = Ok (Fin (Raccuracy ys zs))
    /\ (0 <= Raccuracy ys zs <= 1)%R /\ (Raccuracy ys zs = 1%R <-> ys = zs).
  Proof.
    intros Hne Hl. split; [apply accuracy_fin; assumption|].
    pose proof (INR_pos_length ys Hne) as Hpos.
    destruct (filter_length_all (fun p : R * R => if Req_EM_T (fst p) (snd p) then true else false) (combine ys zs)) as [Hle Heq].
    rewrite combine_length, Hl, Nat.min_id, <- Hl in Hle, Heq. fold (hits ys zs) in *. unfold Raccuracy. split.
    - split; [apply Rmult_le_pos; [apply pos_INR|apply Rlt_le, Rinv_0_lt_compat, Hpos]|].
      apply (Rmult_le_reg_r (INR (length ys))); [exact Hpos|]. unfold Rdiv. rewrite Rmult_assoc, Rinv_l, Rmult_1_r, Rmult_1_l by lra. apply le_INR, Hle.
    - split.
      + intros H. apply combine_eq; auto. intros p Hp. assert (Hh : hits ys zs = length ys).
        { apply INR_eq. apply (f_equal (fun x => x * INR (length ys))%R) in H. unfold Rdiv in H. rewrite Rmult_assoc, Rinv_l, Rmult_1_r in H by lra. lra. }
        pose proof (proj1 Heq Hh p Hp) as E. cbn beta in E. destruct (Req_EM_T (fst p) (snd p)); [assumption|discriminate].
      + intros E. assert (Hh : hits ys zs = length ys).
        { apply Heq. intros p Hp. pose proof (proj2 (combine_eq ys zs Hl) (fun _ => E) p Hp) as E'. cbn beta. destruct (Req_EM_T (fst p) (snd p)); [reflexivity|contradiction]. }
        rewrite Hh. apply Rinv_r. lra.
  Qed.

  Theorem C33_applicability : (applicable_to (RMSE xR) Regression = true /\ applicable_to (RMSE xR) Classification = false)
    /\ (applicable_to (MSE xR) Regression = true /\ applicable_to (MSE xR) Classification = false)
    /\ (applicable_to (Accuracy xR) Regression = false /\ applicable_to (Accuracy xR) Classification = true).
  Proof. repeat split. Qed.
End Metrics.

Example C33_example : mt_calc (MSE xQ) {| t_series := false; t_index := []; t_vals := [Fin (1#1); Fin (2#1)] |} [Fin (2#1); Fin (4#1)]%Q = Ok (Fin (5#2))
  /\ mt_calc (Accuracy xQ) {| t_series := true; t_index := [4; 7]%Z; t_vals := [Fin (1#1); Fin (2#1)] |} [Fin (1#1); Fin (0#1)]%Q = Ok (Fin (1#2))
  /\ mt_calc (RMSE xQ) {| t_series := false; t_index := []; t_vals := [Fin (1#1); Fin (1#1)] |} [Fin (3#1); Fin (3#1)]%Q = Ok (Fin (2#1)).
Proof. vm_compute. repeat split. Qed.

(** ** Values over the reals *)
Section Values.
  Context {C G : Type} (RG : rng_ops G) (HR : rng_ok RG) (srt : sorter) (Hsrt : sorter_ok srt).
  Context (m : metric (ext R)).

  (** [S rs] is the score of the model [g] on the rows [rs], for data of the size of [X] *)
  Definition scores_as (X : frame C) (ys : target (ext R)) (g : list C -> ext R) (S : list (list C) -> R) : Prop :=
    forall rs, length rs = length (f_rows X) -> mt_calc m ys (map g rs) = Ok (Fin (S rs)).

  Section OneData.
    Context (X : frame C) (HX : wf_frame X) (ys : target (ext R)) (g : list C -> ext R) (S : list (list C) -> R) (HS : scores_as X ys g S).
    Notation rows := (f_rows X).
    Notation len := (length (f_rows X)).

    (** the contrast of the scores of one repetition, which uses the draws c, c+1 and c+2 *)
    Definition contrast (g0 : G) (k1 k2 c : nat) : R :=
      (S (rearranged rows [k1; k2] (nth_perm RG len g0 (c + 2))) - S (rearranged rows [k1] (nth_perm RG len g0 c))
       - S (rearranged rows [k2] (nth_perm RG len g0 (c + 1))) + S rows)%R.
    (** the documented value: the mean absolute contrast over the repetitions *)
    Definition oh_value (g0 : G) (k1 k2 n c : nat) : R := Rmean (map (fun j => Rabs (contrast g0 k1 k2 (c + 3 * j))) (seq 0 n)).

    Lemma scored_fin sel g0 i u : scored g m ys (rearranged rows sel (nth_perm RG len g0 i)) u -> u = Fin (S (rearranged rows sel (nth_perm RG len g0 i))).
    Proof. unfold scored. rewrite HS by apply rearranged_length, nth_perm_ok, HR. congruence. Qed.

    Lemma repetition_fin g0 k1 k2 c v : repetition xR RG g X m ys g0 k1 k2 (Fin (S rows)) c v -> n_abs xR v = Fin (Rabs (contrast g0 k1 k2 c)).
    Proof.
      intros (u1 & u2 & u12 & H1 & H2 & H12 & ->). apply scored_fin in H1. apply scored_fin in H2. apply scored_fin in H12. subst.
      unfold contrast. replace (c + 2) with (Datatypes.S (Datatypes.S c)) by lia. replace (c + 1) with (Datatypes.S c) by lia.
      unfold neg_if_class. destruct (applicable_to m Classification); cbn [n_neg n_sub xR ext_ops x_neg x_sub f_neg f_sub baseR].
      - rewrite xR_abs_fin. do 2 f_equal. lra.
      - rewrite xR_abs_fin. do 2 f_equal. lra.
    Qed.

    Lemma pair_row_fin g0 n c pr row : 0 < n -> pair_row xR RG g X m ys g0 n (Fin (S rows)) c pr row ->
      exists k1 k2, nth_error (f_cols X) k1 = Some (fst pr) /\ nth_error (f_cols X) k2 = Some (snd pr)
        /\ row = (fst pr, snd pr, Fin (oh_value g0 k1 k2 n c)).
    Proof.
      intros Hn (k1 & k2 & vs & H1 & H2 & Hl & Hv & ->). exists k1, k2. split; [exact H1|]. split; [exact H2|]. f_equal.
      unfold oh_value. assert (E : vs = map Fin (map (fun j => Rabs (contrast g0 k1 k2 (c + 3 * j))) (seq 0 n))).
      { apply nth_error_eq; [rewrite !map_length, seq_length; exact Hl|]. intros j Hj. rewrite Hl in Hj. destruct (Hv j Hj) as (v & Hr & E). rewrite E.
        rewrite !nth_error_map, (nth_error_nth' _ 0) by (rewrite seq_length; exact Hj). rewrite seq_nth by exact Hj. cbn [option_map].
        f_equal. rewrite (repetition_fin g0 k1 k2 _ _ Hr). replace (c + 3 * (0 + j)) with (3 * j + c) by lia. reflexivity. }
      rewrite E. apply xR_mean_fin. intros E'. apply map_eq_nil in E'. destruct n; [lia|discriminate].
    Qed.
  End OneData.

  Lemma oh_value_nonneg (X : frame C) S g0 k1 k2 n c : (0 <= oh_value X S g0 k1 k2 n c)%R.
  Proof. apply Rmean_nonneg. intros x Hx. apply in_map_iff in Hx as (j & <- & _). apply Rabs_pos. Qed.

  Lemma shuffles_nonempty fs n f : 0 < n -> In f fs -> exists i, In i (shuffles fs n f).
  Proof.
    intros Hn Hf. apply In_nth with (d := EmptyString) in Hf as (i & Hi & E). exists i. unfold shuffles. rewrite filter_In. split.
    - apply in_seq. split; [lia|]. cbn. nia.
    - rewrite Nat.mod_small by exact Hi. rewrite E. apply String.eqb_refl.
  Qed.

  (** a successful fit has included only columns of the data *)
  Lemma fit_features_known e s (a : sargs C (ext R)) s' log Xs ys g1 P g : wf_frame (sa_X a) -> 0 < sa_repeat a ->
    sample_both RG (sj_rng s) (sa_X a) (sa_y a) (sa_n a) = Ok (Xs, ys, g1) -> md_predict (sa_model a) = Some P -> rowwise P g ->
    sj_fit xR RG srt m e s a = (s', Ok tt, log) -> forall f, In f (included a) -> In f (f_cols Xs).
  Proof.
    intros HX Hn Hs HPf HP H f Hf. destruct (sample_both_frame RG HR _ _ _ _ _ _ _ HX Hs) as (_ & HXs & _).
    destruct (sj_fit_inv xR RG srt m e s a s' log Xs ys g1 Hs H) as (s1 & s2 & t & fi & _ & E2 & _). rewrite HPf in E2.
    destruct (importance_inv xR RG HR srt P g HP Xs HXs m ys (included a) (sa_repeat a) e {| p_log := p_log s1; p_rng := e |} s2 fi eq_refl E2) as (b & vf & _ & _ & Hk).
    destruct (shuffles_nonempty (included a) (sa_repeat a) f Hn Hf) as (i & Hi). destruct (Hk f i Hi) as (k & Hk' & _). eapply nth_error_In, Hk'.
  Qed.

  Definition descending {A} (value : A -> ext R) (l : list A) : Prop :=
    StronglySorted (fun a b => exists x y, value a = Fin x /\ value b = Fin y /\ (y <= x)%R) l.

  Lemma sort_desc_fin {A} (key value : A -> ext R) (l : list A) : (forall x, In x l -> exists r, value x = Fin r /\ key x = Fin r) ->
    Permutation (sort_values xR srt false key l) l /\ descending value (sort_values xR srt false key l).
  Proof.
    intros Hl. destruct (sort_values_ok xR srt false key l Hsrt xR_ord) as [Hp Hs]. split; [exact Hp|].
    eapply StronglySorted_impl; [|exact Hs]. intros a b Ha Hb Hle.
    destruct (Hl a (Permutation_in _ Hp Ha)) as (x & E1 & E2). destruct (Hl b (Permutation_in _ Hp Hb)) as (y & E3 & E4).
    exists x, y. repeat (split; [assumption|]). cbn beta in Hle. rewrite E2, E4 in Hle. cbn in Hle. apply negb_true_iff, Rltb_false in Hle. exact Hle.
  Qed.

  (** ** C25 *)
  Theorem C25_interaction_values e s (a : sargs C (ext R)) s' log Xs ys g1 P g S :
    wf_frame (sa_X a) -> NoDup (included a) -> 0 < sa_repeat a ->
    sample_both RG (sj_rng s) (sa_X a) (sa_y a) (sa_n a) = Ok (Xs, ys, g1) -> md_predict (sa_model a) = Some P -> rowwise P g -> scores_as Xs ys g S ->
    sj_fit xR RG srt m e s a = (s', Ok tt, log) ->
    exists t raw, sj_ovo s' = Some t /\ Permutation t raw
      (* one row per unordered pair, in the order of the pairs before sorting *)
      /\ map fst raw = combinations2 (included a)
      (* the value of the i-th pair *)
      /\ (forall i f1 f2 k1 k2, nth_error (combinations2 (included a)) i = Some (f1, f2) ->
            nth_error (f_cols Xs) k1 = Some f1 -> nth_error (f_cols Xs) k2 = Some f2 ->
            nth_error raw i = Some (f1, f2, Fin (oh_value Xs S g1 k1 k2 (sa_repeat a) (3 * sa_repeat a * i))))
      /\ (forall row, In row t -> exists x, snd row = Fin x /\ (0 <= x)%R)
      /\ descending (fun row => snd row) t.
  Proof.
    intros HX Hnd Hn Hs HPf HP HS H. pose proof (fit_features_known e s a s' log Xs ys g1 P g HX Hn Hs HPf HP H) as Hin.
    destruct (sample_both_frame RG HR _ _ _ _ _ _ _ HX Hs) as (_ & HXs & _).
    destruct (sj_fit_inv xR RG srt m e s a s' log Xs ys g1 Hs H) as (s1 & s2 & t & fi & E1 & _ & Ht & _). rewrite HPf in E1.
    destruct (ovo_inv xR RG HR srt P g HP Xs HXs m ys (combinations2 (included a)) (sa_repeat a) g1 {| p_log := []; p_rng := g1 |} s1 t) with (2 := @eq_refl G g1) (3 := E1) as (ref & raw & Href & -> & Hl & Hraw).
    { intros [f1 f2] Hpr. pose proof (combinations2_In _ _ Hpr) as []. pose proof (combinations2_irrefl _ _ _ Hnd Hpr). cbn [fst snd] in *. auto. }
    assert (ref = Fin (S (f_rows Xs))) by (unfold scored in Href; rewrite HS in Href by reflexivity; congruence). subst ref.
    assert (Hrow : forall i f1 f2, nth_error (combinations2 (included a)) i = Some (f1, f2) ->
              exists k1 k2, nth_error (f_cols Xs) k1 = Some f1 /\ nth_error (f_cols Xs) k2 = Some f2
                /\ nth_error raw i = Some (f1, f2, Fin (oh_value Xs S g1 k1 k2 (sa_repeat a) (3 * sa_repeat a * i)))).
    { intros i f1 f2 Hi. destruct (Hraw i (f1, f2) Hi) as (row & Hr & Hpr).
      destruct (pair_row_fin Xs ys g S HS g1 _ _ _ _ Hn Hpr) as (k1 & k2 & A & B & ->). exists k1, k2. auto. }
    assert (Hfin : forall row, In row raw -> exists x, snd row = Fin x /\ (0 <= x)%R).
    { intros row Hr. apply In_nth_error in Hr as (i & Hi). assert (Hli : i < length (combinations2 (included a))) by (rewrite <- Hl; apply nth_error_Some; congruence).
      destruct (nth_error (combinations2 (included a)) i) as [[f1 f2]|] eqn:E; [|apply nth_error_None in E; lia].
      destruct (Hrow i f1 f2 E) as (k1 & k2 & _ & _ & Hr). assert (row = (f1, f2, Fin (oh_value Xs S g1 k1 k2 (sa_repeat a) (3 * sa_repeat a * i)))) by congruence. subst row.
      cbn [snd]. eexists. split; [reflexivity|]. apply oh_value_nonneg. }
    destruct (sort_desc_fin (fun r : string * string * ext R => n_abs xR (snd r)) (fun r => snd r) raw) as [Hp Hd].
    { intros row Hr. destruct (Hfin row Hr) as (x & -> & Hx). exists x. split; [reflexivity|]. rewrite xR_abs_fin, Rabs_pos_eq by exact Hx. reflexivity. }
    exists (sort_values xR srt false (fun r => n_abs xR (snd r)) raw), raw. split; [exact Ht|]. split; [exact Hp|]. split; [|split; [|split]].
    - apply nth_error_eq; [rewrite map_length; exact Hl|]. intros i Hi. rewrite map_length, Hl in Hi.
      destruct (nth_error (combinations2 (included a)) i) as [[f1 f2]|] eqn:E; [|apply nth_error_None in E; lia].
      destruct (Hrow i f1 f2 E) as (k1 & k2 & _ & _ & Hr). rewrite nth_error_map, Hr. reflexivity.
    - intros i f1 f2 k1 k2 Hi Hk1 Hk2. destruct (Hrow i f1 f2 Hi) as (k1' & k2' & A & B & Hr).
      assert (k1' = k1) by (eapply (proj1 (NoDup_nth_error (f_cols Xs)) (proj1 HXs)); [apply nth_error_Some; congruence|congruence]).
      assert (k2' = k2) by (eapply (proj1 (NoDup_nth_error (f_cols Xs)) (proj1 HXs)); [apply nth_error_Some; congruence|congruence]).
      subst. exact Hr.
    - intros row Hr. apply Hfin, (Permutation_in _ Hp Hr).
    - exact Hd.
  Qed.

  (** the value of a pair found in the table *)
  Lemma ovo_row e s (a : sargs C (ext R)) s' log Xs ys g1 P g S t f1 f2 v k1 k2 :
    wf_frame (sa_X a) -> NoDup (included a) -> 0 < sa_repeat a ->
    sample_both RG (sj_rng s) (sa_X a) (sa_y a) (sa_n a) = Ok (Xs, ys, g1) -> md_predict (sa_model a) = Some P -> rowwise P g -> scores_as Xs ys g S ->
    sj_fit xR RG srt m e s a = (s', Ok tt, log) -> sj_ovo s' = Some t -> In (f1, f2, v) t ->
    nth_error (f_cols Xs) k1 = Some f1 -> nth_error (f_cols Xs) k2 = Some f2 ->
    exists c, v = Fin (oh_value Xs S g1 k1 k2 (sa_repeat a) c).
  Proof.
    intros HX Hnd Hn Hs HPf HP HS H Ht Hin H1 H2.
    destruct (C25_interaction_values e s a s' log Xs ys g1 P g S HX Hnd Hn Hs HPf HP HS H) as (t' & raw & Ht' & Hp & Hm & Hv & _).
    assert (t' = t) by congruence. subst t'. apply (Permutation_in _ Hp) in Hin. apply In_nth_error in Hin as (i & Hi).
    assert (Hc : nth_error (combinations2 (included a)) i = Some (f1, f2)) by (rewrite <- Hm, nth_error_map, Hi; reflexivity).
    rewrite (Hv i f1 f2 k1 k2 Hc H1 H2) in Hi. exists (3 * sa_repeat a * i). congruence.
  Qed.

  (** ** C27 *)
  (** the model's prediction does not depend on the column at position [k] *)
  Definition unaffected (w : nat) (g : list C -> ext R) (k : nat) : Prop := forall r v, length r = w -> g (with_value k v r) = g r.

  Lemma graft_app sel1 sel2 (r r' : list C) : graft (sel1 ++ sel2) r r' = graft sel2 (graft sel1 r r') r'.
  Proof. unfold graft. apply fold_left_app. Qed.

  Lemma graft_unaffected w g sel (r r' : list C) : length r = w -> length r' = w -> (forall k, In k sel -> unaffected w g k) -> g (graft sel r r') = g r.
  Proof.
    induction sel as [|k t IH] using rev_ind; intros Hr Hr' H; [reflexivity|]. rewrite graft_app.
    change (graft [k] (graft t r r') r') with (match nth_error r' k with Some v => with_value k v (graft t r r') | None => graft t r r' end). destruct (nth_error r' k) as [v|] eqn:E.
    - assert (Hk : unaffected w g k) by (apply H, in_or_app; right; left; reflexivity). rewrite Hk by (rewrite graft_length; congruence). apply IH; auto. intros; apply H, in_or_app; auto.
    - apply IH; auto. intros; apply H, in_or_app; auto.
  Qed.

  Lemma map_unaffected (rows : list (list C)) w g sel p : (forall r, In r rows -> length r = w) -> Permutation p (seq 0 (length rows)) ->
    (forall k, In k sel -> unaffected w g k) -> map g (rearranged rows sel p) = map g rows.
  Proof.
    intros Hw Hp Hu. apply nth_error_eq; [rewrite !map_length; apply rearranged_length, Hp|]. intros i Hi. rewrite map_length, rearranged_length in Hi by exact Hp.
    destruct (perm_nth_ex rows p i Hp Hi) as (r & k & r' & Hr & Hk & Hr').
    rewrite !nth_error_map, (rearranged_nth rows sel p i r k r' Hp Hr Hk Hr'), Hr. cbn [option_map]. f_equal.
    apply (graft_unaffected w); auto; eapply Hw, nth_error_In; eassumption.
  Qed.

  Lemma score_unaffected X ys g S sel p : wf_frame X -> scores_as X ys g S -> Permutation p (seq 0 (length (f_rows X))) ->
    (forall k, In k sel -> unaffected (length (f_cols X)) g k) -> S (rearranged (f_rows X) sel p) = S (f_rows X).
  Proof.
    intros HX HS Hp Hu. pose proof (HS _ (rearranged_length (f_rows X) sel p Hp)) as H1. pose proof (HS _ eq_refl) as H2.
    rewrite (map_unaffected _ _ _ _ _ (X_width X HX) Hp Hu) in H1. congruence.
  Qed.

  Theorem C27_irrelevant_pair_zero e s (a : sargs C (ext R)) s' log Xs ys g1 P g S t f1 f2 v k1 k2 :
    wf_frame (sa_X a) -> NoDup (included a) -> 0 < sa_repeat a ->
    sample_both RG (sj_rng s) (sa_X a) (sa_y a) (sa_n a) = Ok (Xs, ys, g1) -> md_predict (sa_model a) = Some P -> rowwise P g -> scores_as Xs ys g S ->
    sj_fit xR RG srt m e s a = (s', Ok tt, log) -> sj_ovo s' = Some t -> In (f1, f2, v) t ->
    nth_error (f_cols Xs) k1 = Some f1 -> nth_error (f_cols Xs) k2 = Some f2 ->
    unaffected (length (f_cols Xs)) g k1 -> unaffected (length (f_cols Xs)) g k2 -> v = Fin 0%R.
  Proof.
    intros HX Hnd Hn Hs HPf HP HS H Ht Hin H1 H2 U1 U2. destruct (sample_both_frame RG HR _ _ _ _ _ _ _ HX Hs) as (_ & HXs & _).
    destruct (ovo_row e s a s' log Xs ys g1 P g S t f1 f2 v k1 k2 HX Hnd Hn Hs HPf HP HS H Ht Hin H1 H2) as (c & ->). f_equal.
    unfold oh_value. rewrite (Rmean_map_ext _ (fun _ => 0%R)); [apply Rmean_map_const; destruct (sa_repeat a); [lia|discriminate]|].
    intros j _. unfold contrast. rewrite !(score_unaffected Xs ys g S); auto using nth_perm_ok; try (intros k [<-|[]]; assumption).
    - replace (S (f_rows Xs) - S (f_rows Xs) - S (f_rows Xs) + S (f_rows Xs))%R with 0%R by lra. apply Rabs_R0.
    - intros k [<-|[<-|[]]]; assumption.
  Qed.

  (** ** C28: with one irrelevant feature only two shuffles of the other one are compared.
      Missing: the value is not 0 in general (refuted below), because the two shuffles differ. *)
  Theorem C28_one_irrelevant_partial e s (a : sargs C (ext R)) s' log Xs ys g1 P g S t f1 f2 v k1 k2 :
    wf_frame (sa_X a) -> NoDup (included a) -> 0 < sa_repeat a ->
    sample_both RG (sj_rng s) (sa_X a) (sa_y a) (sa_n a) = Ok (Xs, ys, g1) -> md_predict (sa_model a) = Some P -> rowwise P g -> scores_as Xs ys g S ->
    sj_fit xR RG srt m e s a = (s', Ok tt, log) -> sj_ovo s' = Some t -> In (f1, f2, v) t ->
    nth_error (f_cols Xs) k1 = Some f1 -> nth_error (f_cols Xs) k2 = Some f2 -> unaffected (length (f_cols Xs)) g k2 ->
    exists c, v = Fin (Rmean (map (fun j => Rabs (S (rearranged (f_rows Xs) [k1] (nth_perm RG (length (f_rows Xs)) g1 (c + 3 * j + 2)))
                                                 - S (rearranged (f_rows Xs) [k1] (nth_perm RG (length (f_rows Xs)) g1 (c + 3 * j))))) (seq 0 (sa_repeat a)))).
  Proof.
    intros HX Hnd Hn Hs HPf HP HS H Ht Hin H1 H2 U2. destruct (sample_both_frame RG HR _ _ _ _ _ _ _ HX Hs) as (_ & HXs & _).
    destruct (ovo_row e s a s' log Xs ys g1 P g S t f1 f2 v k1 k2 HX Hnd Hn Hs HPf HP HS H Ht Hin H1 H2) as (c & ->). exists c. f_equal.
    apply Rmean_map_ext. intros j _. unfold contrast. f_equal.
    rewrite (score_unaffected Xs ys g S [k2]); auto using nth_perm_ok; [|intros k [<-|[]]; assumption].
    replace (S (rearranged (f_rows Xs) [k1; k2] (nth_perm RG (length (f_rows Xs)) g1 (c + 3 * j + 2))))
      with (S (rearranged (f_rows Xs) [k1] (nth_perm RG (length (f_rows Xs)) g1 (c + 3 * j + 2)))); [lra|].
    set (p := nth_perm RG (length (f_rows Xs)) g1 (c + 3 * j + 2)). assert (Hp : Permutation p (seq 0 (length (f_rows Xs)))) by apply nth_perm_ok, HR.
    pose proof (HS _ (rearranged_length (f_rows Xs) [k1] p Hp)) as E1. pose proof (HS _ (rearranged_length (f_rows Xs) [k1; k2] p Hp)) as E2.
    assert (E : map g (rearranged (f_rows Xs) [k1; k2] p) = map g (rearranged (f_rows Xs) [k1] p)); [|rewrite E in E2; congruence].
    apply nth_error_eq; [rewrite !map_length, !rearranged_length by exact Hp; reflexivity|]. intros i Hi. rewrite map_length, rearranged_length in Hi by exact Hp.
    destruct (perm_nth_ex _ p i Hp Hi) as (r & k & r' & Hr & Hk & Hr').
    rewrite !nth_error_map, !(rearranged_nth _ _ p i r k r' Hp Hr Hk Hr'). cbn [option_map]. f_equal.
    assert (Lr : length r = length (f_cols Xs)) by (eapply (X_width Xs HXs), nth_error_In, Hr). assert (Lr' : length r' = length (f_cols Xs)) by (eapply (X_width Xs HXs), nth_error_In, Hr').
    change [k1; k2] with ([k1] ++ [k2]). rewrite graft_app. apply (graft_unaffected (length (f_cols Xs))); auto; [rewrite graft_length; congruence|].
    intros k0 [<-|[]]; assumption.
  Qed.

  (** ** C31 *)
  (** each feature is shuffled [n] times when the features are distinct *)
  Lemma shuffles_length fs n f : length (shuffles fs n f) = n * length (filter (String.eqb f) fs).
  Proof.
    unfold shuffles. induction n as [|n IH]; [reflexivity|].
    replace (Datatypes.S n * length fs) with (n * length fs + length fs) by lia.
    rewrite seq_app, filter_app, app_length, IH. cbn [plus].
    replace (length (filter (fun i => String.eqb f (nth (i mod length fs) fs "")) (seq (n * length fs) (length fs)))) with (length (filter (String.eqb f) fs)); [lia|].
    replace fs with (map (fun i => nth (i mod length fs) fs "") (seq (n * length fs) (length fs))) at 1.
    - rewrite filter_map_comm, map_length. reflexivity.
    - transitivity (map (fun i => nth i fs "") (seq 0 (length fs))); [|symmetry; apply list_as_map]. apply nth_error_eq; rewrite !map_length, !seq_length; [reflexivity|]. intros i Hi.
      rewrite !nth_error_map, !(nth_error_nth' _ 0) by (rewrite seq_length; exact Hi). rewrite !seq_nth by exact Hi. cbn [option_map plus]. do 2 f_equal.
      rewrite Nat.add_comm, Nat.mod_add by lia. apply Nat.mod_small, Hi.
  Qed.

  Definition penalty (x : R) : R := if applicable_to m Classification then (- x)%R else x.

  Theorem C31_importance_values (X : frame C) ys n fs g0 s s' t P g S :
    wf_frame X -> rowwise P g -> scores_as X ys g S -> 0 < n -> p_rng s = g0 ->
    permutation_importance xR RG srt (Some P) m X ys n (Some fs) s = (s', Ok t) ->
    (* one row per distinct feature *)
    NoDup (map fst t) /\ (forall f, In f (map fst t) <-> In f fs)
    (* its value: mean score over the shuffles of the feature minus the score on the data *)
    /\ (forall f v k, In (f, v) t -> nth_error (f_cols X) k = Some f ->
          v = Fin (penalty (Rmean (map (fun i => S (rearranged (f_rows X) [k] (nth_perm RG (length (f_rows X)) g0 i))) (shuffles fs n f)) - S (f_rows X)))
          /\ length (shuffles fs n f) = n * length (filter (String.eqb f) fs))
    /\ descending (fun row => snd row) t.
  Proof.
    intros HX HP HS Hn Hg H. destruct (importance_inv xR RG HR srt P g HP X HX m ys fs n g0 s s' t Hg H) as (base & vf & Hb & -> & Hk).
    assert (base = Fin (S (f_rows X))) by (unfold scored in Hb; rewrite HS in Hb by reflexivity; congruence). subst base.
    assert (Hval : forall f, In f fs -> exists k, nth_error (f_cols X) k = Some f /\
       np_mean xR (map vf (shuffles fs n f)) = Fin (Rmean (map (fun i => S (rearranged (f_rows X) [k] (nth_perm RG (length (f_rows X)) g0 i))) (shuffles fs n f)))).
    { intros f Hf. destruct (shuffles_nonempty fs n f Hn Hf) as (i0 & Hi0). destruct (Hk f i0 Hi0) as (k & Hk0 & _). exists k. split; [exact Hk0|].
      rewrite <- xR_mean_fin by (intros E; apply map_eq_nil in E; rewrite E in Hi0; destruct Hi0). rewrite map_map. f_equal. apply map_ext_in. intros i Hi.
      destruct (Hk f i Hi) as (k' & Hk' & Hsc).
      assert (k' = k) by (eapply (proj1 (NoDup_nth_error (f_cols X)) (proj1 HX)); [apply nth_error_Some; congruence|congruence]). subst k'.
      apply (scored_fin X ys g S HS) in Hsc. exact Hsc. }
    set (raw := map (fun f => (f, neg_if_class xR m (n_sub xR (np_mean xR (map vf (shuffles fs n f))) (Fin (S (f_rows X)))))) (dedup fs)).
    assert (Hraw : forall f v, In (f, v) raw -> In f fs /\ exists k, nth_error (f_cols X) k = Some f /\
       v = Fin (penalty (Rmean (map (fun i => S (rearranged (f_rows X) [k] (nth_perm RG (length (f_rows X)) g0 i))) (shuffles fs n f)) - S (f_rows X)))).
    { intros f v Hin. apply in_map_iff in Hin as (f' & E & Hf). pose proof (f_equal fst E) as Ea; pose proof (f_equal snd E) as Eb; cbn [fst snd] in Ea, Eb; subst f' v; clear E. apply (proj1 (dedup_In f fs)) in Hf. split; [exact Hf|].
      destruct (Hval f Hf) as (k & Hk0 & ->). exists k. split; [exact Hk0|]. unfold neg_if_class, penalty. destruct (applicable_to m Classification); reflexivity. }
    destruct (sort_desc_fin (fun r : string * ext R => snd r) (fun r => snd r) raw) as [Hp Hd].
    { intros [f v] Hin. destruct (Hraw f v Hin) as (_ & k & _ & ->). eexists; split; reflexivity. }
    assert (Hm : map fst raw = dedup fs) by (unfold raw; rewrite map_map; apply map_id).
    split; [|split; [|split]].
    - apply (Permutation_NoDup (l := map fst raw)); [apply Permutation_map, Permutation_sym, Hp|]. rewrite Hm. apply dedup_NoDup.
    - intros f. rewrite <- (dedup_In f fs), <- Hm. split; apply Permutation_in; [|apply Permutation_sym]; apply Permutation_map, Hp.
    - intros f v k Hin Hk'. split; [|apply shuffles_length]. apply (Permutation_in _ Hp) in Hin. destruct (Hraw f v Hin) as (_ & k' & Hk0 & ->).
      assert (k' = k) by (eapply (proj1 (NoDup_nth_error (f_cols X)) (proj1 HX)); [apply nth_error_Some; congruence|congruence]). subst. reflexivity.
    - exact Hd.
  Qed.

  Theorem C27_irrelevant_feature_zero (X : frame C) ys n fs g0 s s' t P g S f v k :
    wf_frame X -> rowwise P g -> scores_as X ys g S -> 0 < n -> p_rng s = g0 ->
    permutation_importance xR RG srt (Some P) m X ys n (Some fs) s = (s', Ok t) -> In (f, v) t ->
    nth_error (f_cols X) k = Some f -> unaffected (length (f_cols X)) g k -> v = Fin 0%R.
  Proof.
    intros HX HP HS Hn Hg H Hin Hk U. destruct (C31_importance_values X ys n fs g0 s s' t P g S HX HP HS Hn Hg H) as (_ & Hfs & Hv & _).
    destruct (Hv f v k Hin Hk) as [-> _]. f_equal.
    assert (Hne : shuffles fs n f <> []).
    { destruct (shuffles_nonempty fs n f Hn) as (i & Hi); [apply Hfs; apply (in_map fst) in Hin; exact Hin|]. intros E; rewrite E in Hi; destruct Hi. }
    rewrite (Rmean_map_ext _ (fun _ => S (f_rows X))), Rmean_map_const by (exact Hne || (intros i _; apply (score_unaffected X ys g S); auto using nth_perm_ok; intros k0 [<-|[]]; assumption)).
    unfold penalty. destruct (applicable_to m Classification); lra.
  Qed.

  (** ** C32: naming all columns explicitly does what the default is documented to do *)
  Theorem C32_all_columns_partial (X : frame C) ys n s P g S :
    wf_frame X -> rowwise P g -> total P -> scores_as X ys g S -> 0 < n -> f_cols X <> [] ->
    exists s' t, permutation_importance xR RG srt (Some P) m X ys n (Some (f_cols X)) s = (s', Ok t)
      /\ NoDup (map fst t) /\ forall f, In f (map fst t) <-> In f (f_cols X).
  Proof.
    intros HX HP HT HS Hn Hne.
    destruct (succ_importance xR RG HR srt P g HP HT X HX m ys (fun rs Hr => ex_intro _ _ (HS rs Hr)) (f_cols X) n Hne (fun f Hf => Hf) s) as (s' & t & E & _).
    exists s', t. split; [exact E|]. destruct (C31_importance_values X ys n (f_cols X) _ s s' t P g S HX HP HS Hn eq_refl E) as (A & B & _). auto.
  Qed.
End Values.

(** the three metrics score finite models on finite targets by real numbers *)
Lemma scores_mse {C} (X : frame C) b idx ys (h : list C -> R) : length ys = length (f_rows X) -> f_rows X <> [] ->
  scores_as (MSE xR) X (fin_target b idx ys) (fun r => Fin (h r)) (fun rs => Rmse ys (map h rs)).
Proof.
  intros Hl Hne rs Hr. rewrite <- (map_map h Fin). apply C33_mse; [|rewrite map_length; congruence]. intros ->. destruct (f_rows X); [congruence|discriminate].
Qed.
Lemma scores_rmse {C} (X : frame C) b idx ys (h : list C -> R) : length ys = length (f_rows X) -> f_rows X <> [] ->
  scores_as (RMSE xR) X (fin_target b idx ys) (fun r => Fin (h r)) (fun rs => sqrt (Rmse ys (map h rs))).
Proof.
  intros Hl Hne rs Hr. rewrite <- (map_map h Fin). apply C33_rmse; [|rewrite map_length; congruence]. intros ->. destruct (f_rows X); [congruence|discriminate].
Qed.
Lemma scores_accuracy {C} (X : frame C) b idx ys (h : list C -> R) : length ys = length (f_rows X) -> f_rows X <> [] ->
  scores_as (Accuracy xR) X (fin_target b idx ys) (fun r => Fin (h r)) (fun rs => Raccuracy ys (map h rs)).
Proof.
  intros Hl Hne rs Hr. rewrite <- (map_map h Fin). apply C33_accuracy; [|rewrite map_length; congruence]. intros ->. destruct (f_rows X); [congruence|discriminate].
Qed.

(** ** Concrete runs and counterexamples (rational numbers, rotations as permutations) *)
Definition ex_rows : list (list Z) := [[0; 0]; [1; 0]; [3; 1]; [7; 5]; [20; 2]]%Z.
Definition ex_X : frame Z := {| f_cols := ["a"; "b"]; f_index := [0; 1; 2; 3; 4]%Z; f_num := ["a"; "b"]; f_rows := ex_rows |}.
Definition zq (z : Z) : ext Q := Fin (inject_Z z).
Definition only_a (r : list Z) : ext Q := zq (nth 0 r 0%Z).
Definition times (r : list Z) : ext Q := zq (nth 0 r 0 * nth 1 r 0)%Z.
Definition ex_model (g : list Z -> ext Q) : model Z (ext Q) := {| md_id := 0; md_proba1 := None; md_predict := Some (fun _ rows => Ok (map g rows)) |}.
Definition ex_y (l : list Z) : target (ext Q) := {| t_series := false; t_index := []; t_vals := map zq l |}.
Definition ex_args g y n k : sargs Z (ext Q) := {| sa_model := ex_model g; sa_X := ex_X; sa_y := y; sa_n := n; sa_repeat := k; sa_features := None |}.
Definition ex_fit := sj_fit (C := Z) xQ rotR isort.

Lemma ex_X_wf : wf_frame ex_X.
Proof. repeat constructor; cbn; intuition congruence. Qed.

(** a run of the method: pair value, importances, and the data the model saw *)
Example C25_example :
  let '(s, o, log) := ex_fit (MSE xQ) 5 (sj_init (r_seed rotR 1)) (ex_args times (ex_y [0; 0; 3; 35; 40]%Z) None 2) in
  o = Ok tt /\ sj_ovo s = Some [("a", "b", Fin (2639 # 5))] /\ sj_fi s = Some [("b", Fin (1912 # 5)); ("a", Fin (108 # 1))]
  /\ firstn 4 log = [ex_rows; [[1; 0]; [3; 0]; [7; 1]; [20; 5]; [0; 2]]; [[0; 2]; [1; 0]; [3; 0]; [7; 1]; [20; 5]]; [[7; 5]; [20; 2]; [0; 0]; [1; 0]; [3; 1]]]%Z.
Proof. vm_compute. auto. Qed.

(** ** C28: a pair one of whose features the model ignores, with a value different from 0 *)
Theorem C28_one_irrelevant_refuted :
  exists (a : sargs Z (ext Q)) s log, wf_frame (sa_X a)
    /\ md_predict (sa_model a) = Some (fun _ rows => Ok (map only_a rows))
    /\ (forall r v, length r = 2 -> only_a (with_value 1 v r) = only_a r)
    /\ ex_fit (MSE xQ) 0 (sj_init (r_seed rotR 1)) a = (s, Ok tt, log)
    /\ sj_ovo s = Some [("a", "b", Fin (154 # 5))].
Proof.
  exists (ex_args only_a (ex_y [0; 1; 3; 7; 20]%Z) None 1). do 2 eexists. split; [apply ex_X_wf|]. split; [reflexivity|]. split.
  - intros [|x [|y [|z t]]] v; try discriminate. reflexivity.
  - split; [vm_compute; reflexivity|]. vm_compute. reflexivity.
Qed.

(** ** C29: the feature importance differs between two fits with the same random_state *)
Theorem C29_reproducible_refuted :
  exists (a : sargs Z (ext Q)) seed e1 e2 s1 l1 s2 l2,
    ex_fit (MSE xQ) e1 (sj_init (r_seed rotR seed)) a = (s1, Ok tt, l1) /\ ex_fit (MSE xQ) e2 (sj_init (r_seed rotR seed)) a = (s2, Ok tt, l2)
    /\ sj_ovo s1 = sj_ovo s2 /\ sj_fi s1 <> sj_fi s2.
Proof.
  exists (ex_args only_a (ex_y [0; 1; 3; 7; 20]%Z) None 1), 1%Z, 1, 3. do 4 eexists.
  split; [vm_compute; reflexivity|]. split; [vm_compute; reflexivity|]. split; [reflexivity|]. vm_compute. discriminate.
Qed.

(** ** C30: an array target and data with a reordered index: rows get other rows' targets; and
    with labels beyond the array's length the call fails *)
Definition with_index (idx : list Z) : frame Z := {| f_cols := f_cols ex_X; f_index := idx; f_num := f_num ex_X; f_rows := ex_rows |}.
Theorem C30_rows_keep_targets_refuted :
  (exists (X : frame Z) y g0 Xs ys g1, wf_frame X /\ NoDup (f_index X) /\ length (t_vals y) = length (f_rows X)
     /\ sample_both rotR g0 X y (Some 2) = Ok (Xs, ys, g1)
     (* the targets are the values of column a, but no longer after sampling *)
     /\ t_vals y = map (fun r => zq (nth 0 r 0%Z)) (f_rows X) /\ t_vals ys <> map (fun r => zq (nth 0 r 0%Z)) (f_rows Xs))
  /\ (exists (X : frame Z) y g0, wf_frame X /\ NoDup (f_index X) /\ length (t_vals y) = length (f_rows X)
     /\ sample_both (V := ext Q) rotR g0 X y (Some 2) = Err IndexError).
Proof.
  assert (Hwf : forall idx, length idx = 5 -> wf_frame (with_index idx)).
  { intros idx H. split; [repeat constructor; cbn; intuition congruence|]. split; [repeat constructor|exact H]. }
  split.
  - exists (with_index [4; 3; 2; 1; 0]%Z), (ex_y [0; 1; 3; 7; 20]%Z), 0. do 3 eexists. split; [apply Hwf; reflexivity|].
    split; [repeat constructor; cbn; intuition congruence|]. split; [reflexivity|]. split; [vm_compute; reflexivity|]. split; [reflexivity|]. vm_compute. discriminate.
  - exists (with_index [10; 11; 12; 13; 14]%Z), (ex_y [0; 1; 3; 7; 20]%Z), 0. split; [apply Hwf; reflexivity|].
    split; [repeat constructor; cbn; intuition congruence|]. split; [reflexivity|]. vm_compute. reflexivity.
Qed.

(** the hypotheses of C30 are met by the default index and by a Series with its own labels *)
Example C30_example :
  target_matches ex_X (ex_y [0; 1; 3; 7; 20]%Z) /\ target_matches (with_index [4; 3; 9; 1; 0]%Z) {| t_series := true; t_index := [4; 3; 9; 1; 0]%Z; t_vals := map zq [0; 1; 3; 7; 20]%Z |}
  /\ (exists Xs ys g1, sample_both rotR 3 (with_index [4; 3; 9; 1; 0]%Z) {| t_series := true; t_index := [4; 3; 9; 1; 0]%Z; t_vals := map zq [0; 1; 3; 7; 20]%Z |} (Some 2) = Ok (Xs, ys, g1)
      /\ f_rows Xs = [[7; 5]; [20; 2]]%Z /\ t_vals ys = map zq [7; 20]%Z).
Proof.
  split; [split; [reflexivity|left; split; reflexivity]|]. split.
  - split; [reflexivity|right]. repeat split. repeat constructor; cbn; intuition congruence.
  - do 3 eexists. vm_compute. repeat split.
Qed.

(** ** C32: the exception raised for the documented default, next to the same call with all columns *)
Example C32_example :
  let P := Some (fun (_ : nat) rows => Ok (map times rows)) in
  snd (permutation_importance xQ rotR isort P (MSE xQ) ex_X (ex_y [0; 0; 3; 35; 40]%Z) 2 None {| p_log := []; p_rng := 5 |}) = Err TypeError
  /\ snd (permutation_importance xQ rotR isort P (MSE xQ) ex_X (ex_y [0; 0; 3; 35; 40]%Z) 2 (Some ["a"; "b"]) {| p_log := []; p_rng := 5 |})
     = Ok [("b", Fin (1912 # 5)); ("a", Fin (108 # 1))].
Proof. vm_compute. auto. Qed.

(** ** Real data meeting the hypotheses of C25, C27 and C31 *)
Definition rmodel (h : list Z -> R) : model Z (ext R) := {| md_id := 0; md_proba1 := None; md_predict := Some (fun _ rows => Ok (map (fun r => Fin (h r)) rows)) |}.
Example C25_example_real :
  let h := fun r : list Z => IZR (nth 0 r 0%Z) in
  let a := {| sa_model := rmodel h; sa_X := ex_X; sa_y := fin_target false [] [0; 1; 3; 7; 20]%R; sa_n := None; sa_repeat := 3; sa_features := Some ["b"; "a"] |} in
  wf_frame (sa_X a) /\ NoDup (included a) /\ 0 < sa_repeat a
  /\ sample_both rotR 7 (sa_X a) (sa_y a) (sa_n a) = Ok (ex_X, fin_target false [] [0; 1; 3; 7; 20]%R, 7)
  /\ scores_as (Accuracy xR) ex_X (fin_target false [] [0; 1; 3; 7; 20]%R) (fun r => Fin (h r)) (fun rs => Raccuracy [0; 1; 3; 7; 20]%R (map h rs))
  /\ unaffected 2 (fun r => Fin (h r)) 1
  /\ exists s log, sj_fit xR rotR isort (Accuracy xR) 2 (sj_init 7) a = (s, Ok tt, log).
Proof.
  intros h a. split; [apply ex_X_wf|]. split; [cbn; repeat constructor; cbn; intuition congruence|]. split; [cbn; lia|]. split; [reflexivity|].
  split; [apply scores_accuracy; [reflexivity|discriminate]|]. split.
  - intros [|x [|y [|z t]]] v; try discriminate. reflexivity.
  - apply (C25_fit_returns xR rotR rotR_ok isort (Accuracy xR) 2 (sj_init 7) a ex_X (fin_target false [] [0; 1; 3; 7; 20]%R) 7 (fun _ rows => Ok (map (fun r => Fin (h r)) rows)) (fun r => Fin (h r))).
    + apply ex_X_wf.
    + cbn; repeat constructor; cbn; intuition congruence.
    + discriminate.
    + cbn. intuition.
    + reflexivity.
    + reflexivity.
    + intros n rows ys E. congruence.
    + intros n rows. eauto.
    + intros rs Hr. eexists. apply (scores_accuracy ex_X false [] [0; 1; 3; 7; 20]%R h); [reflexivity|discriminate|exact Hr].
Qed.

Print Assumptions C26_only_selected_columns.
Print Assumptions C26_importance_requests.
Print Assumptions C25_fit_returns.
Print Assumptions C29_interactions_reproducible_partial.
Print Assumptions C30_rows_keep_targets_partial.
Print Assumptions C30_distinct_rows.
Print Assumptions C30_too_many.
Print Assumptions C30_all_rows.
Print Assumptions C32_default_features_refuted.
Print Assumptions C33_mse.
Print Assumptions C33_rmse.
Print Assumptions C33_accuracy.
Print Assumptions C33_applicability.
Print Assumptions C25_interaction_values.
Print Assumptions C27_irrelevant_pair_zero.
Print Assumptions C28_one_irrelevant_partial.
Print Assumptions C31_importance_values.
Print Assumptions C27_irrelevant_feature_zero.
Print Assumptions C28_one_irrelevant_refuted.
Print Assumptions C29_reproducible_refuted.
Print Assumptions C30_rows_keep_targets_refuted.

Print Assumptions C32_all_columns_partial.
