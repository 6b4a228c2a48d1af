(** C144: a model that answers with a wrong number of predictions.  The permutation based methods notice it through the
    metric, the additivity meter and the one-versus-all table through the lengths of the arrays, in each case unless the
    answer is a single number that numpy spreads.  The partial dependence of features and pairs is not protected. *)
From Verif Require Import Py Num NumR Sorting Frame Rng PdCalc PdSpec PdFacts PdMethods MethodSpec PdMethodFacts Additivity Perm Props_Pd Props_Methods2 Props_Outcome.
From Coq Require Import QArith Lia.
Open Scope string_scope.
Open Scope nat_scope.
Open Scope list_scope.

Lemma comparable_dec {V} (N : num_ops V) (m : metric V) (y : target V) n : comparable N m y n \/ ~ comparable N m y n.
Proof.
  unfold comparable. destruct (Nat.eq_dec (length (t_vals y)) n), (Nat.eq_dec (length (t_vals y)) 1), (Nat.eq_dec n 1), (t_series y), (mt_problem m); subst; intuition (try congruence).
Qed.

(** ** The permutation based methods *)
Section Permuting.
  Context {C V G : Type} (N : num_ops V) (Rg : rng_ops G) (srt : sorter) (P : nat -> list (list C) -> result (list V)) (m : metric V) (Hm : library_metric N m).

  (** Specification: an answer whose number of predictions cannot be compared with the target [y] ends the call [r] with
      ValueError, and no request follows *)
  Definition notices {A} (y : target V) (log : list (list (list C))) (r : result A) : Prop :=
    forall n rows ys, nth_error log n = Some rows -> P n rows = Ok ys -> ~ comparable N m y (length ys) -> r = Err ValueError /\ length log = S n.

  Section One.
    Context (y : target V).
    Definition fitting (log : list (list (list C))) : Prop := forall n rows ys, nth_error log n = Some rows -> P n rows = Ok ys -> comparable N m y (length ys).
    Definition refused (log : list (list (list C))) (e : exn) : Prop := exists log0 rows, log = log0 ++ [rows] /\ fitting log0 /\ e = ValueError.
    Definition keeps {A} (x : act A) : Prop := forall s : pst C G, fitting (p_log s) -> match x s with (s', Ok _) => fitting (p_log s') | (s', Err e) => fitting (p_log s') \/ refused (p_log s') e end.
    Lemma keeps_ret {A} (x : A) : keeps (ret x).
    Proof. intros s H. exact H. Qed.
    Lemma keeps_lift {A} (r : result A) : keeps (lift r).
    Proof. intros s H. unfold lift. destruct r; [exact H|left; exact H]. Qed.
    Lemma keeps_andthen {A B} (x : act A) (k : A -> act B) : keeps x -> (forall a, keeps (k a)) -> keeps (andthen x k).
    Proof. intros Hx Hk s Hs. unfold andthen. specialize (Hx s Hs). destruct (x s) as [s' [a|e]]; [exact (Hk a s' Hx)|exact Hx]. Qed.
    Lemma keeps_draw n : keeps (draw Rg n).
    Proof. intros s H. unfold draw. destruct (r_perm Rg (p_rng s) n). exact H. Qed.
    Lemma keeps_traverse {A B} (f : A -> act B) l : (forall x, keeps (f x)) -> keeps (traverse f l).
    Proof. intros Hf. induction l as [|x l IH]; cbn [traverse]; [apply keeps_ret|]. apply keeps_andthen; [apply Hf|]. intros z. apply keeps_andthen; [exact IH|]. intros zs. apply keeps_ret. Qed.
    Lemma fitting_snoc log rows : fitting log -> (forall ys, P (length log) rows = Ok ys -> comparable N m y (length ys)) -> fitting (log ++ [rows]).
    Proof.
      intros H Hl n r ys Hn. destruct (Nat.lt_ge_cases n (length log)) as [L|L].
      - rewrite nth_error_app1 in Hn by exact L. apply (H n r ys Hn).
      - rewrite nth_error_app2 in Hn by exact L. destruct (n - length log) as [|[|]] eqn:E; try discriminate. injection Hn as <-. replace n with (length log) by lia. apply Hl.
    Qed.
    Lemma keeps_score rows : keeps (score (Some P) m y rows).
    Proof.
      intros s H. unfold score, andthen, ask, lift. cbn [p_log]. destruct (P (length (p_log s)) rows) as [ys|e] eqn:E; cbn [p_log].
      - destruct (comparable_dec N m y (length ys)) as [Hc|Hc].
        + assert (F : fitting (p_log s ++ [rows])) by (apply fitting_snoc; [exact H|]; intros zs Ez; rewrite E in Ez; injection Ez as <-; exact Hc). destruct (mt_calc m y ys); [exact F|left; exact F].
        + rewrite (metric_incomparable N m y ys Hm Hc). right. exists (p_log s), rows. auto.
      - left. apply fitting_snoc; [exact H|]. intros ys Ey. congruence.
    Qed.
    Lemma keeps_permute_score X fs ref : keeps (permute_score N Rg (Some P) m X y fs ref).
    Proof. apply keeps_andthen; [apply keeps_draw|]. intros p. apply keeps_andthen; [apply keeps_lift|]. intros rows. apply keeps_andthen; [apply keeps_score|]. intros v. apply keeps_ret. Qed.
    Lemma keeps_ovo X ps n : keeps (perf_based_ovo N Rg srt (Some P) m X y ps n).
    Proof.
      apply keeps_andthen; [apply keeps_score|]. intros ref. apply keeps_andthen; [|intros rows; apply keeps_ret]. apply keeps_traverse. intros pr. apply keeps_andthen; [|intros l; apply keeps_ret].
      apply keeps_traverse. intros _. apply keeps_andthen; [|intros v; apply keeps_ret]. unfold inter.
      apply keeps_andthen; [apply keeps_permute_score|]. intros s1. apply keeps_andthen; [apply keeps_permute_score|]. intros s2. apply keeps_andthen; [apply keeps_permute_score|]. intros s12. apply keeps_ret.
    Qed.
    Lemma keeps_loop X fs w : keeps (corrupt_loop Rg (Some P) m X y fs w).
    Proof.
      revert w. induction fs as [|f fs IH]; intros w; cbn [corrupt_loop]; [apply keeps_ret|]. apply keeps_andthen; [|intros vw; apply keeps_andthen; [apply IH|intros l; apply keeps_ret]].
      unfold corrupt. apply keeps_andthen; [destruct (col_pos (f_cols X) f); [apply keeps_ret|apply (keeps_lift (Err KeyError))]|]. intros k. apply keeps_andthen; [apply keeps_draw|]. intros p.
      apply keeps_andthen; [apply keeps_score|]. intros v. apply keeps_ret.
    Qed.
    Lemma keeps_importance X n fs : keeps (permutation_importance N Rg srt (Some P) m X y n fs).
    Proof.
      apply keeps_andthen; [apply keeps_score|]. intros base. destruct fs as [fs|]; [|apply (keeps_lift (Err TypeError))]. apply keeps_andthen; [apply keeps_loop|]. intros scores.
      destruct (map _ (dedup fs)); [apply (keeps_lift (Err KeyError))|apply keeps_ret].
    Qed.
    Lemma notices_of {A} log (r : result A) : match r with Ok _ => fitting log | Err e => fitting log \/ refused log e end -> notices y log r.
    Proof.
      intros H n rows ys Hn Hp Hc. assert (Hf : ~ fitting log) by (intros F; apply Hc; eapply F; eassumption).
      destruct r as [x|e]; [contradiction|]. destruct H as [H|(log0 & rows0 & -> & F & ->)]; [contradiction|]. split; [reflexivity|]. rewrite app_length. cbn.
      assert (L : n < length (log0 ++ [rows0])) by (apply nth_error_Some; congruence). rewrite app_length in L. cbn in L. destruct (Nat.lt_ge_cases n (length log0)) as [L0|L0]; [|lia].
      rewrite nth_error_app1 in Hn by exact L0. exfalso. apply Hc. eapply F; eassumption.
    Qed.
    Lemma fitting_nil : fitting [].
    Proof. intros [|n] rows ys H; discriminate. Qed.
  End One.

  Theorem C144_permutation_partial X y n fs g s' r : permutation_importance N Rg srt (Some P) m X y n fs {| p_log := []; p_rng := g |} = (s', r) -> notices y (p_log s') r.
  Proof. intros E. apply notices_of. pose proof (keeps_importance y X n fs {| p_log := []; p_rng := g |} (fitting_nil y)) as H. rewrite E in H. destruct r; exact H. Qed.
  (** [ys] is the target of the sampled rows *)
  Theorem C144_performance_partial entropy s a Xs ys g1 s' r log : md_predict (sa_model a) = Some P -> sample_both Rg (sj_rng s) (sa_X a) (sa_y a) (sa_n a) = Ok (Xs, ys, g1) ->
    sj_fit N Rg srt m entropy s a = (s', r, log) -> notices ys log r.
  Proof.
    intros EP Es. unfold sj_fit. rewrite EP, Es. cbv zeta.
    pose proof (keeps_ovo ys Xs (combinations2 (match sa_features a with None => f_cols (sa_X a) | Some l => l end)) (sa_repeat a) {| p_log := []; p_rng := g1 |} (fitting_nil ys)) as H1.
    destruct (perf_based_ovo N Rg srt (Some P) m Xs ys _ (sa_repeat a) {| p_log := []; p_rng := g1 |}) as [s1 [t|e]].
    2: { intros E. injection E as <- <- <-. apply notices_of. exact H1. }
    pose proof (keeps_importance ys Xs (sa_repeat a) (Some (match sa_features a with None => f_cols (sa_X a) | Some l => l end)) {| p_log := p_log s1; p_rng := entropy |} H1) as H2.
    destruct (permutation_importance N Rg srt (Some P) m Xs ys (sa_repeat a) _ {| p_log := p_log s1; p_rng := entropy |}) as [s2 [fi|e]]; intros E; injection E as <- <- <-; apply notices_of; exact H2.
  Qed.
End Permuting.

(** ** The additivity meter and Friedman's one versus all *)
Section Arrays.
  Context {C V G : Type} (O : cell_ops C) (N : num_ops V) (Rg : rng_ops G) (srt : sorter).

  (** an index is only returned if the predictions of the data, asked for after the batches, are as many as the rows *)
  Theorem C144_additivity_partial s a s' v : add_fit O N Rg s a = (s', Ok v) ->
    exists Xs c preds, ad_X s' = Some Xs /\ ad_calc s' = Some c /\ callable (aa_pf a) (length (c_log c)) (f_rows Xs) = Ok preds /\ length preds = length (f_rows Xs).
  Proof.
    unfold add_fit. destruct (sample_if_not_none Rg (ad_rng s) (aa_X a) (aa_n a)) as [[Xs g']|e]; [|discriminate]. cbv zeta.
    destruct (pick_calc O N (aa_model a) Xs (aa_pf a) (aa_batch a) (aa_calc a)) as [c|e]; [|discriminate]. destruct (calculate_pd_single O N c None) as [c1 [u|e]]; [|discriminate].
    destruct (callable (aa_pf a) (length (c_log c1)) (f_rows Xs)) as [preds|e] eqn:Ep; [|discriminate]. destruct (mapM _ (f_cols Xs)) as [pds|e]; cbn [bind]; [|discriminate].
    destruct (Nat.eqb_spec (length preds) (length (f_rows Xs))) as [L|L]; [|discriminate]. destruct (additivity_of N pds preds) as [full v0]. intros E. apply (f_equal fst) in E. cbn [fst] in E. subst s'.
    exists Xs, c1, preds. auto.
  Qed.

  Lemma get_single_length c f vs xs : get_pd_single O (c : calc C V) f (Some vs) = Ok xs -> length xs = length vs.
  Proof. intros H. cbn in H. apply mapM_Ok_inv in H. induction H; cbn; congruence. Qed.
  Lemma column_len (X : frame C) f x : wf_frame X -> column X f = Ok x -> length x = length (f_rows X).
  Proof. intros HX H. apply column_pos in H as (p & Hp & _ & ->). eapply wf_column_length; eassumption. Qed.
  Lemma center_length (l : list V) : length (center N l) = length l.
  Proof. unfold center. apply map_length. Qed.
  Lemma vsub_np_lengths (a b d : list V) : vsub_np N a b = Ok d -> length a = length b \/ length a = 1 \/ length b = 1.
  Proof. unfold vsub_np. destruct (Nat.eqb_spec (length a) (length b)); [auto|]. destruct a as [|x [|]], b as [|z [|]]; cbn; auto; discriminate. Qed.

  (** a table of one versus all is only computed if the predictions of the data are as many as the rows, or one of the two
      is a single number *)
  Theorem C144_one_versus_all_partial norm s a s' : wf_frame (a_X a) -> rng_ok Rg -> a_ova a = true -> all_features a <> [] -> fit O N Rg srt (Friedman norm) s a = (s', Ok tt) ->
    exists Xs c preds, m_X s' = Some Xs /\ m_calc s' = Some c /\ callable (pf_of a) (length (c_log c)) (f_rows Xs) = Ok preds
      /\ (length preds = length (f_rows Xs) \/ length preds = 1 \/ length (f_rows Xs) = 1).
  Proof.
    intros HX HR Ho Hne H. apply fit_ok in H as (Xs & rng' & c & c1 & t & c2 & fi & Es & Ec & Eo & Ei & E1 & E2 & E3 & E4 & E5 & E6).
    destruct (sample_wf Rg _ _ _ _ _ HR HX Es) as (HwX & _). rewrite Ho in E6. destruct E6 as (c3 & ova & Ev & _ & Ecalc). unfold friedman_ova in Ev.
    destruct (calculate_pd_minus_single N c2 (Some (all_features a))) as [c4 [u|e]]; [|discriminate]. apply pair_equal_spec in Ev as [-> Ev].
    destruct (callable (pf_of a) (length (c_log c3)) (f_rows Xs)) as [preds|e] eqn:Ep; cbn [bind] in Ev; [|discriminate]. exists Xs, c3, preds. split; [exact E1|]. split; [exact Ecalc|]. split; [exact Ep|].
    destruct (mapM _ (all_features a)) as [l|e] eqn:El; cbn [bind] in Ev; [|discriminate]. apply mapM_Ok_inv in El. destruct (all_features a) as [|f fs]; [contradiction|]. inversion El as [|? x ? ? Hx _]; subst. cbv beta in Hx.
    destruct (column Xs f) as [xf|] eqn:C1; cbn [bind] in Hx; [|discriminate]. destruct (get_pd_single O c3 f (Some xf)) as [pd_f|] eqn:G1; cbn [bind] in Hx; [|discriminate].
    destruct (get_pd_minus_single c3 f) as [pd_m|] eqn:G2; cbn [bind] in Hx; [|discriminate]. unfold hstat_np in Hx.
    destruct (vsub_np N (center N preds) (center N pd_f)) as [d|] eqn:Ed; cbn [bind] in Hx; [|discriminate]. apply vsub_np_lengths in Ed. rewrite !center_length in Ed.
    rewrite (get_single_length _ _ _ _ G1), (column_len Xs f xf HwX C1) in Ed. exact Ed.
  Qed.
End Arrays.

(** ** What is not noticed *)
(** a model that drops the last prediction of every request, one that answers nothing, and one that answers a single number *)
Definition one_short : nat -> list (list Z) -> result (list (ext Q)) := fun _ rows => Ok (removelast (map exg rows)).
Definition nothing : nat -> list (list Z) -> result (list (ext Q)) := fun _ _ => Ok [].
Definition single_number : nat -> list (list Z) -> result (list (ext Q)) := fun _ _ => Ok [Fin (7 # 1)].
Definition lengths_sargs (p : nat -> list (list Z) -> result (list (ext Q))) : sargs Z (ext Q) :=
  {| sa_model := {| md_id := 0; md_proba1 := None; md_predict := Some p |}; sa_X := exX; sa_y := {| t_series := false; t_index := []; t_vals := [Fin (1 # 1); Fin (2 # 1); Fin (3 # 1)] |}; sa_n := None; sa_repeat := 2; sa_features := None |}.

(** fit of Friedman's method returns for all three; the first gives other values than the complete answers, the second
    reports that nothing interacts and that no feature matters *)
Theorem C144_pairs_refuted :
  (forall n rows, rows <> [] -> exists ys, one_short n rows = Ok ys /\ length ys < length rows)
  /\ (let r := fitQ (Friedman true) init0 (mkargs one_short exX None false None) in snd r = Ok tt /\ m_ovo (fst r) <> m_ovo (fst (fitQ (Friedman true) init0 (mkargs exP exX None false None))))
  /\ (let r := fitQ (Friedman true) init0 (mkargs nothing exX None false None) in snd r = Ok tt /\ m_ovo (fst r) = Some [("a", "b", Fin (0 # 1))] /\ option_map (map snd) (m_fi (fst r)) = Some [Fin (0 # 1); Fin (0 # 1)])
  /\ snd (fitQ (Friedman true) init0 (mkargs single_number exX None true None)) = Ok tt.
Proof.
  split.
  - intros n rows Hne. eexists. split; [reflexivity|]. destruct rows as [|r rows]; [contradiction|]. rewrite <- (map_length exg (r :: rows)). cbn [map]. generalize (exg r). generalize (map exg rows). clear. intros l. induction l as [|x l IH]; intros z; [cbn; lia|]. specialize (IH x). cbn [removelast length] in *. lia.
  - split; [split; [vm_compute; reflexivity|vm_compute; discriminate]|]. split; [|vm_compute; reflexivity]. split; [vm_compute; reflexivity|]. split; vm_compute; reflexivity.
Qed.
(** a single number is accepted by the performance based method *)
Theorem C144_single_number_refuted : snd (fst (sj_fit xQ rotR isort (MSE xQ) 0 (sj_init 0) (lengths_sargs single_number))) = Ok tt
  /\ option_map (map snd) (sj_ovo (fst (fst (sj_fit xQ rotR isort (MSE xQ) 0 (sj_init 0) (lengths_sargs single_number))))) = Some [Fin (0 # 1)].
Proof. split; vm_compute; reflexivity. Qed.

(** the runs that are refused: performance based, importance, one versus all and additivity *)
Example C144_example : snd (fst (sj_fit xQ rotR isort (MSE xQ) 0 (sj_init 0) (lengths_sargs one_short))) = Err ValueError /\ snd (sj_fit xQ rotR isort (MSE xQ) 0 (sj_init 0) (lengths_sargs one_short)) = [f_rows exX]
  /\ snd (permutation_importance xQ rotR isort (Some one_short) (MSE xQ) exX (sa_y (lengths_sargs one_short)) 2 (Some ["a"]) {| p_log := []; p_rng := 0 |}) = Err ValueError
  /\ ~ comparable xQ (MSE xQ) (sa_y (lengths_sargs one_short)) 2
  /\ snd (fitQ (Friedman true) init0 (mkargs one_short exX None true None)) = Err ValueError
  /\ snd (fitQ (Friedman true) init0 (mkargs exP exX None true None)) = Ok tt.
Proof.
  split; [vm_compute; reflexivity|]. split; [vm_compute; reflexivity|]. split; [vm_compute; reflexivity|]. split; [unfold comparable; cbn; intros [E|[[_ [E|E]]|[E _]]]; discriminate|]. split; vm_compute; reflexivity.
Qed.

Print Assumptions C144_permutation_partial.
Print Assumptions C144_performance_partial.
Print Assumptions C144_additivity_partial.
Print Assumptions C144_one_versus_all_partial.
Print Assumptions C144_pairs_refuted.
Print Assumptions C144_single_number_refuted.
