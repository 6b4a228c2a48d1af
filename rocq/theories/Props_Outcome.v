(** C141: when fitting the performance based method succeeds, and with which error it fails. *)
From Verif Require Import Py Num NumR Sorting Frame Rng PdCalc PdMethods Perm PermFacts Props_Perm.
From Coq Require Import QArith.
Open Scope string_scope.
Open Scope nat_scope.
Open Scope list_scope.
Notation included := Props_Perm.included.

(** ** Specification *)

(** the model answers every request with one number per row; it need not work row by row *)
Definition answers {C V} (P : nat -> list (list C) -> result (list V)) : Prop := forall i rows, exists l, P i rows = Ok l /\ length l = length rows.
(** one of the metrics of the library *)
Definition library_metric {V} (N : num_ops V) (m : metric V) : Prop := m = MSE N \/ m = RMSE N \/ m = Accuracy N.
(** [n] predictions can be compared with the target: there are as many values, or one of the two is a
    single number that numpy spreads over the other.  A Series is never spread, and accuracy compares
    with a Series only at equal lengths *)
Definition comparable {V} (N : num_ops V) (m : metric V) (y : target V) (n : nat) : Prop :=
  length (t_vals y) = n \/ (t_series y = false /\ (length (t_vals y) = 1 \/ n = 1)) \/ (n = 1 /\ mt_problem m = Regression).

(** ** Metrics *)
Lemma sub_ok {V} (N : num_ops V) (a b : list V) : length a = 1 -> exists ds, vsub_np N a b = Ok ds /\ length ds = length b.
Proof. destruct a as [|x [|]]; try discriminate. intros _. unfold vsub_np. destruct (_ =? _) eqn:E; eexists; (split; [reflexivity|]); [|apply map_length]. apply Nat.eqb_eq in E. unfold vsub. rewrite map_length, combine_length, E. apply Nat.min_id. Qed.
Lemma sub_ok_r {V} (N : num_ops V) (a b : list V) : length b = 1 -> exists ds, vsub_np N a b = Ok ds.
Proof. destruct b as [|x [|]]; try discriminate. intros _. unfold vsub_np. destruct (_ =? _) eqn:E; [eauto|]. destruct a as [|z [|]]; eauto. Qed.
Lemma sub_err {V} (N : num_ops V) (a b : list V) : length a <> length b -> length a <> 1 -> length b <> 1 -> vsub_np N a b = Err ValueError.
Proof. intros H Ha Hb. unfold vsub_np. apply Nat.eqb_neq in H. rewrite H. destruct a as [|x [|]], b as [|z [|]]; cbn in *; try congruence; reflexivity. Qed.
Lemma metric_comparable {V} (N : num_ops V) m y yhat : library_metric N m -> comparable N m y (length yhat) -> exists u, mt_calc m y yhat = Ok u.
Proof.
  intros Hm H. destruct (Nat.eq_dec (length (t_vals y)) (length yhat)) as [El|El]; [revert Hm El; intros [->|[->| ->]] El; cbn; unfold mse_calc, accuracy_calc; rewrite El, Nat.eqb_refl; cbn; eauto|].
  assert (Q : mt_problem m = Regression -> exists u, mse_calc N y yhat = Ok u).
  { intros _. unfold mse_calc. rewrite (proj2 (Nat.eqb_neq _ _) El). destruct H as [H|[[Hs [H|H]]|[H _]]]; [contradiction| | |].
    - destruct (sub_ok_r N yhat (t_vals y) H) as (ds & ->). rewrite Hs. cbn [bind andb]. eauto.
    - destruct (sub_ok N yhat (t_vals y) H) as (ds & -> & L). rewrite Hs. cbn [bind andb]. eauto.
    - destruct (sub_ok N yhat (t_vals y) H) as (ds & -> & L). cbn [bind]. rewrite L, Nat.eqb_refl, andb_false_r. eauto. }
  destruct Hm as [->|[->| ->]]; cbn [mt_calc MSE RMSE Accuracy mt_problem] in *.
  - exact (Q eq_refl).
  - destruct (Q eq_refl) as (u & ->). cbn. eauto.
  - unfold accuracy_calc. rewrite (proj2 (Nat.eqb_neq _ _) El). destruct H as [H|[[Hs H]|[_ H]]]; [contradiction| |discriminate H]. rewrite Hs. destruct (t_vals y) as [|v [|]], yhat as [|z [|]]; cbn in *; eauto; destruct H; discriminate.
Qed.
Lemma metric_incomparable {V} (N : num_ops V) m y yhat : library_metric N m -> ~ comparable N m y (length yhat) -> mt_calc m y yhat = Err ValueError.
Proof.
  intros Hm H. unfold comparable in H. assert (El : length (t_vals y) <> length yhat) by tauto.
  assert (Q : mt_problem m = Regression -> mse_calc N y yhat = Err ValueError).
  { intros Hp. unfold mse_calc. rewrite (proj2 (Nat.eqb_neq _ _) El). assert (H1 : length yhat <> 1) by tauto. destruct (Nat.eq_dec (length (t_vals y)) 1) as [E1|E1].
    - assert (Hs : t_series y = true) by (destruct (t_series y); [reflexivity|tauto]). rewrite Hs. unfold vsub_np. rewrite Nat.eqb_sym, (proj2 (Nat.eqb_neq _ _) El).
      destruct (t_vals y) as [|v [|]]; try discriminate E1. destruct yhat as [|z [|z' t]]; cbn in H1; try congruence; reflexivity.
    - rewrite (sub_err N yhat (t_vals y)) by auto. reflexivity. }
  destruct Hm as [->|[->| ->]]; cbn [mt_calc MSE RMSE Accuracy mt_problem] in *.
  - exact (Q eq_refl).
  - rewrite (Q eq_refl). reflexivity.
  - unfold accuracy_calc. rewrite (proj2 (Nat.eqb_neq _ _) El). destruct (t_series y); [reflexivity|]. destruct (t_vals y) as [|v [|]], yhat as [|z [|]]; cbn in *; try reflexivity; tauto.
Qed.
Lemma metric_ok {V} (N : num_ops V) m y yhat : library_metric N m -> length (t_vals y) = length yhat -> exists u, mt_calc m y yhat = Ok u.
Proof. intros [->|[->| ->]] H; cbn; unfold mse_calc, accuracy_calc; rewrite H, Nat.eqb_refl; cbn; eauto. Qed.

(** ** Outcomes of actions *)
Section Outcomes.
  Context {C V G : Type} (N : num_ops V) (Rg : rng_ops G) (HR : rng_ok Rg) (srt : sorter).
  (** whatever the state, the action returns a value in [Q] or raises an error in [E] *)
  Definition outcome {A} (E : exn -> Prop) (Q : A -> Prop) (m : act A) : Prop := forall s : pst C G, match snd (m s) with Ok a => Q a | Err e => E e end.
  Lemma out_ret {A} (E : exn -> Prop) (Q : A -> Prop) x : Q x -> outcome E Q (ret x).
  Proof. intros H s. exact H. Qed.
  Lemma out_raise {A} (E : exn -> Prop) (Q : A -> Prop) e : E e -> outcome E Q (raise e).
  Proof. intros H s. exact H. Qed.
  Lemma out_andthen {A B} (E E1 : exn -> Prop) (Q1 : A -> Prop) (Q : B -> Prop) m k : outcome E1 Q1 m -> (forall e, E1 e -> E e) -> (forall a, Q1 a -> outcome E Q (k a)) -> outcome E Q (andthen m k).
  Proof. intros Hm He Hc s. unfold andthen. specialize (Hm s). destruct (m s) as [s' [a|e]]; cbn in Hm; [exact (Hc a Hm s')|exact (He e Hm)]. Qed.
  Lemma out_weaken {A} (E E1 : exn -> Prop) (Q Q1 : A -> Prop) m : (forall e, E1 e -> E e) -> (forall a, Q1 a -> Q a) -> outcome E1 Q1 m -> outcome E Q m.
  Proof. intros He Hq H s. specialize (H s). destruct (snd (m s)); auto. Qed.
  Lemma out_draw n : outcome (fun _ => False) (fun p => Permutation p (seq 0 n)) (draw Rg n).
  Proof. intros s. unfold draw. pose proof (rk_perm Rg HR (p_rng s) n) as H. destruct (r_perm Rg (p_rng s) n). exact H. Qed.
  (** an action for every element: it returns only if all do *)
  Lemma out_traverse {A B} (K : A -> Prop) (f : A -> act B) l : (forall x, In x l -> outcome (fun e => e = KeyError /\ ~ K x) (fun _ => K x) (f x)) ->
    outcome (fun e => e = KeyError /\ ~ forall x, In x l -> K x) (fun ys => length ys = length l /\ forall x, In x l -> K x) (traverse f l).
  Proof.
    induction l as [|x l IH]; intros H; [apply out_ret; split; [reflexivity|intros x []]|]. cbn [traverse].
    eapply out_andthen; [apply H; left; reflexivity| |]; [intros e [-> Hn]; split; [reflexivity|]; intros Hall; apply Hn, Hall; left; reflexivity|].
    intros y Hx. cbv beta in Hx. eapply out_andthen; [apply IH; intros; apply H; right; assumption| |]; [intros e [-> Hn]; split; [reflexivity|]; intros Hall; apply Hn; intros z Hz; apply Hall; right; exact Hz|].
    intros ys [Hl Hall]. apply out_ret. split; [cbn; rewrite Hl; reflexivity|]. intros z [<-|Hz]; auto.
  Qed.

  Context (P : nat -> list (list C) -> result (list V)) (HP : answers P) (m : metric V) (Hm : library_metric N m) (X : frame C) (HX : wf_frame X) (y : target V) (Hy : comparable N m y (length (f_rows X))).
  (** rows of the shape of the data *)
  Definition shaped (rows : list (list C)) : Prop := length rows = length (f_rows X) /\ forall r, In r rows -> length r = length (f_cols X).
  Lemma shaped_X : shaped (f_rows X).
  Proof. split; [reflexivity|]. destruct HX as (_ & H & _). rewrite Forall_forall in H. exact H. Qed.
  Lemma out_score rows : shaped rows -> outcome (fun _ => False) (fun _ => True) (score (Some P) m y rows).
  Proof.
    intros [Hl _] s. unfold score, andthen, ask, lift. destruct (HP (length (p_log s)) rows) as (l & -> & E). cbn [snd]. destruct (metric_comparable N m y l Hm) as (u & ->); [rewrite E, Hl; exact Hy|exact I].
  Qed.
  Lemma set_length k (v : C) r : length (set_nth k v r) = length r.
  Proof. revert k. induction r as [|x r IH]; intros [|k]; cbn; auto. Qed.
  Lemma shaped_combine k rows vs : shaped rows -> length vs = length rows -> shaped (map (fun rv => set_nth k (snd rv) (fst rv)) (combine rows vs)).
  Proof.
    intros [Hl Hw] Hv. split; [rewrite map_length, combine_length, Hv, Nat.min_id; exact Hl|]. intros r Hr. apply in_map_iff in Hr as ([r0 v] & <- & H0). cbn [fst snd]. rewrite set_length. apply Hw. eapply in_combine_l, H0.
  Qed.
  Lemma col_shaped k rows : shaped rows -> k < length (f_cols X) -> length (col_at k rows) = length rows.
  Proof.
    intros [_ Hw] Hk. unfold col_at. induction rows as [|r rows IH]; [reflexivity|]. cbn. rewrite app_length, IH by (intros; apply Hw; right; assumption).
    assert (L : k < length r) by (rewrite Hw by (left; reflexivity); exact Hk). apply nth_error_Some in L. destruct (nth_error r k); [reflexivity|congruence].
  Qed.
  Lemma shaped_permute k p rows : shaped rows -> k < length (f_cols X) -> Permutation p (seq 0 (length rows)) -> shaped (permute_at k p rows).
  Proof. intros Hr Hk Hp. unfold permute_at. apply shaped_combine; [exact Hr|]. rewrite perm_picks_length; rewrite (col_shaped k rows Hr Hk); [reflexivity|exact Hp]. Qed.
  Lemma pos_known f k : col_pos (f_cols X) f = Some k -> In f (f_cols X) /\ k < length (f_cols X).
  Proof. intros H. apply col_pos_nth in H. split; [eapply nth_error_In, H|apply nth_error_Some; congruence]. Qed.
  Lemma pos_unknown f : col_pos (f_cols X) f = None -> ~ In f (f_cols X).
  Proof. intros H Hin. destruct (In_nth_error _ _ Hin) as (k & Hk). rewrite (col_pos_NoDup _ _ k (proj1 HX) Hk) in H. discriminate. Qed.
  Notation known f := (In f (f_cols X)).

  Lemma permute_cols_out p fs rows : shaped rows -> Permutation p (seq 0 (length (f_rows X))) ->
    match permute_cols (f_cols X) p rows fs with Ok rs => shaped rs /\ (forall f, In f fs -> known f) | Err e => e = KeyError /\ ~ forall f, In f fs -> known f end.
  Proof.
    intros Hr Hp. unfold permute_cols. revert rows Hr. induction fs as [|f fs IH]; intros rows Hr; cbn [fold_left]; [split; [exact Hr|intros f []]|]. cbn [bind]. unfold permute_col at 2. destruct (col_pos (f_cols X) f) as [k|] eqn:E.
    - destruct (pos_known f k E) as [Hf Hk]. assert (S : shaped (permute_at k p rows)) by (apply shaped_permute; [exact Hr|exact Hk|rewrite (proj1 Hr); exact Hp]). specialize (IH _ S).
      destruct (fold_left _ fs (Ok (permute_at k p rows))); destruct IH as [A B]; split; try assumption; [intros g [<-|Hg]; auto|]. intros Hall. apply B. intros g Hg. apply Hall. right. exact Hg.
    - assert (Ee : fold_left (fun (acc : result (list (list C))) g => do rs <- acc; permute_col (f_cols X) p rs g) fs (Err KeyError) = Err KeyError) by (clear IH; induction fs as [|g fs IH]; [reflexivity|exact IH]). rewrite Ee. split; [reflexivity|]. intros Hall. apply (pos_unknown f E), Hall. left. reflexivity.
  Qed.
  Lemma out_permute_score fs ref : outcome (fun e => e = KeyError /\ ~ forall f, In f fs -> known f) (fun _ => forall f, In f fs -> known f) (permute_score N Rg (Some P) m X y fs ref).
  Proof.
    unfold permute_score. eapply out_andthen; [apply out_draw|intros e []|]. intros p Hp. pose proof (permute_cols_out p fs (f_rows X) shaped_X Hp) as H. cbv beta in *. unfold lift. intros s. unfold andthen at 1. destruct (permute_cols (f_cols X) p (f_rows X) fs) as [rows|e]; [|exact H].
    destruct H as [Hr Hf]. refine (out_andthen _ (fun _ => False) (fun _ => True) _ _ _ (out_score rows Hr) _ _ s); [intros e []|]. intros v _. apply out_ret. exact Hf.
  Qed.
  Lemma out_inter f1 f2 ref : outcome (fun e => e = KeyError /\ ~ (known f1 /\ known f2)) (fun _ => known f1 /\ known f2) (inter N Rg (Some P) m X y f1 f2 ref).
  Proof.
    unfold inter. eapply out_andthen; [apply out_permute_score| |]; [intros e [-> Hn]; split; [reflexivity|]; intros [A B]; apply Hn; intros f [<-|[]]; exact A|]. intros s1 H1. eapply out_andthen; [apply out_permute_score| |]; [intros e [-> Hn]; split; [reflexivity|]; intros [A B]; apply Hn; intros f [<-|[]]; exact B|]. intros s2 H2.
    eapply out_andthen; [apply out_permute_score| |]; [intros e [-> Hn]; split; [reflexivity|]; intros [A B]; apply Hn; intros f [<-|[<-|[]]]; assumption|]. intros s12 _. apply out_ret. split; [apply H1|apply H2]; left; reflexivity.
  Qed.
  Lemma out_ovo pairs n : outcome (fun e => e = KeyError /\ ~ (n = 0 \/ forall p, In p pairs -> known (fst p) /\ known (snd p))) (fun _ => n = 0 \/ forall p, In p pairs -> known (fst p) /\ known (snd p)) (perf_based_ovo N Rg srt (Some P) m X y pairs n).
  Proof.
    unfold perf_based_ovo. eapply out_andthen; [apply out_score, shaped_X|intros e []|]. intros ref _. eapply out_andthen with (E1 := fun e => e = KeyError /\ ~ forall p, In p pairs -> (n = 0 \/ (known (fst p) /\ known (snd p)))) (Q1 := fun ys => length ys = length pairs /\ forall p, In p pairs -> (n = 0 \/ (known (fst p) /\ known (snd p)))).
    - apply (out_traverse (fun p => n = 0 \/ (known (fst p) /\ known (snd p)))). intros [f1 f2] _. cbn [fst snd]. eapply out_andthen with (E1 := fun e => e = KeyError /\ ~ (forall i, In i (seq 0 n) -> known f1 /\ known f2)) (Q1 := fun ys => length ys = length (seq 0 n) /\ (forall i, In i (seq 0 n) -> known f1 /\ known f2)).
      + apply (out_traverse (fun _ => known f1 /\ known f2)). intros i _. eapply out_andthen; [apply out_inter|auto|]. intros v Hv. apply out_ret. exact Hv.
      + intros e [-> Hn]. split; [reflexivity|]. intros [->|H]; apply Hn; [intros i []|intros; exact H].
      + intros l [_ H]. apply out_ret. destruct n as [|n]; [left; reflexivity|right]. apply (H 0). left. reflexivity.
    - intros e [-> Hn]. split; [reflexivity|]. intros H. apply Hn. intros p Hp. destruct H as [->|H]; [left; reflexivity|right; apply H, Hp].
    - intros rows [_ H]. apply out_ret. destruct n as [|n]; [left; reflexivity|right]. intros p Hp. destruct (H p Hp) as [H0|H0]; [discriminate|exact H0].
  Qed.
  Lemma out_corrupt_loop fs w : shaped w -> outcome (fun e => e = KeyError /\ ~ forall f, In f fs -> known f) (fun _ => forall f, In f fs -> known f) (corrupt_loop Rg (Some P) m X y fs w).
  Proof.
    revert w. induction fs as [|f fs IH]; intros w Hw; cbn [corrupt_loop]; [apply out_ret; intros f []|].
    eapply out_andthen with (E1 := fun e => e = KeyError /\ ~ known f) (Q1 := fun vw => known f /\ shaped (snd vw)).
    - unfold corrupt. destruct (col_pos (f_cols X) f) as [k|] eqn:E.
      + destruct (pos_known f k E) as [Hf Hk]. eapply out_andthen; [apply (out_ret (fun _ => False) (fun j => j = k)); reflexivity|intros e []|]. intros j ->. eapply out_andthen; [apply out_draw|intros e []|]. intros p Hp. cbv beta zeta in *.
        assert (S : shaped (permute_at k p w)) by (apply shaped_permute; assumption). eapply out_andthen; [apply out_score, S|intros e []|]. intros v _. apply out_ret. split; [exact Hf|]. cbn [snd]. apply shaped_combine; [exact S|]. rewrite (col_shaped k _ shaped_X Hk), (proj1 S). reflexivity.
      + eapply out_andthen; [apply (out_raise (fun e => e = KeyError /\ ~ known f) (fun _ => False)); split; [reflexivity|apply pos_unknown, E]|auto|intros a []].
    - intros e [-> Hn]. split; [reflexivity|]. intros Hall. apply Hn, Hall. left. reflexivity.
    - intros [v w'] [Hf Hw']. cbn [snd fst] in *. eapply out_andthen; [apply IH, Hw'| |]; [intros e [-> Hn]; split; [reflexivity|]; intros Hall; apply Hn; intros g Hg; apply Hall; right; exact Hg|]. intros l Hl. apply out_ret. intros g [<-|Hg]; auto.
  Qed.
  Lemma out_importance n fs : outcome (fun e => e = KeyError /\ ~ (fs <> [] /\ (n = 0 \/ forall f, In f fs -> known f))) (fun _ => fs <> [] /\ (n = 0 \/ forall f, In f fs -> known f)) (permutation_importance N Rg srt (Some P) m X y n (Some fs)).
  Proof.
    unfold permutation_importance. eapply out_andthen; [apply out_score, shaped_X|intros e []|]. intros base _. eapply out_andthen; [apply out_corrupt_loop, shaped_X| |].
    - intros e [-> Hn]. split; [reflexivity|]. intros [_ H]. apply Hn. intros f Hf. apply in_concat in Hf as (l & Hl & Hf). destruct H as [->|H]; [destruct Hl|]. apply repeat_spec in Hl as ->. apply H, Hf.
    - intros scores H. cbv beta zeta in *. assert (K : n = 0 \/ forall f, In f fs -> known f).
      { destruct n as [|n]; [left; reflexivity|right]. intros f Hf. apply H. apply in_concat. exists fs. split; [left; reflexivity|exact Hf]. }
      destruct fs as [|f fs]; [cbn [dedup map]; apply out_raise; split; [reflexivity|]; intros [Hne _]; congruence|]. cbn [dedup map]. apply out_ret. split; [discriminate|exact K].
  Qed.
End Outcomes.

(** ** The method *)
Section Fit.
  Context {C V G : Type} (N : num_ops V) (Rg : rng_ops G) (HR : rng_ok Rg) (srt : sorter) (m : metric V) (Hm : library_metric N m) (e : G) (s : sstate C V G) (a : sargs C V).

  (** with a working model and a target that can be compared with its predictions, [fit] either succeeds or raises
      KeyError, and it succeeds exactly if there is a feature and all are columns of the data
      (without repetitions the columns are never looked up) *)
  Theorem C141_features P Xs ys g1 : wf_frame (sa_X a) -> sample_both Rg (sj_rng s) (sa_X a) (sa_y a) (sa_n a) = Ok (Xs, ys, g1) ->
    md_predict (sa_model a) = Some P -> answers P -> comparable N m ys (length (f_rows Xs)) ->
    (snd (fst (sj_fit N Rg srt m e s a)) = Ok tt <-> included a <> [] /\ (sa_repeat a = 0 \/ forall f, In f (included a) -> In f (f_cols (sa_X a))))
    /\ (snd (fst (sj_fit N Rg srt m e s a)) <> Ok tt -> snd (fst (sj_fit N Rg srt m e s a)) = Err KeyError).
  Proof.
    intros HX Hs HPf HP Hy. destruct (sample_both_frame Rg HR _ _ _ _ _ _ _ HX Hs) as (_ & HXs & Hcols). unfold sj_fit. rewrite Hs, HPf. fold (included a). cbv zeta. rewrite <- Hcols.
    pose proof (out_ovo N Rg HR srt P HP m Hm Xs HXs ys Hy (combinations2 (included a)) (sa_repeat a) {| p_log := []; p_rng := g1 |}) as O1.
    destruct (perf_based_ovo N Rg srt (Some P) m Xs ys (combinations2 (included a)) (sa_repeat a) {| p_log := []; p_rng := g1 |}) as [s1 [t|er]]; cbn [fst snd] in *.
    - pose proof (out_importance N Rg HR srt P HP m Hm Xs HXs ys Hy (sa_repeat a) (included a) {| p_log := p_log s1; p_rng := e |}) as O2.
      destruct (permutation_importance N Rg srt (Some P) m Xs ys (sa_repeat a) (Some (included a)) {| p_log := p_log s1; p_rng := e |}) as [s2 [fi|er]]; cbn [fst snd] in *.
      + split; [tauto|congruence].
      + destruct O2 as [-> O2]. split; [split; [discriminate|contradiction]|reflexivity].
    - destruct O1 as [-> O1]. split; [split; [discriminate|]|reflexivity]. intros [Hne H]. exfalso. apply O1. destruct H as [H|H]; [left; exact H|right]. intros p Hp. apply combinations2_In in Hp as []. auto.
  Qed.

  (** a model without a predict method *)
  Theorem C141_no_predict Xs ys g1 : sample_both Rg (sj_rng s) (sa_X a) (sa_y a) (sa_n a) = Ok (Xs, ys, g1) -> md_predict (sa_model a) = None -> snd (fst (sj_fit N Rg srt m e s a)) = Err AttributeError /\ snd (sj_fit N Rg srt m e s a) = [].
  Proof. intros Hs HP. unfold sj_fit. rewrite Hs, HP. cbv zeta. unfold perf_based_ovo, score, andthen, ask. cbn. auto. Qed.
  (** a target that cannot be compared with the predictions, after one request *)
  Theorem C141_lengths P Xs ys g1 : sample_both Rg (sj_rng s) (sa_X a) (sa_y a) (sa_n a) = Ok (Xs, ys, g1) -> md_predict (sa_model a) = Some P -> answers P -> ~ comparable N m ys (length (f_rows Xs)) ->
    snd (fst (sj_fit N Rg srt m e s a)) = Err ValueError /\ snd (sj_fit N Rg srt m e s a) = [f_rows Xs].
  Proof.
    intros Hs HPf HP Hl. unfold sj_fit. rewrite Hs, HPf. cbv zeta. unfold perf_based_ovo, score, andthen, ask, lift. cbn [p_log p_rng length]. destruct (HP 0 (f_rows Xs)) as (l & E & El). rewrite E.
    rewrite (metric_incomparable N m ys l Hm) by (rewrite El; exact Hl). cbn. auto.
  Qed.
  (** the model's own error on the first request *)
  Theorem C141_model_error P Xs ys g1 er : sample_both Rg (sj_rng s) (sa_X a) (sa_y a) (sa_n a) = Ok (Xs, ys, g1) -> md_predict (sa_model a) = Some P -> P 0 (f_rows Xs) = Err er -> snd (fst (sj_fit N Rg srt m e s a)) = Err er.
  Proof. intros Hs HPf E. unfold sj_fit. rewrite Hs, HPf. cbv zeta. unfold perf_based_ovo, score, andthen, ask, lift. cbn [p_log p_rng length]. rewrite E. reflexivity. Qed.
  (** sampling that fails *)
  Theorem C141_sampling er : sample_both Rg (sj_rng s) (sa_X a) (sa_y a) (sa_n a) = Err er ->
    let '(s', r, log) := sj_fit N Rg srt m e s a in r = Err er /\ log = [] /\ sj_ovo s' = sj_ovo s /\ sj_fi s' = sj_fi s /\ sj_X s' = sj_X s /\ sj_features s' = sj_features s.
  Proof. intros Hs. unfold sj_fit. rewrite Hs. cbn. repeat split. Qed.
End Fit.

(** permutation importance on its own *)
Theorem C141_importance {C V G} (N : num_ops V) (Rg : rng_ops G) (HR : rng_ok Rg) srt m P (X : frame C) (y : target V) n fs s : library_metric N m -> answers P -> wf_frame X -> comparable N m y (length (f_rows X)) ->
  ((exists t, snd (permutation_importance N Rg srt (Some P) m X y n (Some fs) s) = Ok t) <-> fs <> [] /\ (n = 0 \/ forall f, In f fs -> In f (f_cols X)))
  /\ forall er, snd (permutation_importance N Rg srt (Some P) m X y n (Some fs) s) = Err er -> er = KeyError.
Proof.
  intros Hm HP HX Hy. pose proof (out_importance N Rg HR srt P HP m Hm X HX y Hy n fs s) as O. destruct (snd (permutation_importance N Rg srt (Some P) m X y n (Some fs) s)) as [t|er].
  - split; [split; [intros _; exact O|eauto]|discriminate].
  - destruct O as [-> O]. split; [split; [intros [t Ht]; discriminate|contradiction]|]. intros er E. injection E as <-. reflexivity.
Qed.

(** ** Concrete runs; the model numbers the rows of a request *)
Definition w_model : model Z (ext Q) := {| md_id := 0; md_proba1 := None; md_predict := Some (fun i rows => Ok (map (fun p => Fin (inject_Z (Z.of_nat (i + fst p) * hd 0%Z (snd p)))) (combine (seq 0 (length rows)) rows))) |}.
Definition w_args (md : model Z (ext Q)) (fs : list string) (k : nat) : sargs Z (ext Q) :=
  {| sa_model := md; sa_X := {| f_cols := ["a"; "b"]; f_index := [0; 1; 2]%Z; f_num := ["a"]; f_rows := [[0; 1]; [1; 1]; [2; 4]]%Z |};
     sa_y := {| t_series := false; t_index := []; t_vals := firstn k [Fin 0; Fin 2; Fin 9]%Q |}; sa_n := None; sa_repeat := 2; sa_features := Some fs |}.
Lemma w_answers : answers (fun i (rows : list (list Z)) => Ok (map (fun p => Fin (inject_Z (Z.of_nat (i + fst p) * hd 0%Z (snd p)))) (combine (seq 0 (length rows)) rows)) : result (list (ext Q))).
Proof. intros i rows. eexists. split; [reflexivity|]. rewrite map_length, combine_length, seq_length. apply Nat.min_id. Qed.
Example C141_example : md_predict w_model <> None
  /\ snd (fst (sj_fit xQ rotR isort (MSE xQ) 0 (sj_init 1) (w_args w_model ["a"; "b"] 3))) = Ok tt /\ snd (fst (sj_fit xQ rotR isort (MSE xQ) 0 (sj_init 1) (w_args w_model ["b"] 3))) = Ok tt
  /\ snd (fst (sj_fit xQ rotR isort (MSE xQ) 0 (sj_init 1) (w_args w_model ["a"; "c"] 3))) = Err KeyError /\ snd (fst (sj_fit xQ rotR isort (MSE xQ) 0 (sj_init 1) (w_args w_model [] 3))) = Err KeyError
  /\ snd (fst (sj_fit xQ rotR isort (MSE xQ) 0 (sj_init 1) (w_args w_model ["a"; "b"] 2))) = Err ValueError
  /\ snd (fst (sj_fit xQ rotR isort (MSE xQ) 0 (sj_init 1) (w_args w_model ["a"; "b"] 1))) = Ok tt
  /\ snd (fst (sj_fit xQ rotR isort (MSE xQ) 0 (sj_init 1) (w_args {| md_id := 1; md_proba1 := None; md_predict := None |} ["a"; "b"] 3))) = Err AttributeError.
Proof.
  assert (W : forall fs, wf_frame (sa_X (w_args w_model fs 3))) by (intros fs; split; [repeat constructor; cbn; intuition congruence|]; split; [repeat constructor|reflexivity]).
  pose proof (fun fs => C141_features xQ rotR rotR_ok isort (MSE xQ) (or_introl eq_refl) 0 (sj_init 1) (w_args w_model fs 3) _ _ _ _ (W fs) eq_refl eq_refl w_answers (or_introl eq_refl)) as F.
  split; [discriminate|]. split; [apply F; split; [discriminate|right; cbn; tauto]|]. split; [apply F; split; [discriminate|right; cbn; tauto]|].
  split; [apply F; intros E; apply F in E as [_ [E|E]]; [discriminate|]; specialize (E "c"); cbn in E; intuition discriminate|]. split; [apply F; intros E; apply F in E as [E _]; apply E; reflexivity|].
  split; [eapply C141_lengths; [left; reflexivity|reflexivity|reflexivity|exact w_answers|unfold comparable; cbn; intros [E|[[_ [E|E]]|[E _]]]; discriminate]|].
  split; [refine (proj2 (proj1 (C141_features xQ rotR rotR_ok isort (MSE xQ) (or_introl eq_refl) 0 (sj_init 1) (w_args w_model ["a"; "b"] 1) _ _ _ _ (W []) eq_refl eq_refl w_answers _)) _); [right; left; split; [reflexivity|left; reflexivity]|split; [discriminate|right; cbn; tauto]]|]. eapply C141_no_predict; reflexivity.
Qed.

Print Assumptions C141_features.
Print Assumptions C141_no_predict.
Print Assumptions C141_lengths.
Print Assumptions C141_model_error.
Print Assumptions C141_sampling.
Print Assumptions C141_importance.
