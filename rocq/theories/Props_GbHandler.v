(** C131: a handler that is given several models. *)
From Verif Require Import Py Num NumR Sorting Frame CondDepth TreeFacts ForestFacts SplitScore SplitFacts SplitTables SplitImp Props_Split Props_Split2 GbHandler.
From Coq Require Import QArith.
Open Scope string_scope.
Open Scope nat_scope.
Open Scope list_scope.

Section Handler.
  Context {V : Type} (N : num_ops V) (srt : sorter).
  Notation unify_again := (unify_again (V := V)).

  (** the object passed to [unify_structure] is this trained model *)
  Definition presents (m : gb_model V) : hmodel V := {| hm_class := gm_class m; hm_dump := Ok (gm_dump m) |}.
  (** what a fit on the model itself does *)
  Definition explains_model (h : hobject V) (m : gb_model V) : Prop :=
    forall s im fm od, fit_object N srt s h im fm od = ss_fit N srt s (Model m) im fm od.

  Lemma unify_outcome h m : snd (unify_again h (presents m)) = match unify_structure m with Ok _ => Ok tt | Err e => Err e end.
  Proof.
    unfold GbHandler.unify_again, unify_structure, unified_trees, presents. cbn [hm_class hm_dump bind]. destruct (String.eqb _ "xgboost"); cbn [orb]; [destruct (gm_dump m); reflexivity|].
    destruct (String.eqb _ "lightgbm"); [destruct (gm_dump m); reflexivity|reflexivity].
  Qed.
  Lemma unified_object h m g : unify_structure m = Ok g -> fst (unify_again h (presents m)) = {| ho_package := Some (before_dot (gm_class m)); ho_trees := Some (h_trees g) |}
    /\ as_package (before_dot (gm_class m)) = h_package g /\ forall im fm, check_package (before_dot (gm_class m)) im fm = check_metrics (h_package g) im fm.
  Proof.
    unfold GbHandler.unify_again, unify_structure, unified_trees, presents, as_package, check_package. cbn [hm_class hm_dump bind]. destruct (String.eqb_spec (before_dot (gm_class m)) "xgboost") as [Ex|]; cbn [orb].
    - destruct (gm_dump m); intros E; [|discriminate E]. injection E as <-. split; [reflexivity|]. split; [reflexivity|]. intros im fm. rewrite Ex. reflexivity.
    - destruct (String.eqb _ "lightgbm"); [|discriminate]. destruct (gm_dump m); intros E; [discriminate E|]. injection E as <-. repeat split; reflexivity.
  Qed.

  (** a model is accepted by a handler with any past exactly when it is accepted by a new one, and
      the fits on the handler are then the fits on the model *)
  Theorem C131_accepted h m : snd (unify_again h (presents m)) = snd (unify_again ho_new (presents m))
    /\ (snd (unify_again h (presents m)) = Ok tt ->
        fst (unify_again h (presents m)) = fst (unify_again ho_new (presents m)) /\ explains_model (fst (unify_again h (presents m))) m).
  Proof.
    split; [rewrite !unify_outcome; reflexivity|]. rewrite unify_outcome. destruct (unify_structure m) as [g|e] eqn:E; [|discriminate]. intros _.
    destruct (unified_object h m g E) as (-> & Hp & Hc). destruct (unified_object ho_new m g E) as (-> & _). split; [reflexivity|].
    intros s im fm od. unfold fit_object, ss_fit. rewrite E. cbn [ho_package ho_trees bind]. rewrite Hc, Hp. destruct (check_metrics (h_package g) im fm); cbn [bind]; [|reflexivity].
    destruct (full_result N (h_package g) (h_trees g)) as [full|]; cbn [bind]; reflexivity.
  Qed.
  (** so what was passed before the last accepted model is forgotten *)
  Theorem C131_last h ms m : snd (unify_again (unify_all h ms) (presents m)) = Ok tt ->
    unify_all h (ms ++ [presents m]) = fst (unify_again ho_new (presents m)) /\ explains_model (unify_all h (ms ++ [presents m])) m.
  Proof. intros H. unfold unify_all at 1 2. rewrite fold_left_app. apply C131_accepted, H. Qed.

  (** anything that is not accepted leaves the trees *)
  Theorem C131_trees_partial h m e : snd (unify_again h m) = Err e ->
    ho_trees (fst (unify_again h m)) = ho_trees h /\ ho_package (fst (unify_again h m)) = Some (before_dot (hm_class m)).
  Proof.
    unfold GbHandler.unify_again. destruct (_ || _); [|intros _; split; reflexivity]. destruct (bind (hm_dump m) _); cbn; [discriminate|]. intros _. split; reflexivity.
  Qed.
  (** as long as it is of the package of the last accepted model, nothing has changed *)
  Theorem C131_rejected_partial h m bad e : snd (unify_again h (presents m)) = Ok tt -> let h1 := fst (unify_again h (presents m)) in
    snd (unify_again h1 bad) = Err e -> before_dot (hm_class bad) = before_dot (gm_class m) ->
    fst (unify_again h1 bad) = h1 /\ explains_model (fst (unify_again h1 bad)) m.
  Proof.
    intros H h1 He Hb. destruct (C131_accepted h m) as [_ HA]. destruct (HA H) as [_ HE]. fold h1 in HE.
    assert (E : fst (unify_again h1 bad) = h1); [|split; [exact E|rewrite E; exact HE]].
    destruct (C131_trees_partial h1 bad e He) as [Ht Hp]. assert (Hp1 : ho_package h1 = Some (before_dot (gm_class m))).
    { rewrite unify_outcome in H. destruct (unify_structure m) as [g|] eqn:Eg; [|discriminate]. unfold h1. destruct (unified_object h m g Eg) as (-> & _). reflexivity. }
    destruct (fst (unify_again h1 bad)) as [p t] eqn:Ef. cbn in Ht, Hp. subst. destruct h1 as [p1 t1]. cbn in *. congruence.
  Qed.

  (** a handler that was never given a model, or none that it accepted, cannot be explained *)
  Theorem C131_no_model ms s im fm od : Forall (fun m => forall h, exists e, snd (unify_again h m) = Err e) ms ->
    let r := fit_object N srt s (unify_all ho_new ms) im fm od in
    (exists e, snd r = Err e /\ (e = AttributeError \/ e = MetricNotSupported)) /\ ss_ovo (fst r) = ss_ovo s /\ ss_full_ovo (fst r) = ss_full_ovo s /\ ss_fi (fst r) = ss_fi s.
  Proof.
    intros H r. assert (Ht : ho_trees (unify_all ho_new ms) = None).
    { unfold unify_all. assert (G : forall h, ho_trees (fold_left (fun h m => fst (unify_again h m)) ms h) = ho_trees h); [|apply G]. induction H as [|m ms Hm HF IH]; intros h; [reflexivity|]. cbn [fold_left]. rewrite IH.
      destruct (Hm h) as (e & He). apply (C131_trees_partial h m e He). }
    subst r. unfold fit_object. rewrite Ht. destruct (ho_package _) as [p|]; cbn [bind]; [|cbn; eauto 8].
    unfold check_package. destruct (String.eqb p "lightgbm"); [destruct (lgbm_unsupported im); [cbn; eauto 8|]; destruct (lgbm_unsupported fm); cbn; eauto 8|cbn; eauto 8].
  Qed.
End Handler.

(** ** Examples and refuted expectations *)

Definition ex_lg : list (gtree (ext Q)) := [GSplit 0 "a" (q 4) None (GSplit 1 "b" (q 5) None (GLeaf 3) (GLeaf 4)) (GSplit 2 "a" (q 2) None (GLeaf 5) (GLeaf 6))].
Lemma ex_lg_trained : trained (lgb_of ex_lg) Lightgbm ex_lg (map bfs_list ex_lg).
Proof. apply lgb_trained; [intros t Ht; cbn in Ht; in_cases Ht; listing_tac|intros t e Ht He; cbn in Ht; in_cases Ht; vm_compute in He; in_cases He; reflexivity]. Qed.

(** a handler that saw a LightGBM model, a rejected one and an XGBoost model explains the last *)
Definition ex_bad : hmodel (ext Q) := {| hm_class := "sklearn.ensemble._forest.RandomForestRegressor"; hm_dump := Err AttributeError |}.
Definition ex_dataset : hmodel (ext Q) := {| hm_class := "lightgbm.basic.Dataset"; hm_dump := Err AttributeError |}.
Example C131_example : snd (unify_again (unify_all ho_new [presents (lgb_of ex_lg); ex_bad]) (presents (xgb_of ex_ts))) = Ok tt
  /\ (exists s', fit_object xQ isort ss_init (unify_all ho_new [presents (lgb_of ex_lg); ex_bad; presents (xgb_of ex_ts)]) "mean_depth" "mean_gain" true = (s', Ok tt))
  /\ Forall (fun m => forall h, exists e, snd (unify_again h m) = Err e) [ex_bad; ex_dataset]
  /\ (let h1 := fst (unify_again ho_new (presents (lgb_of ex_lg))) in snd (unify_again h1 ex_dataset) = Err AttributeError /\ before_dot (hm_class ex_dataset) = before_dot (gm_class (lgb_of ex_lg))).
Proof.
  split; [vm_compute; reflexivity|]. split; [eexists; vm_compute; reflexivity|]. split; [|split; vm_compute; reflexivity].
  repeat constructor; intros h; eexists; reflexivity.
Qed.

(** a rejected model changes what a fit does: the metrics LightGBM does not support are no longer
    rejected, and zeros are reported *)
Theorem C131_metric_refuted : exists m bad ts Ls s s', trained m Lightgbm ts Ls
  /\ (let h := fst (unify_again ho_new (presents m)) in
      snd (unify_again ho_new (presents m)) = Ok tt /\ snd (unify_again h bad) = Err ModelNotSupported
      /\ snd (fit_object xQ isort s h "sum_cover" "mean_gain" true) = Err MetricNotSupported
      /\ fit_object xQ isort s (fst (unify_again h bad)) "sum_cover" "mean_gain" true = (s', Ok tt)
      /\ exists t, ss_ovo s' = Some t /\ t <> [] /\ forall r, In r t -> snd r = q 0).
Proof.
  exists (lgb_of ex_lg), ex_bad, ex_lg, (map bfs_list ex_lg), ss_init. eexists. split; [exact ex_lg_trained|].
  split; [vm_compute; reflexivity|]. split; [vm_compute; reflexivity|]. split; [vm_compute; reflexivity|]. split; [vm_compute; reflexivity|].
  eexists. split; [reflexivity|]. split; [discriminate|]. intros r Hr. cbn in Hr. repeat (destruct Hr as [<-|Hr]; [reflexivity|]). destruct Hr.
Qed.

(** after a failed call with an object of the other package the depths of the XGBoost trees are
    missing from the table *)
Theorem C131_depth_refuted : exists m bad ts Ls s s1 s2, trained m Xgboost ts Ls /\ no_leaf_name ts
  /\ (let h := fst (unify_again ho_new (presents m)) in
      snd (unify_again ho_new (presents m)) = Ok tt /\ snd (unify_again h bad) = Err AttributeError
      /\ fit_object xQ isort s h "mean_depth" "mean_gain" true = (s1, Ok tt)
      /\ fit_object xQ isort s (fst (unify_again h bad)) "mean_depth" "mean_gain" true = (s2, Ok tt)
      /\ (exists t, ss_ovo s1 = Some t /\ t <> [] /\ forall r, In r t -> n_isnan xQ (snd r) = false)
      /\ exists t, ss_ovo s2 = Some t /\ t <> [] /\ forall r, In r t -> n_isnan xQ (snd r) = true).
Proof.
  exists (xgb_of ex_ts), ex_dataset, ex_ts, (map bfs_list ex_ts), ss_init. eexists _, _. split; [xgb_tac|]. split; [leaf_tac|].
  split; [vm_compute; reflexivity|]. split; [vm_compute; reflexivity|]. split; [vm_compute; reflexivity|]. split; [vm_compute; reflexivity|].
  split; (eexists; split; [reflexivity|]; split; [discriminate|]; intros r Hr; cbn in Hr; repeat (destruct Hr as [<-|Hr]; [reflexivity|]); destruct Hr).
Qed.

Print Assumptions C131_accepted.
Print Assumptions C131_last.
Print Assumptions C131_trees_partial.
Print Assumptions C131_rejected_partial.
Print Assumptions C131_no_model.
Print Assumptions C131_metric_refuted.
Print Assumptions C131_depth_refuted.
