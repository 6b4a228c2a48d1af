(** When Greenwell's measure is undefined. *)
From Verif Require Import Py Num NumR Sorting Frame Rng PdCalc PdSpec PdFacts PdTheorems PdMethods MethodSpec PdMethodFacts PdMethodRun PdMethodReal PdMethodReal2.
Open Scope nat_scope.

Section Err.
  Context {V : Type} (N : num_ops V).

  Lemma conditional_imp_cases num (l : list V) : l <> [] ->
    (2 <= length l -> exists v, conditional_imp N num l = Ok v)
    /\ ((exists v, conditional_imp N num l = Ok v) \/ conditional_imp N num l = Err StatisticsError).
  Proof.
    intros Hne. unfold conditional_imp. destruct num.
    - unfold stat_stdev. destruct (Nat.ltb_spec (length l) 2); split; eauto; intros; lia.
    - destruct l as [|x t]; [congruence|]. cbn. eauto.
  Qed.

  Lemma mapM_length {A B} (f : A -> result B) l ys : mapM f l = Ok ys -> length ys = length l.
  Proof. intros H; apply mapM_Ok_inv in H. induction H; cbn; congruence. Qed.

  Lemma mapM_ok_or_err {A B} (f : A -> result B) l e0 : (forall x, In x l -> (exists v, f x = Ok v) \/ f x = Err e0) ->
    (exists ys, mapM f l = Ok ys) \/ mapM f l = Err e0.
  Proof.
    induction l as [|x t IH]; intros H; cbn; [eauto|].
    destruct (H x (or_introl eq_refl)) as [(v & ->)| ->]; cbn [bind]; [|auto].
    destruct IH as [(ys & ->)| ->]; [intros; apply H; right; assumption|cbn; eauto|cbn; auto].
  Qed.

  Lemma mapM_ok {A B} (f : A -> result B) l : (forall x, In x l -> exists v, f x = Ok v) -> exists ys, mapM f l = Ok ys.
  Proof.
    induction l as [|x t IH]; intros H; cbn; [eauto|].
    destruct (H x (or_introl eq_refl)) as (v & ->); cbn [bind].
    destruct IH as (ys & ->); [intros; apply H; right; assumption|cbn; eauto].
  Qed.

  Lemma along_cases num (slices : list (list V)) : slices <> [] -> (forall s, In s slices -> s <> []) ->
    ((exists l, along (conditional_imp N num) slices = Ok l /\ length l = length slices) \/ along (conditional_imp N num) slices = Err StatisticsError)
    /\ ((forall s, In s slices -> 2 <= length s) -> exists l, along (conditional_imp N num) slices = Ok l /\ length l = length slices).
  Proof.
    intros Hne Hs. unfold along. destruct slices as [|s0 t] eqn:E; [congruence|]. rewrite <- E in *. split.
    - destruct (mapM_ok_or_err (conditional_imp N num) slices StatisticsError) as [(ys & Hy)|Hy]; eauto.
      + intros s Hin. apply conditional_imp_cases, Hs, Hin.
      + left. exists ys. split; [exact Hy|]. eapply mapM_length, Hy.
    - intros H2. destruct (mapM_ok (conditional_imp N num) slices) as (ys & Hy).
      + intros s Hin. apply conditional_imp_cases; auto.
      + exists ys. split; [exact Hy|]. eapply mapM_length, Hy.
  Qed.

  Lemma stdev_cases (l : list V) : (2 <= length l -> exists v, stat_stdev N l = Ok v) /\ (length l < 2 -> stat_stdev N l = Err StatisticsError).
  Proof. unfold stat_stdev. destruct (Nat.ltb_spec (length l) 2); split; eauto; intros; lia. Qed.

  (** the value of a pair is undefined exactly when one of the features has one value *)
  Lemma greenwell_value_cases {C} num1 num2 (f : C -> C -> V) (gp gq : list C) : gp <> [] -> gq <> [] ->
    let r := greenwell_value N num1 num2 (length gq) (map (fun v => map (fun u => f v u) gq) gp) in
    (2 <= length gp /\ 2 <= length gq -> exists v, r = Ok v) /\ (length gp < 2 \/ length gq < 2 -> r = Err StatisticsError).
  Proof.
    intros Np Nq r. subst r. unfold greenwell_value. rewrite columns_of_map.
    destruct (along_cases num2 (map (fun v => map (fun u => f v u) gq) gp)) as [A1 A2].
    { destruct gp; [congruence|discriminate]. }
    { intros s Hs. apply in_map_iff in Hs as (v & <- & _). destruct gq; [congruence|discriminate]. }
    destruct (along_cases num1 (map (fun u => map (fun v => f v u) gp) gq)) as [B1 B2].
    { destruct gq; [congruence|discriminate]. }
    { intros s Hs. apply in_map_iff in Hs as (v & <- & _). destruct gp; [congruence|discriminate]. }
    rewrite map_length in A1, A2, B1, B2. split.
    - intros [Hp Hq].
      destruct A2 as (la & Ea & La). { intros s Hs. apply in_map_iff in Hs as (v & <- & _). rewrite map_length; exact Hq. }
      destruct B2 as (lb & Eb & Lb). { intros s Hs. apply in_map_iff in Hs as (v & <- & _). rewrite map_length; exact Hp. }
      rewrite Ea. cbn [bind]. destruct (stdev_cases la) as [Sa _]. destruct Sa as (x & ->); [lia|]. cbn [bind].
      rewrite Eb. cbn [bind]. destruct (stdev_cases lb) as [Sb _]. destruct Sb as (y & ->); [lia|]. cbn [bind]. eauto.
    - intros H. destruct A1 as [(la & -> & La)| ->]; [cbn [bind]|reflexivity].
      destruct (stdev_cases la) as [Sa Sa']. destruct (Nat.lt_ge_cases (length gp) 2) as [Hlt|Hge].
      { rewrite Sa' by lia. reflexivity. }
      destruct Sa as (x & ->); [lia|]. cbn [bind].
      destruct B1 as [(lb & -> & Lb)| ->]; [cbn [bind]|reflexivity].
      destruct (stdev_cases lb) as [_ Sb']. rewrite Sb' by lia. reflexivity.
  Qed.
End Err.

Section Distinct.
  Context {C : Type} (O : cell_ops C) (HO : cell_ok O).

  (** a column without missing values has fewer than two distinct values iff it is constant *)
  Lemma unique_lt2 l : (forall v, In v l -> c_isnan O v = false) -> (length (np_unique O l) < 2 <-> forall v u, In v l -> In u l -> v = u).
  Proof.
    intros Hn. split.
    - intros Hl v u Hv Hu. apply (np_unique_In O HO) in Hv; [|auto]. apply (np_unique_In O HO) in Hu; [|auto].
      destruct (np_unique O l) as [|a [|b t]]; [destruct Hv| |cbn in Hl; lia]. destruct Hv as [<-|[]]. destruct Hu as [<-|[]]. reflexivity.
    - intros H. pose proof (np_unique_NoDup O HO l) as Hnd. destruct (np_unique O l) as [|a [|b t]] eqn:E; [cbn; lia..|].
      exfalso. assert (a = b).
      { apply H; apply (np_unique_sub O HO); rewrite E; cbn; auto. }
      subst b. inversion Hnd as [|? ? Hni _]. apply Hni; cbn; auto.
  Qed.
End Distinct.

Section Raw.
  Context {C V : Type} (O : cell_ops C) (N : num_ops V) (HO : cell_ok O).

  Lemma greenwell_raw_cases X g fs (p : string * string) : wf_frame X -> f_rows X <> [] ->
    In (fst p) (f_cols X) -> In (snd p) (f_cols X) ->
    let n f := length (np_unique O (col_at (posn X f) (f_rows X))) in
    (2 <= n (fst p) /\ 2 <= n (snd p) -> exists v, greenwell_raw O N X g fs p = Ok v)
    /\ (n (fst p) < 2 \/ n (snd p) < 2 -> greenwell_raw O N X g fs p = Err StatisticsError).
  Proof.
    intros HX Hne H1 H2 n.
    assert (Hg : forall f, In f (f_cols X) -> np_unique O (col_at (posn X f) (f_rows X)) <> []).
    { intros f Hf E. apply (proj1 (np_unique_nil O HO _)) in E. apply In_nth_error in Hf as (i & Hi). rewrite (posn_nth X i f HX Hi) in E.
      destruct (f_rows X) as [|r t] eqn:Er; [congruence|]. 
      assert (Hr : i < length r) by (apply (wf_len X i f r HX Hi); rewrite Er; cbn; auto).
      unfold col_at in E. cbn [flat_map] in E. destruct (nth_error r i) eqn:Ei; [discriminate|]. apply nth_error_None in Ei. lia. }
    unfold greenwell_raw. cbv zeta. unfold ordered. destruct (_ <? _); cbn [fst snd]; unfold gmat, n.
    - apply greenwell_value_cases; auto.
    - destruct (greenwell_value_cases N (is_numerical X fs (snd p)) (is_numerical X fs (fst p))
         (fun v w => PD2 (np_mean N) g (f_rows X) (posn X (snd p)) (posn X (fst p)) v w)
         (np_unique O (col_at (posn X (snd p)) (f_rows X))) (np_unique O (col_at (posn X (fst p)) (f_rows X)))) as [A B]; auto.
      split; [intros []; apply A; auto|intros []; apply B; auto].
  Qed.
End Raw.
