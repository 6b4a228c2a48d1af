(** Facts about the zen plot loop. *)
From Verif Require Import Py Num Sorting Frame Rng PdCalc PdMethods Zenplot.
Open Scope string_scope.
Open Scope nat_scope.
Open Scope list_scope.

Section ZenFacts.
  Context {C V G : Type} (O : cell_ops C) (N : num_ops V).
  Hypothesis HN : num_ord_ok N.
  Notation table := (list (string * string * V)).
  Notation lrow := (nat * (string * string * V))%type.

  Lemma loc_split (l1 l2 : list lrow) i r : NoDup (map fst (l1 ++ (i, r) :: l2)) -> loc i (l1 ++ (i, r) :: l2) = Ok r /\ drop_row i (l1 ++ (i, r) :: l2) = l1 ++ l2.
  Proof.
    intros H. rewrite map_app in H. cbn [map fst] in H. apply NoDup_remove in H as [_ Hn].
    assert (Hd : forall l : list lrow, ~ In i (map fst l) -> filter (fun x => fst x =? i) l = [] /\ drop_row i l = l).
    { induction l as [|[j y] l IH]; [split; reflexivity|]. cbn [map fst In]. intros Hi. destruct IH as [H1 H2]; [auto|].
      unfold drop_row in *. cbn [filter fst]. destruct (Nat.eqb_spec j i) as [->|_]; [exfalso; auto|]. cbn [negb]. rewrite H1, H2. auto. }
    rewrite in_app_iff in Hn. destruct (Hd l1 ltac:(auto)) as [A1 B1]. destruct (Hd l2 ltac:(auto)) as [A2 B2].
    unfold loc, drop_row in *. rewrite !filter_app. cbn [filter fst]. rewrite Nat.eqb_refl. cbn [negb]. rewrite A1, B1, B2. auto.
  Qed.

  Lemma idxmax_ok (l : list lrow) i : idxmax N l = Ok i -> exists r, In (i, r) l /\ forall x, In x l -> n_ltb N (snd r) (snd (snd x)) = false.
  Proof.
    unfold idxmax. assert (Hf : forall x, In x l -> In x (filter (fun r => negb (n_isnan N (snd (snd r)))) l) \/ n_isnan N (snd (snd x)) = true).
    { intros x Hx. destruct (n_isnan N (snd (snd x))) eqn:E; [auto|]. left. apply filter_In. rewrite E. auto. }
    assert (Hi : forall x, In x (filter (fun r => negb (n_isnan N (snd (snd r)))) l) -> In x l /\ n_isnan N (snd (snd x)) = false).
    { intros x Hx. apply filter_In in Hx as [H1 H2]. apply negb_true_iff in H2. auto. }
    destruct (filter _ l) as [|x0 t]; [discriminate|]. intros [= <-].
    set (m := fold_left _ t x0).
    assert (Hm : (In m (x0 :: t)) /\ forall x, In x (x0 :: t) -> n_ltb N (snd (snd m)) (snd (snd x)) = false).
    { clear Hf. assert (Hnn : forall x, In x (x0 :: t) -> n_isnan N (snd (snd x)) = false) by (intros x Hx; apply Hi, Hx). clear Hi. subst m. revert x0 Hnn.
      induction t as [|y t IH]; intros x0 Hnn; cbn [fold_left].
      - split; [left; reflexivity|]. intros x [<-|[]]. apply (no_irrefl N HN).
      - destruct (n_ltb N (snd (snd x0)) (snd (snd y))) eqn:E.
        + destruct (IH y) as [H1 H2]; [intros; apply Hnn; right; assumption|]. split; [right; exact H1|]. intros x [<-|Hx]; [|apply H2, Hx].
          specialize (H2 y (or_introl eq_refl)). destruct (n_ltb N (snd (snd (fold_left _ t y))) (snd (snd x0))) eqn:E'; [|reflexivity].
          rewrite (no_trans N HN _ _ _ E' E) in H2. discriminate.
        + destruct (IH x0) as [H1 H2]; [intros x Hx; apply Hnn; destruct Hx; [left|right; right]; assumption|]. split; [destruct H1; [left|right; right]; assumption|].
          intros x [<-|[<-|Hx]]; [apply H2; left; reflexivity| |apply H2; right; exact Hx].
          specialize (H2 x0 (or_introl eq_refl)). refine (no_negtrans N HN _ _ _ _ H2 E). apply Hnn. left. reflexivity. }
    destruct Hm as [Hm1 Hm2]. exists (snd m). rewrite <- surjective_pairing. destruct (Hi m Hm1) as [HmI HmN]. split; [exact HmI|].
    intros x Hx. destruct (Hf x Hx) as [H|H]; [apply Hm2, H|apply (no_nan_r N HN), H].
  Qed.
  Lemma idxmax_total (l : list lrow) : l <> [] -> (forall x, In x l -> n_isnan N (snd (snd x)) = false) -> exists i, idxmax N l = Ok i.
  Proof.
    intros Hne Hn. unfold idxmax. destruct l as [|x l]; [congruence|]. cbn [filter]. rewrite (Hn x (or_introl eq_refl)). cbn [negb]. eauto.
  Qed.

  Lemma find_next_ok (l : list lrow) f i b : find_next_pair_index N l f = Ok (i, b) ->
    exists l1 r l2, l = l1 ++ (i, r) :: l2
      /\ if b then joins f (i, r) = true /\ (forall x, In x l -> joins f x = true -> n_ltb N (snd r) (snd (snd x)) = false)
         else l1 = [] /\ forall x, In x l -> joins f x = false.
  Proof.
    unfold find_next_pair_index. destruct (filter (joins f) l) as [|x0 t] eqn:E.
    - destruct l as [|[j r] l']; [discriminate|]. intros [= <- <-]. exists [], r, l'. split; [reflexivity|]. split; [reflexivity|].
      intros x Hx. destruct (joins f x) eqn:Ej; [|reflexivity]. assert (H : In x []) by (rewrite <- E; apply filter_In; auto). destruct H.
    - destruct (idxmax N (x0 :: t)) as [j|] eqn:Ei; [|discriminate]. cbn [bind]. intros [= <- <-]. apply idxmax_ok in Ei as (r & Hin & Hmx). rewrite <- E in Hin, Hmx.
      apply filter_In in Hin as [Hin Hj]. apply in_split in Hin as (l1 & l2 & ->). exists l1, r, l2. split; [reflexivity|]. split; [exact Hj|].
      intros x Hx Hxj. apply Hmx, filter_In. auto.
  Qed.
  Lemma find_next_total (l : list lrow) f : l <> [] -> (forall x, In x l -> n_isnan N (snd (snd x)) = false) -> exists ib, find_next_pair_index N l f = Ok ib.
  Proof.
    intros Hne Hn. unfold find_next_pair_index. destruct (filter (joins f) l) as [|x0 t] eqn:E.
    - destruct l; [congruence|]. eauto.
    - destruct (idxmax_total (x0 :: t)) as (i & ->); [discriminate| |cbn [bind]; eauto]. intros x Hx. rewrite <- E in Hx. apply filter_In in Hx. apply Hn, Hx.
  Qed.
End ZenFacts.
