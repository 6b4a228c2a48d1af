(** Facts about the undirected comparison table of the conditional minimal depth. *)
From Verif Require Import Py Num Sorting Frame CondDepth TreeFacts ForestFacts.

Definition same_pair (a b c d : string) : Prop := a = c /\ b = d \/ a = d /\ b = c.
Definition same_pairb (a b c d : string) : bool := (String.eqb a c && String.eqb b d) || (String.eqb a d && String.eqb b c).
Lemma same_pairb_iff a b c d : same_pairb a b c d = true <-> same_pair a b c d.
Proof. unfold same_pairb, same_pair. rewrite orb_true_iff, !andb_true_iff, !String.eqb_eq. reflexivity. Qed.

Lemma join2_sym a b : join2 a b = join2 b a.
Proof.
  unfold join2. destruct (String.leb a b) eqn:E1, (String.leb b a) eqn:E2; try reflexivity.
  - rewrite (String.leb_antisym _ _ E1 E2). reflexivity.
  - destruct (String.leb_total a b); congruence.
Qed.

Lemma same_pair_join a b c d : same_pair a b c d -> join2 a b = join2 c d.
Proof. intros [[-> ->]|[-> ->]]; [reflexivity|apply join2_sym]. Qed.

(** names of equal length never collide *)
Lemma append_inj a b c d : String.length a = String.length c -> String.append a b = String.append c d -> a = c /\ b = d.
Proof.
  revert c; induction a as [|x a IH]; intros [|y c] Hl E; try discriminate Hl; cbn in *; [auto|].
  injection E as -> E. injection Hl as Hl. destruct (IH c Hl E) as [-> ->]. auto.
Qed.
Lemma join2_inj a b c d n : String.length a = n -> String.length b = n -> String.length c = n -> String.length d = n ->
  join2 a b = join2 c d -> same_pair a b c d.
Proof.
  intros Ha Hb Hc Hd. unfold join2, same_pair. destruct (String.leb a b), (String.leb c d); intros E; apply append_inj in E; intuition congruence.
Qed.

Section Compare.
  Context {V : Type} (N : num_ops V) (srt : sorter).

  Definition about (a b : string) (r : cmd_row V) : bool := same_pairb (cr_root r) (cr_var r) a b.
  (** two rows whose joined names agree are about the same pair *)
  Definition no_collisions (ovo : list (cmd_row V)) : Prop :=
    forall r r', In r ovo -> In r' ovo -> join2 (cr_root r) (cr_var r) = join2 (cr_root r') (cr_var r') ->
    same_pair (cr_root r) (cr_var r) (cr_root r') (cr_var r').

  Lemma compare_spec s ovo : cs_ovo s = Some ovo -> no_collisions ovo -> sorter_ok srt -> num_ord_ok N ->
    exists tab, cmd_compare_ovo N srt s = Ok tab
      /\ StronglySorted (fun a b => le_dir N true (snd a) (snd b) = true) tab
      /\ (forall a b v, In (a, b, v) tab -> (exists r, In r ovo /\ cr_root r = a /\ cr_var r = b)
            /\ v = mean_skip N (map cr_value (filter (about a b) ovo)))
      /\ (forall r, In r ovo -> length (filter (fun e => same_pairb (fst (fst e)) (snd (fst e)) (cr_root r) (cr_var r)) tab) = 1).
  Proof.
    intros Es Hc Hs Hn. unfold cmd_compare_ovo. rewrite Es.
    set (id := fun r => join2 (cr_root r) (cr_var r)).
    set (row := fun k => let g := filter (fun r => String.eqb (id r) k) ovo in
       (match g with r :: _ => (cr_root r, cr_var r) | [] => (EmptyString, EmptyString) end, mean_skip N (map cr_value g))).
    set (keys := dedup_by String.eqb (map id ovo)).
    assert (Hkeys : forall k, In k keys <-> exists r, In r ovo /\ id r = k).
    { intros k. unfold keys. rewrite (dedup_by_In String.eqb String.eqb_eq), in_map_iff. split; intros (r & A & B); eauto. }
    assert (Hrow : forall k, In k keys -> exists r, In r ovo /\ id r = k
       /\ row k = (cr_root r, cr_var r, mean_skip N (map cr_value (filter (about (cr_root r) (cr_var r)) ovo)))).
    { intros k Hk. apply Hkeys in Hk as (r0 & Hr0 & E0). unfold row. cbv zeta.
      destruct (filter (fun r => String.eqb (id r) k) ovo) as [|r g] eqn:Eg.
      - exfalso. assert (H : In r0 (filter (fun r => String.eqb (id r) k) ovo)) by (apply filter_In; split; [exact Hr0|apply String.eqb_eq, E0]).
        rewrite Eg in H. destruct H.
      - assert (H : In r (filter (fun r => String.eqb (id r) k) ovo)) by (rewrite Eg; left; reflexivity).
        apply filter_In in H as [Hr Hk]. apply String.eqb_eq in Hk. exists r. split; [exact Hr|split; [exact Hk|]]. rewrite <- Eg. f_equal. f_equal. f_equal.
        apply filter_ext_in. intros r' Hr'. apply eq_true_iff_eq. rewrite String.eqb_eq. unfold about. rewrite same_pairb_iff. split.
        + intros E. apply Hc; [exact Hr'|exact Hr|]. unfold id in *. congruence.
        + intros E. apply same_pair_join in E. unfold id in *. congruence. }
    destruct (sort_values_ok N srt true (fun r : string * string * V => snd r) (map row keys) Hs Hn) as [HP HS].
    eexists. split; [reflexivity|]. split; [exact HS|]. split.
    - intros a b v H. apply (Permutation_in _ HP) in H. apply in_map_iff in H as (k & E & Hk).
      destruct (Hrow k Hk) as (r & Hr & _ & Er). rewrite Er in E. assert (E1 := f_equal fst E). assert (E2 := f_equal snd E). cbn [fst snd] in E1, E2.
      assert (Ea : cr_root r = a) by congruence. assert (Eb : cr_var r = b) by congruence. subst a b. split; [exists r; auto|]. symmetry; exact E2.
    - intros r Hr. rewrite (Permutation_length (Permutation_filter _ _ _ HP)).
      assert (Hn' : NoDup keys) by apply (dedup_by_NoDup String.eqb String.eqb_eq).
      assert (Hin : In (id r) keys) by (apply Hkeys; eauto).
      assert (G : forall ks, (forall k, In k ks -> In k keys) ->
        length (filter (fun e => same_pairb (fst (fst e)) (snd (fst e)) (cr_root r) (cr_var r)) (map row ks)) = length (filter (fun k => String.eqb k (id r)) ks)).
      { induction ks as [|k ks IH]; intros Hks; [reflexivity|]. cbn [map filter].
        destruct (Hrow k (Hks k (or_introl eq_refl))) as (r' & Hr' & Ek & Er). rewrite Er. cbn [fst snd].
        assert (E : same_pairb (cr_root r') (cr_var r') (cr_root r) (cr_var r) = String.eqb k (id r)).
        { apply eq_true_iff_eq. rewrite same_pairb_iff, String.eqb_eq. split.
          - intros E. apply same_pair_join in E. unfold id in *. congruence.
          - intros E. apply Hc; [exact Hr'|exact Hr|]. unfold id in *. congruence. }
        rewrite E. destruct (String.eqb k (id r)); cbn [length]; rewrite IH by (intros; apply Hks; right; assumption); reflexivity. }
      rewrite G by auto. clear -Hn' Hin. induction Hn' as [|k ks Hx Hn' IH]; [destruct Hin|]. cbn. destruct (String.eqb_spec k (id r)) as [->|Hne].
      + cbn. f_equal. rewrite filter_none_all; [reflexivity|]. intros y Hy. apply String.eqb_neq. congruence.
      + apply IH. destruct Hin; [congruence|assumption].
  Qed.

  (** the rows about a pair, when every ordered pair is listed once *)
  Lemma about_two ovo r1 r2 : NoDup (map (fun r => (cr_root r, cr_var r)) ovo) -> In r1 ovo -> In r2 ovo ->
    cr_root r1 = cr_var r2 -> cr_var r1 = cr_root r2 -> cr_root r1 <> cr_var r1 ->
    Permutation (filter (about (cr_root r1) (cr_var r1)) ovo) [r1; r2].
  Proof.
    intros Hn H1 H2 E1 E2 Hne. apply NoDup_Permutation.
    - apply NoDup_filter. clear -Hn. induction ovo as [|x l IH]; [constructor|]. cbn in Hn. inversion Hn as [|? ? Hx Hn']; subst.
      constructor; [|auto]. intros H. apply Hx. apply (in_map (fun r => (cr_root r, cr_var r)) l x H).
    - constructor; [intros [H|[]]; subst; congruence|constructor; [intros []|constructor]].
    - assert (Hu : forall a b, In a ovo -> In b ovo -> cr_root a = cr_root b -> cr_var a = cr_var b -> a = b).
      { clear -Hn. intros a b Ha Hb E F. induction ovo as [|x l IH]; [destruct Ha|]. cbn in Hn. inversion Hn as [|? ? Hx Hn']; subst.
        destruct Ha as [<-|Ha], Hb as [<-|Hb]; [reflexivity| | |auto]; exfalso; apply Hx.
        - rewrite E, F. apply (in_map (fun r => (cr_root r, cr_var r)) l b Hb).
        - rewrite <- E, <- F. apply (in_map (fun r => (cr_root r, cr_var r)) l a Ha). }
      intros r. rewrite filter_In. unfold about. rewrite same_pairb_iff. split.
      + intros [Hr [[A B]|[A B]]]; [left|right; left]; symmetry; apply Hu; congruence.
      + intros [<-|[<-|[]]]; (split; [assumption|]); [left|right]; split; congruence.
  Qed.
End Compare.
