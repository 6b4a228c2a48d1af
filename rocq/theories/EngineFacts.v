(** Invariants of the batching skeleton of [PdCalc]. *)
From Verif Require Import Py Num Frame PdCalc.

(** What the engine needs to know about a table: writing a key changes that cell only. *)
Record tlaws {K T V Sh : Type} (keqb : K -> K -> bool) (tset : K -> V -> T -> result T)
  (tget : T -> K -> option V) (sh : T -> Sh) : Prop := {
  tl_eq : forall a b, keqb a b = true -> a = b;
  tl_refl : forall k x t t', tset k x t = Ok t' -> keqb k k = true;
  tl_sh : forall k x t t', tset k x t = Ok t' -> sh t' = sh t;
  tl_same : forall k x t t', tset k x t = Ok t' -> tget t' k = Some x;
  tl_other : forall k x t t' k', tset k x t = Ok t' -> k' <> k -> tget t' k' = tget t k' }.

Section EngineFacts.
  Context {K T C V Sh : Type}.
  Variable predict : nat -> list (list C) -> result (list V).
  Variable mean : list V -> V.
  Variable keqb : K -> K -> bool.
  Variable job : K -> list (list C).
  Variable tset : K -> V -> T -> result T.
  Variable xlen : nat.
  Variable batchsize : Z.
  Variable isnan : V -> bool.
  Variable tget : T -> K -> option V.
  Variable sh : T -> Sh.                     (* the immutable part of the table *)

  Hypothesis L : tlaws keqb tset tget sh.
  Let keqb_eq := tl_eq _ _ _ _ L.
  Let tset_refl := tl_refl _ _ _ _ L.
  Let tset_sh := tl_sh _ _ _ _ L.
  Let tset_same := tl_same _ _ _ _ L.
  Let tset_other := tl_other _ _ _ _ L.

  Notation est := (est K T C).
  Notation batch := (batch K C).
  Notation fill_ranges := (fill_ranges mean tset).
  Notation fill := (fill predict mean tset).
  Notation submit := (submit predict mean keqb job tset xlen batchsize).
  Notation finish := (finish predict mean tset).
  Notation push := (push keqb job xlen).

  (** Dict keys of a batch. *)
  Definition bkeys (b : batch) : list K := map fst (b_ranges b).

  Lemma dict_set_entry k (a : nat * nat) d k' a' :
    In (k', a') (dict_set keqb k a d) -> In (k', a') d \/ (k' = k /\ a' = a).
  Proof.
    induction d as [|[q b] t IH]; cbn; [intros [H|[]]; injection H as <- <-; auto|].
    destruct (keqb k q) eqn:E; cbn.
    - apply keqb_eq in E as <-. intros [H|H]; [injection H as <- <-; auto|auto].
    - intros [H|H]; [auto|apply IH in H; tauto].
  Qed.

  Lemma dict_set_key_in k (a : nat * nat) d : In k (map fst (dict_set keqb k a d)).
  Proof.
    induction d as [|[q b] t IH]; cbn; [auto|]. destruct (keqb k q) eqn:E; cbn; [|auto].
    apply keqb_eq in E as <-; auto.
  Qed.

  Lemma dict_set_keys_mono k (a : nat * nat) d k' : In k' (map fst d) -> In k' (map fst (dict_set keqb k a d)).
  Proof.
    induction d as [|[q b] t IH]; cbn; [auto|]. destruct (keqb k q) eqn:E; cbn; [tauto|]. intros [H|H]; auto.
  Qed.

  Lemma dict_set_keys_inv k (a : nat * nat) d k' : In k' (map fst (dict_set keqb k a d)) -> k' = k \/ In k' (map fst d).
  Proof.
    intros H; apply in_map_iff in H as ([q b] & Hq & H). cbn in Hq; subst q.
    apply dict_set_entry in H as [H|[-> ->]]; [right; apply (in_map fst) in H; exact H|auto].
  Qed.

  (** A pending batch is consistent: the recorded range of each key delimits the
      modified copy of X made for that key. *)
  Definition batch_ok (b : batch) : Prop :=
    b_len b = length (b_rows b) /\
    forall k s e, In (k, (s, e)) (b_ranges b) ->
      e = s + xlen /\ e <= length (b_rows b) /\ slice s e (b_rows b) = job k.

  Lemma batch_ok_empty : batch_ok b_empty.
  Proof. split; [reflexivity|intros k s e []]. Qed.

  Lemma push_ok b k : batch_ok b -> length (job k) = xlen -> batch_ok (push b k).
  Proof.
    intros [Hl Hr] Hj; split; cbn.
    - rewrite app_length, Hj, Hl; reflexivity.
    - intros k' s e H. rewrite app_length, Hj. apply dict_set_entry in H as [H|[-> H]].
      + destruct (Hr _ _ _ H) as (He & Hb & Hs). split; [exact He|]. split; [lia|]. rewrite slice_app_l by lia. exact Hs.
      + injection H as -> ->. split; [reflexivity|]. split; [lia|]. rewrite Hl. apply slice_app_r; congruence.
  Qed.

  Lemma pushes_ok ks b : batch_ok b -> (forall k, In k ks -> length (job k) = xlen) -> batch_ok (fold_left push ks b).
  Proof.
    revert b; induction ks as [|k t IH]; cbn; intros b Hb Hk; [exact Hb|].
    apply IH; [apply push_ok; auto|auto].
  Qed.

  Lemma pushes_keys_mono ks b k : In k (bkeys b) -> In k (bkeys (fold_left push ks b)).
  Proof.
    revert b; induction ks as [|q t IH]; cbn; intros b Hb; [exact Hb|].
    apply IH, dict_set_keys_mono, Hb.
  Qed.
  Lemma pushes_keys_in ks b k : In k ks -> In k (bkeys (fold_left push ks b)).
  Proof.
    revert b; induction ks as [|q t IH]; cbn; intros b H; [destruct H|].
    destruct H as [->|H]; [|auto]. apply pushes_keys_mono, dict_set_key_in.
  Qed.
  Lemma pushes_keys_inv ks b k : In k (bkeys (fold_left push ks b)) -> In k ks \/ In k (bkeys b).
  Proof.
    revert b; induction ks as [|q t IH]; cbn; intros b H; [auto|].
    apply IH in H as [H|H]; [auto|]. apply dict_set_keys_inv in H as [->|H]; auto.
  Qed.
  Lemma pushes_len ks b : b_len (fold_left push ks b) = b_len b + length ks * xlen.
  Proof. revert b; induction ks as [|q t IH]; cbn; intros b; [lia|]. rewrite IH; cbn; lia. Qed.

  (** The write loop of fill_*. *)
  Lemma tset_none k x t t' q : tset k x t = Ok t' -> tget t' q = None -> tget t q = None.
  Proof.
    intros E H. destruct (keqb q k) eqn:Eq.
    - apply keqb_eq in Eq as ->. rewrite (tset_same _ _ _ _ E) in H; discriminate.
    - rewrite <- H; symmetry; eapply tset_other; [exact E|]. intros ->.
      rewrite (tset_refl _ _ _ _ E) in Eq; discriminate.
  Qed.

  Lemma fill_ranges_none y rs t t' r q : fill_ranges y rs t = (t', r) -> tget t' q = None -> tget t q = None.
  Proof.
    revert t; induction rs as [|[k [s e]] rest IH]; cbn; intros t H Hq; [congruence|].
    destruct (tset k _ t) as [t1|x] eqn:E; [|congruence].
    eapply tset_none; [exact E|]. eapply IH; eassumption.
  Qed.

  Lemma fill_ranges_facts y rs t t' r : fill_ranges y rs t = (t', r) ->
    sh t' = sh t
    /\ (forall k, ~ In k (map fst rs) -> tget t' k = tget t k)
    /\ (forall k x, tget t' k = Some x -> tget t k = Some x \/ exists s e, In (k, (s, e)) rs /\ x = mean (slice s e y))
    /\ (r = Ok tt -> forall k, In k (map fst rs) -> exists s e, In (k, (s, e)) rs /\ tget t' k = Some (mean (slice s e y)))
    /\ (forall x, r = Err x -> exists k v t0, In k (map fst rs) /\ sh t0 = sh t /\ tset k v t0 = Err x).
  Proof.
    revert t; induction rs as [|[k [s e]] rest IH]; cbn; intros t H.
    - injection H as <- <-. repeat split; auto; intros; [contradiction|discriminate].
    - destruct (tset k (mean (slice s e y)) t) as [t1|x] eqn:E.
      + apply IH in H as (Hsh & Hfr & Hval & Hok & Herr). split; [|split; [|split; [|split]]].
        * rewrite Hsh; eapply tset_sh; exact E.
        * intros q Hq. rewrite Hfr by tauto. eapply tset_other; [exact E|intros ->; apply Hq; auto].
        * intros q x Hq. destruct (Hval _ _ Hq) as [Hq'|(s' & e' & Hin & Hx)]; [|right; eauto].
          assert (Hd : q = k \/ q <> k).
          { destruct (keqb q k) eqn:Eq; [left; apply keqb_eq; exact Eq|].
            right. intros ->. rewrite (tset_refl _ _ _ _ E) in Eq; discriminate. }
          destruct Hd as [->|Hne]; [|left; rewrite <- Hq'; symmetry; eapply tset_other; eauto].
          right. rewrite (tset_same _ _ _ _ E) in Hq'. injection Hq' as <-. eauto.
        * intros Hr q [<-|Hq]; [|destruct (Hok Hr q Hq) as (s' & e' & Hin & Hx); eauto].
          destruct (existsb (keqb k) (map fst rest)) eqn:Ex.
          -- apply existsb_exists in Ex as (q & Hq & Eq). apply keqb_eq in Eq as <-.
             destruct (Hok Hr k Hq) as (s' & e' & Hin & Hx); eauto.
          -- exists s, e; split; [auto|]. rewrite Hfr; [eapply tset_same; exact E|].
             intros Hin. assert (existsb (keqb k) (map fst rest) = true) as Ht; [|congruence].
             apply existsb_exists; exists k; split; [exact Hin|eapply tset_refl; exact E].
        * intros x Hr. destruct (Herr x Hr) as (q & v & t0 & Hin & Hs0 & Ht0).
          exists q, v, t0. repeat split; auto. rewrite Hs0; eapply tset_sh; exact E.
      + injection H as <- <-. split; [reflexivity|split; [auto|split; [auto|split; [discriminate|]]]].
        intros x' Hx; injection Hx as <-. exists k, (mean (slice s e y)), t. auto.
  Qed.

  (** ** Facts that hold for every model, row-wise or not *)

  Lemma fill_gen s s' r : fill s = (s', r) ->
    sh (e_tab s') = sh (e_tab s) /\ (e_b s' = b_empty \/ (e_b s' = e_b s /\ e_tab s' = e_tab s))
    /\ e_log s' = e_log s ++ [b_rows (e_b s)]
    /\ (forall k, ~ In k (bkeys (e_b s)) -> tget (e_tab s') k = tget (e_tab s) k)
    /\ (r = Ok tt -> e_b s' = b_empty)
    /\ (forall x, r = Err x -> (exists rows, predict (length (e_log s)) rows = Err x)
        \/ exists k v t0, In k (bkeys (e_b s)) /\ sh t0 = sh (e_tab s) /\ tset k v t0 = Err x).
  Proof.
    unfold PdCalc.fill; intros H. destruct (predict _ _) as [y|x] eqn:Ep.
    - destruct (PdCalc.fill_ranges mean tset y (b_ranges (e_b s)) (e_tab s)) as [t r'] eqn:Ef.
      injection H as <- <-. apply fill_ranges_facts in Ef as (Hsh & Hfr & _ & _ & Herr). cbn.
      split; [exact Hsh|]. split; [auto|]. split; [reflexivity|]. split; [exact Hfr|]. split; [auto|].
      intros x Hx; right; apply Herr, Hx.
    - injection H as <- <-. cbn. split; [reflexivity|]. split; [auto|]. split; [reflexivity|].
      split; [auto|]. split; [discriminate|]. intros x' Hx; injection Hx as <-. left; eauto.
  Qed.

  (** *** Size of the prediction requests *)

  (** The rows of a batch are the copies of X for the pushed keys. *)
  Definition blen_ok (b : batch) : Prop := b_len b = length (b_rows b) /\ exists m, b_len b = m * xlen.

  Lemma blen_ok_empty : blen_ok b_empty.
  Proof. split; [reflexivity|exists 0; reflexivity]. Qed.

  Lemma pushes_blen ks b : blen_ok b -> (forall k, In k ks -> length (job k) = xlen) -> blen_ok (fold_left push ks b).
  Proof.
    revert b; induction ks as [|k t IH]; cbn; intros b [Hl [m Hm]] Hk; [split; eauto|].
    apply IH; [|auto]. split; cbn.
    - rewrite app_length, (Hk k), Hl by auto; reflexivity.
    - exists (S m); rewrite Hm; cbn; lia.
  Qed.

  (** [w] bounds the number of keys submitted at once. *)
  Definition req_ok (w : nat) (rows : list (list C)) : Prop :=
    (Z.of_nat (length rows) <= Z.max 0 batchsize + Z.of_nat (w * xlen))%Z
    /\ 0 < length rows /\ exists m, length rows = m * xlen.
  Definition req_big (rows : list (list C)) : Prop := (batchsize < Z.of_nat (length rows))%Z.
  Definition small (b : batch) : Prop := (Z.of_nat (b_len b) <= Z.max 0 batchsize)%Z.

  Definition LogGood (w : nat) (s s' : est) (r : result unit) : Prop :=
    exists reqs, e_log s' = e_log s ++ reqs /\ Forall (fun q => req_ok w q /\ req_big q) reqs
    /\ (r = Ok tt -> blen_ok (e_b s') /\ small (e_b s')).

  Lemma submit_log w s ks s' r : submit s ks = (s', r) -> blen_ok (e_b s) -> small (e_b s) ->
    (forall k, In k ks -> length (job k) = xlen) -> length ks <= w -> 0 < length ks * xlen -> LogGood w s s' r.
  Proof.
    unfold PdCalc.submit, LogGood; intros H Hb Hs Hk Hw Hpos.
    pose proof (pushes_blen ks _ Hb Hk) as Hb1. pose proof (pushes_len ks (e_b s)) as Hlen.
    destruct (Z.ltb_spec batchsize (Z.of_nat (b_len (fold_left push ks (e_b s))))) as [Hlt|Hge].
    - apply fill_gen in H as (_ & _ & Hlog & _ & Hb' & _). cbn in Hlog.
      exists [b_rows (fold_left push ks (e_b s))]. split; [exact Hlog|]. split.
      + constructor; [|constructor]. destruct Hb1 as [Hl1 Hm1]. split; [split|].
        * rewrite <- Hl1, Hlen. unfold small in Hs. nia.
        * rewrite <- Hl1; split; [lia|exact Hm1].
        * unfold req_big; rewrite <- Hl1; exact Hlt.
      + intros Hr. rewrite (Hb' Hr). split; [apply blen_ok_empty|]. unfold small; cbn; lia.
    - injection H as <- <-. exists []. cbn. rewrite app_nil_r. split; [reflexivity|]. split; [constructor|].
      intros _; split; [exact Hb1|]. unfold small; cbn. lia.
  Qed.

  Lemma LogGood_refl w s r : blen_ok (e_b s) -> small (e_b s) -> LogGood w s s r.
  Proof. intros; exists []; rewrite app_nil_r; auto. Qed.

  Lemma loop_log {A} w (J : est -> Prop) (body : est -> A -> est * result unit) l s s' r :
    (forall s s' r x, In x l -> body s x = (s', r) -> J s -> blen_ok (e_b s) -> small (e_b s) ->
       LogGood w s s' r /\ J s') ->
    loop body l s = (s', r) -> J s -> blen_ok (e_b s) -> small (e_b s) -> LogGood w s s' r /\ J s'.
  Proof.
    revert s; induction l as [|x t IH]; cbn; intros s Hbody H Hj Hb Hs.
    - injection H as <- <-. split; [apply LogGood_refl; assumption|exact Hj].
    - destruct (body s x) as [s1 r1] eqn:Eb.
      pose proof (Hbody _ _ _ x (or_introl eq_refl) Eb Hj Hb Hs) as ((q1 & Hl1 & Hf1 & Hr1) & Hj1).
      destruct r1 as [[]|e]; [|injection H as <- <-; split; [exists q1; split; [exact Hl1|split; [exact Hf1|discriminate]]|exact Hj1]].
      destruct (Hr1 eq_refl) as [Hb1 Hs1].
      destruct (IH s1 (fun s s' r y Hy => Hbody s s' r y (or_intror Hy)) H Hj1 Hb1 Hs1) as ((q2 & Hl2 & Hf2 & Hr2) & Hj2).
      split; [|exact Hj2].
      exists (q1 ++ q2). split; [rewrite Hl2, Hl1, app_assoc; reflexivity|]. split; [apply Forall_app; auto|exact Hr2].
  Qed.

  (** every element of a completed loop was processed successfully *)
  Lemma loop_reached {A} (J : est -> Prop) (body : est -> A -> est * result unit) l s s' :
    (forall s s' x, In x l -> J s -> body s x = (s', Ok tt) -> J s') -> J s -> loop body l s = (s', Ok tt) ->
    forall x, In x l -> exists s1 s2, J s1 /\ body s1 x = (s2, Ok tt).
  Proof.
    revert s; induction l as [|y t IH]; cbn; intros s Hbody Hj H x Hx; [destruct Hx|].
    destruct (body s y) as [s1 [[]|e]] eqn:Eb; [|discriminate].
    destruct Hx as [<-|Hx]; [eauto|].
    apply (IH s1); [intros a b z Hz Ha Hab; eapply (Hbody a b z); auto|eapply (Hbody s s1 y); auto|exact H|exact Hx].
  Qed.

  Lemma finish_log w s s' r : finish s = (s', r) -> blen_ok (e_b s) -> small (e_b s) ->
    exists reqs, e_log s' = e_log s ++ reqs /\ length reqs <= 1 /\ Forall (req_ok w) reqs.
  Proof.
    unfold PdCalc.finish; intros H [Hl Hm] Hs. destruct (Nat.ltb_spec 0 (b_len (e_b s))) as [Hlt|Hge].
    - apply fill_gen in H as (_ & _ & Hlog & _). exists [b_rows (e_b s)]. split; [exact Hlog|]. split; [cbn; lia|].
      constructor; [|constructor]. rewrite Hl in *. split; [|split; [exact Hlt|exact Hm]].
      unfold small in Hs; rewrite Hl in Hs. lia.
    - injection H as <- <-. exists []. rewrite app_nil_r. repeat split; auto.
  Qed.

  (** *** Errors *)
  Definition Explained (Q : K -> Prop) (s : est) (x : exn) : Prop :=
    (exists n rows, length (e_log s) <= n /\ predict n rows = Err x)
    \/ exists k v t0, Q k /\ sh t0 = sh (e_tab s) /\ tset k v t0 = Err x.

  Lemma submit_err (Q : K -> Prop) s ks s' r : submit s ks = (s', r) ->
    (forall k, In k (bkeys (e_b s)) -> Q k) -> (forall k, In k ks -> Q k) ->
    sh (e_tab s') = sh (e_tab s)
    /\ (forall k, In k (bkeys (e_b s')) -> Q k)
    /\ (forall k, ~ Q k -> tget (e_tab s') k = tget (e_tab s) k)
    /\ length (e_log s) <= length (e_log s')
    /\ forall x, r = Err x -> Explained Q s x.
  Proof.
    unfold PdCalc.submit; intros H Hb Hk.
    assert (Hq : forall k, In k (bkeys (fold_left push ks (e_b s))) -> Q k).
    { intros k Hin; apply pushes_keys_inv in Hin as [Hin|Hin]; auto. }
    destruct (_ <? _)%Z.
    - apply fill_gen in H as (Hsh & Hb' & Hlog & Hfr & _ & Herr). cbn in *.
      split; [exact Hsh|]. split; [|split; [|split]].
      + destruct Hb' as [Hb'|[Hb' _]]; rewrite Hb'; [intros k []|exact Hq].
      + intros k Hn; apply Hfr. intros Hin; apply Hn, Hq, Hin.
      + rewrite Hlog, app_length; lia.
      + intros x Hx. destruct (Herr x Hx) as [(rows & Hp)|(k & v & t0 & Hin & Hs & Ht)]; [left; eauto|].
        right; exists k, v, t0; auto.
    - injection H as <- <-. cbn. split; [reflexivity|]. split; [exact Hq|]. split; [auto|]. split; [lia|discriminate].
  Qed.

  Lemma finish_err (Q : K -> Prop) s s' r : finish s = (s', r) -> (forall k, In k (bkeys (e_b s)) -> Q k) ->
    sh (e_tab s') = sh (e_tab s)
    /\ (forall k, ~ Q k -> tget (e_tab s') k = tget (e_tab s) k)
    /\ forall x, r = Err x -> Explained Q s x.
  Proof.
    unfold PdCalc.finish; intros H Hb. destruct (_ <? _).
    - apply fill_gen in H as (Hsh & _ & _ & Hfr & _ & Herr). split; [exact Hsh|]. split.
      + intros k Hn; apply Hfr. intros Hin; apply Hn, Hb, Hin.
      + intros x Hx. destruct (Herr x Hx) as [(rows & Hp)|(k & v & t0 & Hin & Hs & Ht)]; [left; eauto|].
        right; exists k, v, t0; auto.
    - injection H as <- <-. split; [reflexivity|]. split; [auto|discriminate].
  Qed.

  (** A loop whose body only submits keys in [Q], or fails with an error in [E]. *)
  Lemma loop_err {A} (Q : K -> Prop) (E : exn -> Prop) (body : est -> A -> est * result unit) (pre : Sh) (n0 : nat) l s s' r :
    (forall s s' r x, In x l -> body s x = (s', r) -> sh (e_tab s) = pre -> n0 <= length (e_log s) ->
       (forall k, In k (bkeys (e_b s)) -> Q k) ->
       sh (e_tab s') = pre /\ n0 <= length (e_log s') /\ (forall k, In k (bkeys (e_b s')) -> Q k)
       /\ (forall k, ~ Q k -> tget (e_tab s') k = tget (e_tab s) k)
       /\ forall e, r = Err e -> E e) ->
    loop body l s = (s', r) -> sh (e_tab s) = pre -> n0 <= length (e_log s) -> (forall k, In k (bkeys (e_b s)) -> Q k) ->
    sh (e_tab s') = pre /\ n0 <= length (e_log s') /\ (forall k, In k (bkeys (e_b s')) -> Q k)
    /\ (forall k, ~ Q k -> tget (e_tab s') k = tget (e_tab s) k)
    /\ forall e, r = Err e -> E e.
  Proof.
    revert s; induction l as [|x t IH]; cbn; intros s Hbody H Hpre Hn Hq.
    - injection H as <- <-. split; [exact Hpre|]. split; [exact Hn|]. split; [exact Hq|]. split; [auto|discriminate].
    - destruct (body s x) as [s1 r1] eqn:Eb.
      pose proof (Hbody _ _ _ x (or_introl eq_refl) Eb Hpre Hn Hq) as (A1 & A0 & A2 & A3 & A4).
      destruct r1 as [[]|e]; [|injection H as <- <-; auto].
      destruct (IH s1 (fun s s' r y Hy => Hbody s s' r y (or_intror Hy)) H A1 A0 A2) as (B1 & B0 & B2 & B3 & B4).
      split; [exact B1|]. split; [exact B0|]. split; [exact B2|]. split; [|exact B4].
      intros k Hk; rewrite B3, A3 by exact Hk; reflexivity.
  Qed.

  (** *** Cells that already hold a number are not touched (pairs submit NaN cells only) *)
  Definition PendNan (s : est) : Prop :=
    forall k, In k (bkeys (e_b s)) -> exists x, tget (e_tab s) k = Some x /\ isnan x = true.
  Definition KeepNum (s s' : est) : Prop :=
    forall k x, tget (e_tab s) k = Some x -> isnan x = false -> tget (e_tab s') k = Some x.

  Lemma fill_keep s s' r : fill s = (s', r) -> PendNan s -> PendNan s' /\ KeepNum s s'.
  Proof.
    intros H Hp. apply fill_gen in H as (_ & Hb & _ & Hfr & _ & _). split.
    - intros k Hk. destruct Hb as [Hb|[Hb Ht]]; rewrite Hb in Hk; [destruct Hk|]. rewrite Ht; auto.
    - intros k x Hx Hn. rewrite Hfr; [exact Hx|]. intros Hin; apply Hp in Hin as (y & Hy & Hny). congruence.
  Qed.

  Lemma submit_keep s k s' r x : submit s [k] = (s', r) -> PendNan s ->
    tget (e_tab s) k = Some x -> isnan x = true -> PendNan s' /\ KeepNum s s'.
  Proof.
    unfold PdCalc.submit; intros H Hp Hx Hn.
    set (s1 := {| e_log := e_log s; e_tab := e_tab s; e_b := fold_left push [k] (e_b s) |}) in *.
    assert (Hp1 : PendNan s1).
    { intros q Hq. apply pushes_keys_inv in Hq as [[<-|[]]|Hq]; [eauto|apply Hp, Hq]. }
    destruct (_ <? _)%Z; [|injection H as <- <-; split; [exact Hp1|intros q y Hy _; exact Hy]].
    apply fill_keep in H as [H1 H2]; [|exact Hp1]. split; [exact H1|exact H2].
  Qed.

  Lemma finish_keep s s' r : finish s = (s', r) -> PendNan s -> KeepNum s s'.
  Proof.
    unfold PdCalc.finish; intros H Hp. destruct (_ <? _); [eapply fill_keep; eassumption|].
    injection H as <- <-. intros k x Hx _; exact Hx.
  Qed.

  Lemma loop_keep {A} (body : est -> A -> est * result unit) l s s' r :
    (forall s s' r x, body s x = (s', r) -> PendNan s -> PendNan s' /\ KeepNum s s') ->
    loop body l s = (s', r) -> PendNan s -> PendNan s' /\ KeepNum s s'.
  Proof.
    intros Hbody; revert s; induction l as [|x t IH]; cbn; intros s H Hp.
    - injection H as <- <-. split; [exact Hp|intros k y Hy _; exact Hy].
    - destruct (body s x) as [s1 r1] eqn:Eb. destruct (Hbody _ _ _ _ Eb Hp) as [Hp1 Hk1].
      destruct r1 as [[]|e]; [|injection H as <- <-; auto].
      destruct (IH s1 H Hp1) as [Hp2 Hk2]. split; [exact Hp2|]. intros k y Hy Hn; auto.
  Qed.

  (** A loop all of whose iterations do nothing. *)
  Lemma loop_noop {A} (body : est -> A -> est * result unit) l s :
    (forall x, In x l -> body s x = (s, Ok tt)) -> loop body l s = (s, Ok tt).
  Proof.
    induction l as [|x t IH]; cbn; intros H; [reflexivity|]. rewrite H by auto. apply IH; auto.
  Qed.

  (** ** Results are correct whenever the model is row-wise *)
  Section Rowwise.
    Variable g : list C -> V.
    Variable spec : K -> V.
    Hypothesis predict_rowwise : forall n rows ys, predict n rows = Ok ys -> ys = map g rows.
    Hypothesis spec_job : forall k, spec k = mean (map g (job k)).

    Definition Coh (t : T) : Prop := forall k x, tget t k = Some x -> isnan x = true \/ x = spec k.
    Definition Inv (s : est) : Prop := batch_ok (e_b s) /\ Coh (e_tab s).
    (** a key whose value is correct, or will be after the pending batch is filled *)
    Definition Pod (s : est) (k : K) : Prop := In k (bkeys (e_b s)) \/ tget (e_tab s) k = Some (spec k).

    Lemma slice_rowwise b k s e : batch_ok b -> In (k, (s, e)) (b_ranges b) ->
      mean (slice s e (map g (b_rows b))) = spec k.
    Proof. intros [_ Hb] H. destruct (Hb _ _ _ H) as (_ & _ & Hs). rewrite slice_map, Hs, spec_job; reflexivity. Qed.

    Lemma fill_facts s s' r : fill s = (s', r) -> Inv s ->
      sh (e_tab s') = sh (e_tab s) /\ Inv s' /\ (e_b s' = b_empty \/ e_b s' = e_b s)
      /\ (forall k, ~ In k (bkeys (e_b s)) -> tget (e_tab s') k = tget (e_tab s) k)
      /\ (r = Ok tt -> e_b s' = b_empty /\ forall k, Pod s k -> tget (e_tab s') k = Some (spec k)).
    Proof.
      unfold PdCalc.fill; intros H [Hb Hc].
      destruct (predict _ _) as [y|x] eqn:Ep.
      - apply predict_rowwise in Ep as ->.
        destruct (PdCalc.fill_ranges mean tset (map g (b_rows (e_b s))) (b_ranges (e_b s)) (e_tab s)) as [t r'] eqn:Ef.
        injection H as <- <-. pose proof (fun q => fill_ranges_none _ _ _ _ _ q Ef) as Hnone.
        apply fill_ranges_facts in Ef as (Hsh & Hfr & Hval & Hok & _). cbn.
        assert (Hcoh : Coh t).
        { intros k x Hx. destruct (Hval _ _ Hx) as [Hx'|(a & e & Hin & ->)]; [apply Hc; exact Hx'|].
          right; apply slice_rowwise; assumption. }
        split; [exact Hsh|]. split; [split; [apply batch_ok_empty|exact Hcoh]|].
        split; [auto|]. split; [exact Hfr|]. intros ->. split; [reflexivity|]. intros k Hk.
        assert (Hin : In k (bkeys (e_b s)) -> tget t k = Some (spec k)).
        { intros Hin. destruct (Hok eq_refl k Hin) as (a & e & Hin' & ->). f_equal. apply slice_rowwise; assumption. }
        destruct Hk as [Hk|Hk]; [auto|].
        destruct (tget t k) as [x|] eqn:Et; [|rewrite (Hnone _ Et) in Hk; discriminate].
        destruct (Hval _ _ Et) as [Hx|(a & e & Hin' & ->)]; [congruence|].
        f_equal; apply slice_rowwise; assumption.
      - injection H as <- <-. cbn. split; [reflexivity|]. split; [split; assumption|]. split; [auto|]. split; [auto|discriminate].
    Qed.

    (** What one piece of a calculate_* call guarantees.  [Q] is any predicate that holds
        of every key submitted. *)
    Definition keysQ (Q : K -> Prop) (s : est) : Prop := forall k, In k (bkeys (e_b s)) -> Q k.
    Definition Good (Q : K -> Prop) (s s' : est) (r : result unit) : Prop :=
      sh (e_tab s') = sh (e_tab s) /\ Inv s' /\ keysQ Q s'
      /\ (forall k, ~ Q k -> tget (e_tab s') k = tget (e_tab s) k)
      /\ (r = Ok tt -> forall k, Pod s k -> Pod s' k).

    Lemma Good_refl Q s r : Inv s -> keysQ Q s -> Good Q s s r.
    Proof. intros Hi Hk; unfold Good. split; [reflexivity|]. split; [exact Hi|]. split; [exact Hk|]. split; auto. Qed.

    Lemma Good_trans Q s1 s2 s3 r : Good Q s1 s2 (Ok tt) -> (Inv s2 -> keysQ Q s2 -> Good Q s2 s3 r) -> Good Q s1 s3 r.
    Proof.
      intros (A1 & A2 & A3 & A4 & A5) H. destruct (H A2 A3) as (B1 & B2 & B3 & B4 & B5).
      split; [congruence|]. split; [exact B2|]. split; [exact B3|]. split.
      - intros k Hk. rewrite B4, A4 by assumption; reflexivity.
      - intros Hr k Hk; auto.
    Qed.

    Lemma keysQ_empty (Q : K -> Prop) (s : est) : e_b s = b_empty -> keysQ Q s.
    Proof. intros H k Hk; rewrite H in Hk; destruct Hk. Qed.

    Lemma submit_good Q s ks s' r : submit s ks = (s', r) -> Inv s -> keysQ Q s ->
      (forall k, In k ks -> Q k /\ length (job k) = xlen) ->
      Good Q s s' r /\ (r = Ok tt -> forall k, In k ks -> Pod s' k).
    Proof.
      unfold PdCalc.submit; intros H [Hb Hc] Hq Hks.
      set (s1 := {| e_log := e_log s; e_tab := e_tab s; e_b := fold_left push ks (e_b s) |}) in *.
      assert (Hi1 : Inv s1) by (split; [apply pushes_ok; [exact Hb|intros k Hk; apply Hks, Hk]|exact Hc]).
      assert (Hq1 : keysQ Q s1).
      { intros k Hk. apply pushes_keys_inv in Hk as [Hk|Hk]; [apply Hks, Hk|apply Hq, Hk]. }
      assert (Hp1 : forall k, Pod s k -> Pod s1 k).
      { intros k [Hk|Hk]; [left; apply pushes_keys_mono, Hk|right; exact Hk]. }
      assert (Hn1 : forall k, In k ks -> Pod s1 k) by (intros k Hk; left; apply pushes_keys_in, Hk).
      destruct (_ <? _)%Z.
      - apply fill_facts in H as (Hsh & Hi & Hb' & Hfr & Hok); [|exact Hi1].
        split; [|intros Hr k Hk; right; apply (Hok Hr), Hn1, Hk].
        split; [exact Hsh|]. split; [exact Hi|]. split; [|split].
        + destruct Hb' as [Hb'|Hb']; [apply keysQ_empty, Hb'|intros k Hk; rewrite Hb' in Hk; apply Hq1, Hk].
        + intros k Hk. rewrite Hfr; [reflexivity|]. intros Hin; apply Hk, Hq1, Hin.
        + intros Hr k Hk; right. apply (Hok Hr), Hp1, Hk.
      - injection H as <- <-. split; [|intros _; exact Hn1].
        split; [reflexivity|]. split; [exact Hi1|]. split; [exact Hq1|]. split; auto.
    Qed.

    Lemma finish_good Q s s' r : finish s = (s', r) -> Inv s -> keysQ Q s ->
      (forall k, Q k -> 0 < xlen) ->
      Good Q s s' r /\ (r = Ok tt -> forall k, Pod s k -> tget (e_tab s') k = Some (spec k)).
    Proof.
      unfold PdCalc.finish; intros H Hi Hq Hx.
      destruct (Nat.ltb_spec 0 (b_len (e_b s))) as [Hlt|Hge].
      - apply fill_facts in H as (Hsh & Hi' & Hb' & Hfr & Hok); [|exact Hi].
        split; [|intros Hr; apply (Hok Hr)].
        split; [exact Hsh|]. split; [exact Hi'|]. split; [|split].
        + destruct Hb' as [Hb'|Hb']; [apply keysQ_empty, Hb'|intros k Hk; rewrite Hb' in Hk; apply Hq, Hk].
        + intros k Hk. rewrite Hfr; [reflexivity|]. intros Hin; apply Hk, Hq, Hin.
        + intros Hr k Hk; right. apply (Hok Hr), Hk.
      - injection H as <- <-. split; [apply Good_refl; assumption|].
        intros _ k [Hk|Hk]; [|exact Hk]. specialize (Hx k (Hq k Hk)).
        destruct Hi as [[Hl Hr] _]. apply in_map_iff in Hk as ([q [a e]] & Hqk & Hin). cbn in Hqk; subst q.
        destruct (Hr _ _ _ Hin) as (He & Hle & _). lia.
    Qed.

    (** Loops compose. [Post x s]: what the body guarantees for element [x]. *)
    Lemma loop_good {A} Q (body : est -> A -> est * result unit) (Post : A -> K -> Prop) (pre : Sh) l s s' r :
      (forall s s' r x, In x l -> body s x = (s', r) -> sh (e_tab s) = pre -> Inv s -> keysQ Q s ->
         Good Q s s' r /\ (r = Ok tt -> forall k, Post x k -> Pod s' k)) ->
      loop body l s = (s', r) -> sh (e_tab s) = pre -> Inv s -> keysQ Q s ->
      Good Q s s' r /\ (r = Ok tt -> forall x k, In x l -> Post x k -> Pod s' k).
    Proof.
      revert s; induction l as [|x t IH]; cbn; intros s Hbody H Hpre Hi Hq.
      - injection H as <- <-. split; [apply Good_refl; assumption|]. intros _ y k [].
      - destruct (body s x) as [s1 r1] eqn:Eb.
        destruct (Hbody _ _ _ x (or_introl eq_refl) Eb Hpre Hi Hq) as [Hg Hpost].
        destruct r1 as [[]|e]; [|injection H as <- <-; split; [exact Hg|discriminate]].
        pose proof Hg as (Hsh1 & Hi1 & Hq1 & _ & _).
        destruct (IH s1 (fun s s' r y Hy => Hbody s s' r y (or_intror Hy)) H (eq_trans Hsh1 Hpre) Hi1 Hq1) as [Hg2 Hpost2].
        split; [eapply Good_trans; [exact Hg|auto]|].
        intros Hr y k [<-|Hy] Hk; [|eauto].
        apply Hg2; auto.
    Qed.
  End Rowwise.
End EngineFacts.
