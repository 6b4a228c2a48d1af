(** How many rows the calculator sends to the model. *)
From Verif Require Import Py Num Sorting Frame Rng PdCalc EngineFacts PdSpec PdFacts PdProofs PdTheorems PdErrors PdApi PdMethods PdMethodFacts.
Open Scope string_scope.
Open Scope nat_scope.
Open Scope list_scope.

Definition total_rows {A} (log : list (list A)) : nat := list_sum (map (@length A) log).

Lemma total_app {A} (a b : list (list A)) : total_rows (a ++ b) = total_rows a + total_rows b.
Proof. unfold total_rows. rewrite map_app. apply list_sum_app. Qed.
Lemma total_one {A} (a : list A) : total_rows [a] = length a.
Proof. unfold total_rows. cbn. lia. Qed.
Lemma list_sum_cons x l : list_sum (x :: l) = x + list_sum l.
Proof. reflexivity. Qed.

Section EngineCost.
  Context {K T C V Sh : Type}.
  Variable predict : nat -> list (list C) -> result (list V).
  Variable mean : list V -> V.
  Variable keqb : K -> K -> bool.
  Variable job : K -> list (list C).
  Variable tset : K -> V -> T -> result T.
  Variable xlen : nat.
  Variable batchsize : Z.
  Notation est := (est K T C).

  (** at most [n] rows more than before are sent or pending *)
  Definition costs (n : nat) (s s' : est) (r : result unit) : Prop :=
    total_rows (e_log s') + match r with Ok _ => b_len (e_b s') | Err _ => 0 end <= total_rows (e_log s) + b_len (e_b s) + n
    /\ (r = Ok tt -> blen_ok xlen (e_b s')).

  Lemma costs_refl n s r : blen_ok xlen (e_b s) -> costs n s s r.
  Proof. intros H. split; [destruct r; lia|auto]. Qed.

  Lemma fill_costs s s' r : fill predict mean tset s = (s', r) -> blen_ok xlen (e_b s) -> costs 0 s s' r.
  Proof.
    unfold fill. intros H [Hb _]. destruct (predict _ _) as [y|e].
    - destruct (fill_ranges mean tset y _ _) as [t r0]. injection H as <- <-. split; [|intros _; apply blen_ok_empty]. cbn [e_log e_b b_empty b_len]. rewrite total_app, total_one. destruct r0; lia.
    - injection H as <- <-. split; [|discriminate]. cbn [e_log]. rewrite total_app, total_one. lia.
  Qed.

  Lemma submit_costs s ks s' r : submit predict mean keqb job tset xlen batchsize s ks = (s', r) -> blen_ok xlen (e_b s) ->
    (forall k, In k ks -> length (job k) = xlen) -> costs (length ks * xlen) s s' r.
  Proof.
    unfold submit. intros H Hb Hk. pose proof (pushes_blen keqb job xlen ks _ Hb Hk) as Hb1. pose proof (pushes_len keqb job xlen ks (e_b s)) as Hl.
    destruct (_ <? _)%Z.
    - apply fill_costs in H as [H1 H2]; [|exact Hb1]. split; [|exact H2]. cbn [e_log e_b] in H1. lia.
    - injection H as <- <-. split; [|auto]. cbn [e_log e_b]. lia.
  Qed.

  Lemma finish_costs s s' r : finish predict mean tset s = (s', r) -> blen_ok xlen (e_b s) -> costs 0 s s' r.
  Proof. unfold finish. destruct (_ <? _); [apply fill_costs|]. intros H Hb. injection H as <- <-. apply costs_refl, Hb. Qed.

  Lemma loop_costs {A} (w : A -> nat) (J : est -> Prop) (body : est -> A -> est * result unit) l s s' r :
    (forall s s' r x, In x l -> body s x = (s', r) -> J s -> blen_ok xlen (e_b s) -> costs (w x) s s' r /\ J s') ->
    loop body l s = (s', r) -> J s -> blen_ok xlen (e_b s) -> costs (list_sum (map w l)) s s' r /\ J s'.
  Proof.
    revert s; induction l as [|x t IH]; cbn [loop]; intros s Hbody H Hj Hb.
    - injection H as <- <-. split; [apply costs_refl, Hb|exact Hj].
    - destruct (body s x) as [s1 r1] eqn:Eb. destruct (Hbody _ _ _ x (or_introl eq_refl) Eb Hj Hb) as ([H1 H2] & Hj1). cbn [map]. rewrite list_sum_cons.
      destruct r1 as [[]|e]; [|injection H as <- <-; split; [split; [lia|exact H2]|exact Hj1]].
      destruct (IH s1 (fun s s' r y Hy => Hbody s s' r y (or_intror Hy)) H Hj1 (H2 eq_refl)) as ([H3 H4] & Hj2). split; [split; [lia|exact H4]|exact Hj2].
  Qed.

  Lemma seq2_costs n s s' r p : seq2 p (finish predict mean tset) = (s', r) -> costs n s (fst p) (snd p) -> e_b s = b_empty ->
    total_rows (e_log s') <= total_rows (e_log s) + n.
  Proof.
    destruct p as [s1 [[]|e]]; cbn [seq2 fst snd]; intros H [H1 H2] He; rewrite He in H1; cbn [b_empty b_len] in H1.
    - apply finish_costs in H as [H3 _]; [|auto]. lia.
    - injection H as <- <-. lia.
  Qed.
End EngineCost.

Section CalcCost.
  Context {C V : Type} (O : cell_ops C) (N : num_ops V).
  Hypothesis HO : cell_ok O.
  Hypothesis Hnan : n_isnan N (n_nan N) = true.
  Notation calc := (calc C V).

  Theorem single_cost m X P b (c : calc) fs c' r : wf_frame X -> reachable O N m X P b c ->
    calculate_pd_single O N c fs = (c', r) ->
    total_rows (c_log c') <= total_rows (c_log c) + list_sum (map (fun f => length (grid O X f) * length (f_rows X)) (feats X fs)).
  Proof.
    intros HX Hr H. destruct (reachable_shaped O N HO _ _ _ _ _ HX Hr) as ((Hs & _) & HXc & HPc & Hb & _).
    unfold calculate_pd_single in H. destruct (seq2 _ _) as [s' r'] eqn:E. injection H as <- <-. cbn [c_log].
    fold (feats (c_X c) fs) in E. rewrite HXc in E. refine (seq2_costs (c_predict c) (np_mean N) _ (length (f_rows X)) _ {| e_log := c_log c; e_tab := c_single c; e_b := b_empty |} s' r' _ E _ eq_refl).
    destruct (loop _ _ _) as [s1 r1] eqn:El. cbn [fst snd].
    eapply (loop_costs (length (f_rows X)) _ (fun s => ssh O (e_tab s) = sshape O N X)) in El as [E1 _]; [exact E1| |rewrite HXc in Hs; exact Hs|apply blen_ok_empty].
    clear E El s1 r1 s' r'. intros s s' r' f Hf H Hj Hbl. unfold single_body in H.
    destruct (dict_get String.eqb f (e_tab s)) as [e|x] eqn:Ed; [|injection H as <- <-; split; [apply costs_refl; assumption|exact Hj]].
    apply dict_get_assoc in Ed. destruct (sshape_assoc O N X _ f Hj) as [_ H2]. destruct (H2 _ Ed) as (Hcol & Hfv & Hl & _).
    destruct (has_nan N (snd e)) eqn:En; [|injection H as <- <-; split; [apply costs_refl; assumption|exact Hj]].
    rewrite HXc, Hb in H. split.
    - eapply submit_costs in H; [|exact Hbl|intros k _; apply job_single_length]. rewrite map_length, Hfv in H. exact H.
    - eapply (submit_err _ _ _ _ _ _ _ _ _ (single_laws O HO) (fun _ => True)) in H as (A1 & _); [|auto|auto]. congruence.
  Qed.

  (** profiles that are complete cost nothing *)
  Theorem single_cost_ready m X P b (c : calc) fs c' r (ready : string -> bool) : wf_frame X -> reachable O N m X P b c ->
    (forall f, ready f = true -> exists xs, get_pd_single O c f None = Ok xs /\ forall x, In x xs -> n_isnan N x = false) ->
    calculate_pd_single O N c fs = (c', r) ->
    total_rows (c_log c') <= total_rows (c_log c) + list_sum (map (fun f => (if ready f then 0 else length (grid O X f)) * length (f_rows X)) (feats X fs)).
  Proof.
    intros HX Hr Hready H. destruct (reachable_shaped O N HO _ _ _ _ _ HX Hr) as ((Hs & _) & HXc & HPc & Hb & _).
    unfold calculate_pd_single in H. destruct (seq2 _ _) as [s' r'] eqn:E. injection H as <- <-. cbn [c_log].
    fold (feats (c_X c) fs) in E. rewrite HXc in E. refine (seq2_costs (c_predict c) (np_mean N) _ (length (f_rows X)) _ {| e_log := c_log c; e_tab := c_single c; e_b := b_empty |} s' r' _ E _ eq_refl).
    destruct (loop _ _ _) as [s1 r1] eqn:El. cbn [fst snd]. rewrite HXc in Hs.
    eapply (loop_costs (length (f_rows X)) _ (fun s : est skey (list (string * (list C * list V))) C => ssh O (e_tab s) = sshape O N X /\ (forall k, In k (bkeys (e_b s)) -> ready (fst k) = false)
      /\ forall f, ready f = true -> assoc String.eqb f (e_tab s) = assoc String.eqb f (c_single c))) in El as [E1 _]; [exact E1| |split; [exact Hs|split; [intros k []|auto]]|apply blen_ok_empty].
    clear E El s1 r1 s' r'. intros s s' r' f Hf H (Hj & Hp & Heq) Hbl. unfold single_body in H.
    destruct (dict_get String.eqb f (e_tab s)) as [e|x] eqn:Ed; [|injection H as <- <-; split; [apply costs_refl; assumption|auto]].
    apply dict_get_assoc in Ed. destruct (sshape_assoc O N X _ f Hj) as [_ H2]. destruct (H2 _ Ed) as (Hcol & Hfv & Hl & _).
    destruct (has_nan N (snd e)) eqn:En; [|injection H as <- <-; split; [apply costs_refl; assumption|auto]].
    assert (Hnr : ready f = false).
    { destruct (ready f) eqn:Erf; [|reflexivity]. destruct (Hready f Erf) as (xs & Hx & Hxs). cbn in Hx. unfold dict_get in Hx. rewrite <- (Heq f Erf), Ed in Hx. cbn in Hx. assert (Exs : xs = snd e) by congruence. subst xs.
      rewrite (proj2 (has_nan_false N _) Hxs) in En. discriminate. }
    rewrite HXc, Hb in H. rewrite Hnr. split.
    - eapply submit_costs in H; [|exact Hbl|intros k _; apply job_single_length]. rewrite map_length, Hfv in H. exact H.
    - eapply (submit_err _ _ _ _ _ _ _ _ _ (single_laws O HO) (fun k => ready (fst k) = false)) in H as (A1 & A2 & A3 & _); [|exact Hp|intros k Hk; apply in_map_iff in Hk as (v & <- & _); exact Hnr].
      assert (Hj' : ssh O (e_tab s') = sshape O N X) by congruence. split; [exact Hj'|]. split; [exact A2|].
      intros f' Hf'. rewrite <- (Heq f' Hf'). eapply single_entry_ext; [exact HO|exact Hj|exact Hj'|]. intros v. apply A3. cbn [fst]. congruence.
  Qed.

  Theorem minus_cost m X P b (c : calc) fs c' r : wf_frame X -> reachable O N m X P b c ->
    calculate_pd_minus_single N c fs = (c', r) ->
    total_rows (c_log c') <= total_rows (c_log c) + length (feats X fs) * (length (f_rows X) * length (f_rows X)).
  Proof.
    intros HX Hr H. destruct (reachable_shaped O N HO _ _ _ _ _ HX Hr) as ((_ & _ & Hs) & HXc & HPc & Hb & _).
    unfold calculate_pd_minus_single in H. destruct (seq2 _ _) as [s' r'] eqn:E. injection H as <- <-. cbn [c_log].
    fold (feats (c_X c) fs) in E. rewrite HXc in E. refine (seq2_costs (c_predict c) (np_mean N) _ (length (f_rows X)) _ {| e_log := c_log c; e_tab := c_minus c; e_b := b_empty |} s' r' _ E _ eq_refl).
    destruct (loop _ _ _) as [s1 r1] eqn:El. cbn [fst snd].
    replace (length (feats X fs) * (length (f_rows X) * length (f_rows X))) with (list_sum (map (fun _ => length (f_rows X) * length (f_rows X)) (feats X fs))).
    2:{ generalize (feats X fs) as l. induction l as [|a l IH]; [reflexivity|]. cbn [map length]. rewrite list_sum_cons. lia. }
    eapply (loop_costs (length (f_rows X)) (fun _ => length (f_rows X) * length (f_rows X)) (fun s => msh (e_tab s) = mshape X)) in El as [E1 _]; [exact E1| |rewrite HXc in Hs; exact Hs|apply blen_ok_empty].
    clear E El s1 r1 s' r'. intros s s' r' f Hf H Hj Hbl. unfold minus_body in H.
    destruct (dict_get String.eqb f (e_tab s)) as [e|x] eqn:Ed; [|injection H as <- <-; split; [apply costs_refl; assumption|exact Hj]].
    destruct (has_nan N e) eqn:En; [|injection H as <- <-; split; [apply costs_refl; assumption|exact Hj]].
    rewrite HXc, Hb in H. split.
    - eapply submit_costs in H; [|exact Hbl|intros k Hk; apply in_map_iff in Hk as (i & <- & Hi); apply in_seq in Hi; apply job_minus_length; cbn; lia]. rewrite map_length, seq_length in H. exact H.
    - eapply (submit_err _ _ _ _ _ _ _ _ _ minus_laws (fun _ => True)) in H as (A1 & _); [|auto|auto]. congruence.
  Qed.

  Definition pair_cells (X : frame C) (a : bool) (p : string * string) : nat :=
    if a then length (grid O X (fst p)) * length (grid O X (snd p)) else length (f_rows X).

  Lemma column_length (X : frame C) f l : column X f = Ok l -> length l <= length (f_rows X).
  Proof.
    intros H. apply column_pos in H as (p & _ & _ & ->). unfold col_at. clear. induction (f_rows X) as [|r t IH]; [reflexivity|]. cbn. rewrite app_length. destruct (nth_error r p); cbn; lia.
  Qed.
  Lemma product_length {A B} (l : list A) (k : list B) : length (flat_map (fun v => map (fun w => (v, w)) k) l) = length l * length k.
  Proof. induction l as [|x t IH]; [reflexivity|]. cbn. rewrite app_length, map_length, IH. reflexivity. Qed.

  Theorem pairs_cost m X P b (c : calc) ps a c' r : wf_frame X -> reachable O N m X P b c ->
    calculate_pd_pairs O N c (Some ps) a = (c', r) ->
    total_rows (c_log c') <= total_rows (c_log c) + list_sum (map (fun p => pair_cells X a p * length (f_rows X)) ps).
  Proof.
    intros HX Hr H. destruct (reachable_shaped O N HO _ _ _ _ _ HX Hr) as ((_ & Hs & _) & HXc & HPc & Hb & _).
    unfold calculate_pd_pairs in H. destruct (seq2 _ _) as [s' r'] eqn:E. injection H as <- <-. cbn [c_log].
    refine (seq2_costs (c_predict c) (np_mean N) _ (length (f_rows X)) _ {| e_log := c_log c; e_tab := c_pairs c; e_b := b_empty |} s' r' _ E _ eq_refl).
    destruct (loop _ _ _) as [s1 r1] eqn:El. cbn [fst snd].
    eapply (loop_costs (length (f_rows X)) _ (fun s => psh O (e_tab s) = pshape O N X)) in El as [E1 _]; [exact E1| |rewrite HXc in Hs; exact Hs|apply blen_ok_empty].
    clear E El s1 r1 s' r'. intros s s' r' pr Hf H Hj Hbl. unfold pairs_body in H.
    match type of H with (match ?r with Ok _ => _ | Err _ => _ end) = _ => destruct r as [vals|e] eqn:Ev end;
      [|injection H as <- <-; split; [apply costs_refl; assumption|exact Hj]].
    assert (Hv : length vals <= pair_cells X a pr).
    { unfold pair_cells. assert (Hk : get_pair_key c pr = pr \/ get_pair_key c pr = (snd pr, fst pr)) by (unfold get_pair_key; destruct (assoc _ _ _); auto). destruct a.
      - destruct (dict_get pair_eqb (get_pair_key c pr) (e_tab s)) as [e|x] eqn:Ed; cbn [bind] in Ev; [|discriminate]. injection Ev as <-. rewrite product_length.
        apply dict_get_assoc in Ed. destruct (pshape_assoc O N X _ (get_pair_key c pr) Hj) as [_ H2]. destruct (H2 _ Ed) as (_ & -> & _). cbn [fst snd]. destruct Hk as [->| ->]; cbn [fst snd]; lia.
      - destruct (column (c_X c) (fst (get_pair_key c pr))) as [x|] eqn:Ex; cbn [bind] in Ev; [|discriminate]. destruct (column (c_X c) (snd (get_pair_key c pr))) as [y|] eqn:Ey; cbn [bind] in Ev; [|discriminate].
        injection Ev as <-. rewrite combine_length. apply column_length in Ex. rewrite HXc in Ex. lia. }
    assert (Hone : costs (length (f_rows X)) (list_sum (map (fun _ => length (f_rows X)) vals)) s s' r' /\ psh O (e_tab s') = pshape O N X).
    { eapply (loop_costs (length (f_rows X)) _ (fun s => psh O (e_tab s) = pshape O N X)); [|exact H|exact Hj|exact Hbl].
      clear H Ev Hj Hbl Hv s s' r'. intros s s' r' v Hv H Hj Hbl. unfold pairs_cell_body in H.
      destruct (bind _ _) as [x|e] eqn:Er; [|injection H as <- <-; split; [apply costs_refl; assumption|exact Hj]].
      destruct (n_isnan N x); [|injection H as <- <-; split; [apply costs_refl; assumption|exact Hj]].
      rewrite HXc, Hb in *. split.
      - eapply submit_costs in H; [|exact Hbl|intros k _; apply job_pairs_length]. cbn [length] in H. rewrite Nat.mul_1_l in H. exact H.
      - eapply (submit_err _ _ _ _ _ _ _ _ _ (pairs_laws O HO) (fun _ => True)) in H as (A1 & _); [|auto|auto]. congruence. }
    destruct Hone as [[H1 H2] H3]. split; [|exact H3]. split; [|exact H2].
    assert (list_sum (map (fun _ => length (f_rows X)) vals) = length vals * length (f_rows X)) by (clear; induction vals as [|x t IH]; [reflexivity|cbn [map length]; rewrite list_sum_cons; lia]). nia.
  Qed.
End CalcCost.
