(** Helpers: one-off partial dependence values (C90), the sklearn based visualizer (C91). *)
From Verif Require Import Py Num Frame PdCalc PdSpec PdFacts PdProofs PdTheorems PdErrors PdApi Helpers Props_Pd.
From Coq Require Import QArith.
Open Scope string_scope.
Open Scope nat_scope.
Open Scope list_scope.

(** ** Specification: the row in which every column named in the dict has its new value *)
Definition new_value {C} (change : list (string * C)) (f : string) (old : C) : C :=
  match find (fun e => String.eqb (fst e) f) change with Some e => snd e | None => old end.
Definition changed {C} (cols : list string) (change : list (string * C)) (r : list C) : list C :=
  map (fun fv => new_value change (fst fv) (snd fv)) (combine cols r).

Lemma nth_error_combine {A B} (l : list A) (k : list B) i : nth_error (combine l k) i =
  match nth_error l i, nth_error k i with Some x, Some y => Some (x, y) | _, _ => None end.
Proof.
  revert k i; induction l as [|x l IH]; intros k i; [destruct i; reflexivity|]. destruct k as [|y k]; [destruct i; cbn; [reflexivity|destruct (nth_error l i); reflexivity]|].
  destruct i; [reflexivity|]. cbn. apply IH.
Qed.

Lemma assign_row_changed {C} cols (change : list (string * C)) r : NoDup cols -> NoDup (map fst change) -> length r = length cols ->
  assign_row cols change r = changed cols change r.
Proof.
  intros Hc. revert r. induction change as [|[f v] t IH]; intros r Hn Hl.
  - unfold assign_row, changed. cbn [fold_left]. rewrite (map_ext _ snd) by reflexivity. revert r Hl. induction cols as [|c cols IH2]; intros [|x r] Hl; cbn in *; try lia; [reflexivity|].
    f_equal. apply IH2; [inversion Hc; assumption|lia].
  - cbn [map fst] in Hn. inversion Hn as [|? ? Hf Hn']; subst. unfold assign_row. cbn [fold_left fst snd]. fold (assign_row cols t).
    destruct (col_pos cols f) as [p|] eqn:Ep.
    + pose proof (col_pos_nth _ _ _ Ep) as Hp. assert (Hpl : p < length r) by (rewrite Hl; apply nth_error_Some; congruence).
      change (fold_left _ t (set_nth p v r)) with (assign_row cols t (set_nth p v r)).
      rewrite IH by (assumption || (rewrite set_nth_length; exact Hl)). apply nth_error_ext. intros i. unfold changed. rewrite !nth_error_map, !nth_error_combine.
      destruct (Nat.eq_dec i p) as [->|Hi].
      * rewrite Hp, set_nth_same by exact Hpl. destruct (nth_error r p) as [x|] eqn:Ex; [|apply nth_error_None in Ex; lia].
        cbn [option_map fst snd]. f_equal. unfold new_value. cbn [find fst]. rewrite String.eqb_refl. cbn [snd].
        destruct (find _ t) as [e|] eqn:Ef; [|reflexivity]. apply find_some in Ef as [He Ee]. apply String.eqb_eq in Ee. exfalso. apply Hf. rewrite <- Ee. apply in_map, He.
      * rewrite set_nth_other by congruence. destruct (nth_error cols i) as [c|] eqn:Ec; [|reflexivity]. destruct (nth_error r i) as [x|]; [|reflexivity].
        cbn [option_map fst snd]. f_equal. unfold new_value. cbn [find fst]. destruct (String.eqb_spec f c) as [->|]; [|reflexivity].
        exfalso. apply Hi. rewrite (col_pos_NoDup cols c i Hc Ec) in Ep. congruence.
    + change (fold_left _ t r) with (assign_row cols t r). rewrite IH by assumption. apply map_ext_in. intros [c x] Hcx. cbn [fst snd]. unfold new_value. cbn [find fst].
      destruct (String.eqb_spec f c) as [->|]; [|reflexivity]. apply in_combine_l in Hcx. apply col_pos_None in Ep. contradiction.
Qed.

(** ** C90 *)

(** the value is the mean prediction over the changed rows *)
Theorem C90_value {C V} (N : num_ops V) (X : frame C) change P (g : list C -> V) x : wf_frame X -> NoDup (map fst change) ->
  (forall rows ys, P rows = Ok ys -> ys = map g rows) ->
  partial_dependence_value N X change P = Ok x ->
  (forall f, In f (map fst change) -> In f (f_cols X)) /\ x = np_mean N (map (fun r => g (changed (f_cols X) change r)) (f_rows X)).
Proof.
  intros (Hc & Hrows & _) Hn Hg H. unfold partial_dependence_value in H. destruct (forallb _ change) eqn:Ef; [|discriminate]. split.
  - intros f Hf. apply in_map_iff in Hf as (e & <- & He). rewrite forallb_forall in Ef. specialize (Ef e He). unfold str_in in Ef. apply existsb_exists in Ef as (c & Hc' & Ee). apply String.eqb_eq in Ee. rewrite Ee. exact Hc'.
  - destruct (P (assign_rows X change)) as [ys|] eqn:Ep; cbn [bind] in H; [|discriminate]. injection H as <-. rewrite (Hg _ _ Ep). f_equal. unfold assign_rows. rewrite map_map. apply map_ext_in. intros r Hr.
    rewrite assign_row_changed; auto. rewrite Forall_forall in Hrows. auto.
Qed.

(** a column that does not exist is rejected before the model is asked *)
Theorem C90_unknown {C V} (N : num_ops V) (X : frame C) change P f : In f (map fst change) -> ~ In f (f_cols X) ->
  partial_dependence_value N X change P = Err AssertionError.
Proof.
  intros Hf Hn. unfold partial_dependence_value. destruct (forallb _ change) eqn:Ef; [exfalso|reflexivity].
  apply in_map_iff in Hf as (e & <- & He). rewrite forallb_forall in Ef. specialize (Ef e He). unfold str_in in Ef. apply existsb_exists in Ef as (c & Hc' & Ee). apply String.eqb_eq in Ee. apply Hn. rewrite Ee. exact Hc'.
Qed.

Lemma changed_one {C} cols p f (v : C) r : NoDup cols -> nth_error cols p = Some f -> length r = length cols -> changed cols [(f, v)] r = with_value p v r.
Proof.
  intros Hc Hp Hl. assert (Hpl : p < length r) by (rewrite Hl; apply nth_error_Some; congruence). rewrite <- set_nth_with_value by exact Hpl.
  rewrite <- assign_row_changed; [|exact Hc|cbn; constructor; [intros []|constructor]|exact Hl]. unfold assign_row. cbn. rewrite (col_pos_NoDup cols f p Hc Hp). reflexivity.
Qed.
Lemma changed_two {C} cols p q f h (v w : C) r : NoDup cols -> nth_error cols p = Some f -> nth_error cols q = Some h -> p <> q -> length r = length cols ->
  changed cols [(f, v); (h, w)] r = with_value q w (with_value p v r).
Proof.
  intros Hc Hp Hq Hpq Hl. assert (Hpl : p < length r) by (rewrite Hl; apply nth_error_Some; congruence). assert (Hql : q < length r) by (rewrite Hl; apply nth_error_Some; congruence).
  rewrite <- assign_row_changed; [|exact Hc| |exact Hl].
  - unfold assign_row. cbn. rewrite (col_pos_NoDup cols f p Hc Hp), (col_pos_NoDup cols h q Hc Hq), set_nth_with_value, set_nth_with_value by (rewrite ?set_nth_length, ?with_value_length; assumption). reflexivity.
  - cbn. constructor; [|constructor; [intros []|constructor]]. intros [E|[]]. subst h. rewrite (proj1 (NoDup_nth_error cols) Hc p q) in Hpq; [congruence| |congruence]. apply nth_error_Some. congruence.
Qed.

(** it agrees with the calculator's tables *)
Theorem C90_agrees {C V} (O : cell_ops C) (N : num_ops V) (HO : cell_ok O) (Hnan : n_isnan N (n_nan N) = true) m X P b c g fs c' p f v x y n :
  wf_frame X -> rowwise P g -> reachable O N m X P b c ->
  calculate_pd_single O N c fs = (c', Ok tt) -> In f (feats X fs) -> nth_error (f_cols X) p = Some f -> In v (col_at p (f_rows X)) ->
  partial_dependence_value N X [(f, v)] (P n) = Ok x -> get_pd_single O c' f (Some [v]) = Ok [y] -> x = y.
Proof.
  intros HX Hg Hr E Hf Hp Hv Hx Hy. destruct (C01_single_exact O N HO Hnan m X P b c g fs c' p f HX Hg Hr E Hf Hp) as [H1 _].
  rewrite (H1 [v]) in Hy by (intros w [<-|[]]; exact Hv). injection Hy as <-.
  apply (C90_value N X [(f, v)] (P n) g x HX) in Hx as [_ ->]; [|cbn; constructor; [intros []|constructor]|intros rows ys; apply (Hg n)].
  unfold PD1. f_equal. apply map_ext_in. intros r Hrr. destruct HX as (Hc & Hrows & _). rewrite Forall_forall in Hrows. f_equal. apply changed_one; auto.
Qed.

Theorem C90_agrees_pairs {C V} (O : cell_ops C) (N : num_ops V) (HO : cell_ok O) (Hnan : n_isnan N (n_nan N) = true) m X P b c g ps c' p q f h v w x y n :
  wf_frame X -> rowwise P g -> reachable O N m X P b c ->
  calculate_pd_pairs O N c ps true = (c', Ok tt) -> requested X ps f h -> nth_error (f_cols X) p = Some f -> nth_error (f_cols X) q = Some h -> p <> q ->
  In v (col_at p (f_rows X)) -> In w (col_at q (f_rows X)) ->
  partial_dependence_value N X [(f, v); (h, w)] (P n) = Ok x -> get_pd_pairs O c' f h [(v, w)] = Ok [y] -> x = y.
Proof.
  intros HX Hg Hr E Hrq Hp Hq Hpq Hv Hw Hx Hy.
  rewrite (C02_pairs_exact O N HO Hnan m X P b c g ps true c' p q f h HX Hg Hr E Hrq Hp Hq Hpq [(v, w)]) in Hy by (intros a a' [Ea|[]]; injection Ea as <- <-; split; assumption). injection Hy as <-.
  assert (Hne : f <> h). { intros ->. apply Hpq. destruct HX as (Hc & _). apply (proj1 (NoDup_nth_error _) Hc p q); [apply nth_error_Some; congruence|congruence]. }
  apply (C90_value N X [(f, v); (h, w)] (P n) g x HX) in Hx as [_ ->]; [|cbn; constructor; [intros [->|[]]; congruence|constructor; [intros []|constructor]]|intros rows ys; apply (Hg n)].
  unfold PD2. cbn [fst snd]. f_equal. apply map_ext_in. intros r Hrr. destruct HX as (Hc & Hrows & _). rewrite Forall_forall in Hrows. f_equal. apply changed_two; auto.
Qed.

(** [remove_element] removes exactly that column *)
Theorem C90_remove_element cols f r : remove_element cols f = Ok r ->
  In f cols /\ (NoDup cols -> r = filter (fun c => negb (String.eqb c f)) cols).
Proof.
  revert r; induction cols as [|c t IH]; intros r H; [discriminate|]. cbn in H. destruct (String.eqb_spec c f) as [->|Hne].
  - injection H as <-. split; [left; reflexivity|]. intros Hn. inversion Hn as [|? ? Hf Hn']; subst. cbn. rewrite String.eqb_refl. cbn. symmetry.
    clear -Hf. induction t as [|d t IH]; [reflexivity|]. cbn. destruct (String.eqb_spec d f) as [->|]; [exfalso; apply Hf; left; reflexivity|]. cbn. f_equal. apply IH. intros H. apply Hf. right. exact H.
  - destruct (remove_element t f) as [r'|] eqn:Er; cbn in H; [|discriminate]. injection H as <-. destruct (IH r' eq_refl) as [H1 H2]. split; [right; exact H1|].
    intros Hn. inversion Hn; subst. cbn. destruct (String.eqb_spec c f) as [|]; [congruence|]. cbn. f_equal. auto.
Qed.
Theorem C90_remove_unknown cols f : ~ In f cols -> remove_element cols f = Err ValueError.
Proof.
  induction cols as [|c t IH]; intros H; [reflexivity|]. cbn. destruct (String.eqb_spec c f) as [->|]; [exfalso; apply H; left; reflexivity|]. rewrite IH; [reflexivity|]. intros Hf. apply H. right. exact Hf.
Qed.

Example C90_example : partial_dependence_value xQ exX [("a", 2); ("b", 30)]%Z (exP 0) = Ok (Fin (60 # 1))
  /\ partial_dependence_value xQ exX [("z", 2)]%Z (exP 0) = Err AssertionError
  /\ remove_element ["a"; "b"; "c"] "b" = Ok ["a"; "c"].
Proof. vm_compute. repeat split. Qed.

(** ** C91: [plot] of PartialDependenceVisualizer passes an unknown keyword, so it never draws *)
Theorem C91_always_fails_refuted {A} (kwargs : list string) (body : result A) : pd_visualizer_plot kwargs body = Err TypeError.
Proof. reflexivity. Qed.
(** with the documented keyword it would draw whatever sklearn draws *)
Example C91_example : call_with from_estimator_parameters ["grid_resolution"; "ax"; "kind"] (Ok 1) = Ok 1.
Proof. reflexivity. Qed.

Print Assumptions C90_value.
Print Assumptions C90_unknown.
Print Assumptions C90_agrees.
Print Assumptions C90_agrees_pairs.
Print Assumptions C90_remove_element.
Print Assumptions C90_remove_unknown.
Print Assumptions C91_always_fails_refuted.
