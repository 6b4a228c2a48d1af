(** What the performance based methods and the additivity meter ask of the model (C124). *)
From Verif Require Import Py Num Sorting Frame Rng PdCalc PdSpec PdFacts PdProofs PdTheorems PdErrors PdApi PdMethods Perm PermFacts PermRun Additivity Cost Props_Methods Props_Perm Props_Additivity Props_Budget.
From Coq Require Import QArith.
Open Scope string_scope.
Open Scope nat_scope.
Open Scope list_scope.

(** ** Specification *)

(** predictions needed: two for the data itself, three per pair and one per feature in every repetition *)
Definition permutation_budget (n_repeat k : nat) : nat := 2 + n_repeat * (3 * (k * (k - 1) / 2) + k).
(** rows the method works on *)
Definition rows_used {C} (X : frame C) (n : option nat) : nat := match n with Some n => n | None => length (f_rows X) end.

(** ** Proofs *)

Lemma combinations2_count {A} (l : list A) : length (combinations2 l) = length l * (length l - 1) / 2.
Proof.
  cut (2 * length (combinations2 l) = length l * (length l - 1)). { intros <-. rewrite Nat.mul_comm, Nat.div_mul; lia. }
  induction l as [|x t IH]; [reflexivity|]. cbn [combinations2 length]. rewrite app_length, map_length. destruct t; cbn [length] in *; nia.
Qed.

Section Count.
  Context {C V G : Type} (N : num_ops V) (R : rng_ops G) (srt : sorter).
  Notation act := (act (C := C) (G := G)).

  (** the action makes [n] predictions, or fails after at most as many *)
  Definition takes {A} (n : nat) (a : act A) : Prop :=
    forall s s' r, a s = (s', r) -> length (p_log s') <= length (p_log s) + n /\ (forall x, r = Ok x -> length (p_log s') = length (p_log s) + n).

  Lemma takes_then {A B} n k (a : act A) (b : A -> act B) : takes n a -> (forall x, takes k (b x)) -> takes (n + k) (andthen a b).
  Proof.
    intros Ha Hb s s' r H. unfold andthen in H. destruct (a s) as [s1 [x|e]] eqn:E; destruct (Ha _ _ _ E) as [H1 H2].
    - destruct (Hb x _ _ _ H) as [H3 H4]. rewrite (H2 x eq_refl) in *. split; [lia|]. intros y Hy. rewrite (H4 y Hy). lia.
    - injection H as <- <-. split; [lia|discriminate].
  Qed.
  Lemma takes_0 {A} (a : act A) : (forall s, p_log (fst (a s)) = p_log s) -> takes 0 a.
  Proof. intros H s s' r E. specialize (H s). rewrite E in H. cbn [fst] in H. rewrite H. split; [lia|intros; lia]. Qed.
  Lemma takes_ret {A} (x : A) : takes 0 (ret x).
  Proof. apply takes_0. reflexivity. Qed.
  Lemma takes_traverse {A B} n (f : A -> act B) l : (forall x, In x l -> takes n (f x)) -> takes (length l * n) (traverse f l).
  Proof.
    induction l as [|x t IH]; intros H; cbn [traverse length]; [apply takes_ret|].
    cbn [Nat.mul]. apply takes_then; [apply H; left; reflexivity|]. intros y. rewrite <- (Nat.add_0_r (length t * n)).
    apply takes_then; [apply IH; intros z Hz; apply H; right; exact Hz|]. intros; apply takes_ret.
  Qed.
  Lemma takes_le {A} n k (a : act A) : n = k -> takes n a -> takes k a.
  Proof. intros ->. auto. Qed.

  Lemma takes_score pf (m : metric V) y rs : takes 1 (score pf m y rs).
  Proof.
    intros s s' r H. unfold score, andthen, ask in H. destruct pf as [P|]; [|injection H as <- <-; split; [lia|discriminate]].
    destruct (P (length (p_log s)) rs) as [yh|e]; unfold lift in H; injection H as <- <-; cbn [p_log]; rewrite app_length; cbn [length]; split; intros; lia.
  Qed.
  Lemma takes_draw n : takes 0 (draw R n).
  Proof. apply takes_0. intros s. unfold draw. destruct (r_perm R (p_rng s) n). reflexivity. Qed.

  Context (pf : option (nat -> list (list C) -> result (list V))) (m : metric V) (X : frame C) (y : target V).

  Lemma takes_permute_score fs ref : takes 1 (permute_score N R pf m X y fs ref).
  Proof.
    unfold permute_score. apply (takes_then 0 1); [apply takes_draw|]. intros p. apply (takes_then 0 1); [apply takes_0; reflexivity|]. intros rs.
    apply (takes_then 1 0); [apply takes_score|]. intros; apply takes_ret.
  Qed.
  Lemma takes_inter f1 f2 ref : takes 3 (inter N R pf m X y f1 f2 ref).
  Proof.
    unfold inter. apply (takes_then 1 2); [apply takes_permute_score|]. intros s1. apply (takes_then 1 1); [apply takes_permute_score|]. intros s2.
    apply (takes_then 1 0); [apply takes_permute_score|]. intros; apply takes_ret.
  Qed.
  Lemma takes_ovo pairs n : takes (1 + length pairs * (n * 3)) (perf_based_ovo N R srt pf m X y pairs n).
  Proof.
    unfold perf_based_ovo. apply takes_then; [apply takes_score|]. intros ref. rewrite <- (Nat.add_0_r (length pairs * _)).
    apply takes_then; [|intros; apply takes_ret]. apply takes_traverse. intros pr _. rewrite <- (Nat.add_0_r (n * 3)).
    apply takes_then; [|intros; apply takes_ret]. rewrite <- (seq_length n 0) at 1. apply takes_traverse. intros _ _.
    apply (takes_then 3 0); [apply takes_inter|intros; apply takes_ret].
  Qed.
  Lemma takes_corrupt f w : takes 1 (corrupt R pf m X y f w).
  Proof.
    unfold corrupt. apply (takes_then 0 1). { destruct (col_pos _ _); apply takes_0; reflexivity. } intros k.
    apply (takes_then 0 1); [apply takes_draw|]. intros p. apply (takes_then 1 0); [apply takes_score|intros; apply takes_ret].
  Qed.
  Lemma takes_corrupt_loop fs : forall w, takes (length fs) (corrupt_loop R pf m X y fs w).
  Proof.
    induction fs as [|f t IH]; intros w; cbn [corrupt_loop length]; [apply takes_ret|].
    apply (takes_then 1 (length t)); [apply takes_corrupt|]. intros vw. rewrite <- (Nat.add_0_r (length t)). apply takes_then; [apply IH|intros; apply takes_ret].
  Qed.
  Lemma takes_importance n fs : takes (1 + n * length fs) (permutation_importance N R srt pf m X y n (Some fs)).
  Proof.
    unfold permutation_importance. apply takes_then; [apply takes_score|]. intros base. rewrite <- (Nat.add_0_r (n * _)).
    apply takes_then; [rewrite <- concat_repeat_length; apply takes_corrupt_loop|]. intros sc. destruct (map _ (dedup fs)); [apply takes_0; reflexivity|apply takes_ret].
  Qed.
End Count.

Section Budget2.
  Context {C V G : Type} (O : cell_ops C) (N : num_ops V) (HO : cell_ok O) (R : rng_ops G) (HR : rng_ok R) (srt : sorter).

  Lemma sample_rows g (X : frame C) n Xs g' : sample_if_not_none R g X n = Ok (Xs, g') -> wf_frame X -> length (f_rows Xs) = rows_used X n.
  Proof.
    intros H HX. destruct n as [k|]; cbn in H; [|injection H as <- <-; reflexivity].
    destruct (Nat.leb_spec k (length (f_rows X))) as [Hk|]; [|discriminate].
    pose proof (rk_sample R HR g _ _ Hk) as Hs. destruct (r_sample R g _ k) as [ps g1]. injection H as <- <-. destruct Hs as (Hl & _ & Hlt).
    unfold frame_take. cbn [f_rows rows_used]. cbn [fst] in *. rewrite <- Hl. clear -Hlt.
    induction ps as [|i t IH]; [reflexivity|]. cbn [picks flat_map length]. rewrite app_length. fold (picks (f_rows X) t).
    rewrite IH by (intros j Hj; apply Hlt; right; exact Hj). destruct (nth_error (f_rows X) i) eqn:E; [reflexivity|].
    exfalso. apply nth_error_None in E. specialize (Hlt i (or_introl eq_refl)). lia.
  Qed.

  (** C124: the number of predictions of a fit of the performance based method is fixed by the number of
      repetitions and of features; every prediction is for as many rows as were asked for; a fit that
      raises makes no more of them *)
  Theorem C124_performance (m : metric V) e s (a : sargs C V) s' out log : wf_frame (sa_X a) -> NoDup (included a) ->
    sj_fit N R srt m e s a = (s', out, log) ->
    length log <= permutation_budget (sa_repeat a) (length (included a))
    /\ (out = Ok tt -> length log = permutation_budget (sa_repeat a) (length (included a)))
    /\ (forall q, In q log -> length q = rows_used (sa_X a) (sa_n a)).
  Proof.
    intros HX Hnd H. pose proof H as H0. unfold sj_fit in H.
    destruct (sample_both R (sj_rng s) (sa_X a) (sa_y a) (sa_n a)) as [[[Xs ys] g1]|er] eqn:Es.
    2:{ assert (log = [] /\ out = Err er) as [-> ->] by (split; congruence). cbn [length]. split; [lia|]. split; [discriminate|intros q []]. }
    fold (included a) in H. cbv zeta in H. rewrite <- and_assoc. split.
    - clear H0. assert (Hb : permutation_budget (sa_repeat a) (length (included a))
        = (1 + length (combinations2 (included a)) * (sa_repeat a * 3)) + (1 + sa_repeat a * length (included a))).
      { unfold permutation_budget. rewrite <- combinations2_count. lia. }
      rewrite Hb. clear Hb.
      destruct (perf_based_ovo _ _ _ _ _ _ _ _ _ _) as [s1 [t|er]] eqn:E1; destruct (takes_ovo _ _ _ _ _ _ _ _ _ _ _ _ E1) as [H1 H2]; cbn [p_log length] in *.
      2:{ assert (log = p_log s1 /\ out = Err er) as [-> ->] by (split; congruence). split; [lia|discriminate]. }
      specialize (H2 t eq_refl).
      destruct (permutation_importance _ _ _ _ _ _ _ _ _ _) as [s2 [fi|er]] eqn:E2; destruct (takes_importance _ _ _ _ _ _ _ _ _ _ _ _ E2) as [H3 H4]; cbn [p_log] in *;
        assert (log = p_log s2) by congruence; subst log; (split; [lia|]).
      + intros _. rewrite (H4 fi eq_refl). lia.
      + congruence.
    - destruct (C26_only_selected_columns N R HR srt m e s a s' out log Xs ys g1 HX Hnd Es H0) as (Hl & _).
      destruct (sample_both_frame R HR _ _ _ _ _ _ _ HX Es) as (Hs & _). 
      intros q Hq. rewrite Forall_forall in Hl. assert (Hw : length (f_rows Xs) = rows_used (sa_X a) (sa_n a)) by (apply (sample_rows _ _ _ _ _ Hs HX)).
      destruct (Hl q Hq) as [->|(p & _ & [(f & k & _ & _ & Hq' & _)|(f & f' & k & k' & _ & _ & _ & Hq' & _)])]; [exact Hw|rewrite Hq'; exact Hw|rewrite Hq'; exact Hw].
  Qed.

  (** the same for PermutationImportance.importance on its own *)
  Theorem C124_importance (m : metric V) pf (X : frame C) y n fs g0 s' out : wf_frame X ->
    permutation_importance N R srt pf m X y n (Some fs) {| p_log := []; p_rng := g0 |} = (s', out) ->
    length (p_log s') <= 1 + n * length fs
    /\ (forall t, out = Ok t -> length (p_log s') = 1 + n * length fs)
    /\ (forall q, In q (p_log s') -> length q = length (f_rows X)).
  Proof.
    intros HX H. destruct (takes_importance _ _ _ _ _ _ _ _ _ _ _ _ H) as [H1 H2]. cbn [p_log length] in *. split; [exact H1|]. split; [exact H2|].
    pose proof (C26_importance_requests N R HR srt m pf X y n fs g0 s' out HX H) as Hl. rewrite Forall_forall in Hl. intros q Hq.
    destruct (Hl q Hq) as [->|(p & _ & [(f & k & _ & _ & Hq' & _)|(f & f' & k & k' & _ & _ & _ & Hq' & _)])]; [reflexivity|exact Hq'|exact Hq'].
  Qed.

  (** the additivity meter without a given calculator: one profile per value of each column, and the data
      itself once, which is the request after those of the calculator *)
  Theorem C124_additivity s (a : aargs C V) s' r c Xs d : wf_frame (aa_X a) -> aa_calc a = None -> ad_calc s = None ->
    add_fit O N R s a = (s', r) -> ad_calc s' = Some c -> ad_X s' = Some Xs -> values_listed Xs d ->
    total_rows (c_log c) <= sum_over d (f_cols Xs) * length (f_rows Xs) /\ length (f_rows Xs) = rows_used (aa_X a) (aa_n a)
    /\ (forall v, r = Ok v -> exists preds, callable (aa_pf a) (length (c_log c)) (f_rows Xs) = Ok preds /\ ad_preds s' = Some preds).
  Proof.
    intros HX Ha Hs H Hc HXs Hd. unfold add_fit in H. rewrite Ha in H. cbn [pick_calc] in H.
    destruct (sample_if_not_none R (ad_rng s) (aa_X a) (aa_n a)) as [[Xs' rng']|er] eqn:Es; [|exfalso; congruence].
    set (c0 := calc_init O N _ Xs' _ _) in *. destruct (calculate_pd_single O N c0 None) as [c1 r1] eqn:E1.
    assert (Hc1 : c = c1 /\ Xs = Xs').
    { destruct r1 as [u|er]; [|injection H as <- <-; cbn in *; split; congruence].
      destruct (callable (aa_pf a) (length (c_log c1)) (f_rows Xs')) as [preds|er]; [|injection H as <- <-; cbn in *; split; congruence].
      destruct (bind _ _) as [[full v]|er]; injection H as <- <-; cbn in *; split; congruence. }
    destruct Hc1 as [-> ->]. destruct (sample_wf R _ _ _ _ _ HR HX Es) as (HwX & _).
    split; [|split; [apply (sample_rows _ _ _ _ _ Es HX)|]].
    - pose proof (single_cost O N HO (md_id (aa_model a)) Xs' (callable (aa_pf a)) (aa_batch a) c0 None c1 r1 HwX (ex_intro _ [] eq_refl) E1) as Hp.
      rewrite list_sum_scale in Hp. cbn [feats] in Hp. unfold c0 in Hp. cbn [calc_init c_log total_rows map list_sum fold_right] in Hp.
      assert (Hcols : list_sum (map (fun f => length (grid O Xs' f)) (f_cols Xs')) <= sum_over d (f_cols Xs')) by (rewrite sum_over_list_sum; apply list_sum_le; intros f _; apply (grid_listed O HO); assumption). nia.
    - intros v ->. destruct r1 as [u|er]; [|discriminate]. destruct (callable (aa_pf a) (length (c_log c1)) (f_rows Xs')) as [preds|er] eqn:Ep; [|discriminate].
      exists preds. split; [reflexivity|]. destruct (bind _ _) as [[full v']|er]; [|discriminate]. injection H as <- <-. reflexivity.
  Qed.
End Budget2.

(** two features, two repetitions, five rows: 2 + 2 * (3 * 1 + 2) = 12 predictions *)
Example C124_example :
  let '(s, o, log) := ex_fit (MSE xQ) 5 (sj_init (r_seed rotR 1)) (ex_args times (ex_y [0; 0; 3; 35; 40]%Z) None 2) in
  o = Ok tt /\ length log = 12 /\ permutation_budget 2 2 = 12 /\ map (@length _) log = repeat 5 12.
Proof. vm_compute. auto. Qed.
(** four rows, three values of "a" and four of "b": 7 profiles of 4 rows; the bound is met *)
Example C124_additivity_example :
  let X := adX ["a"; "b"] [[0;0];[1;3];[2;1];[2;2]]%Z in
  let '(s, r) := add_fit Zcell xQ rotR ad0 (mkadd (adP (fun x y => 2 * x + y * y)%Z) X) in
  r = Ok (Fin 1%Q) /\ match ad_calc s with Some c => total_rows (c_log c) = 7 * 4 | None => False end
  /\ values_listed X (fun f => if String.eqb f "a" then 3 else 4).
Proof.
  cbv zeta. match goal with |- context [add_fit ?a ?b ?c ?d ?e] => set (F := add_fit a b c d e) end.
  assert (E : match F with (s, r) => r = Ok (Fin 1%Q) /\ match ad_calc s with Some c => total_rows (c_log c) = 7 * 4 | None => False end end) by (vm_compute; auto).
  destruct F as [s r]. destruct E as [E1 E2]. split; [exact E1|]. split; [exact E2|].
  intros f p Hp. destruct p as [|[|p]]; cbn in Hp; [injection Hp as <-; exists [0; 1; 2]%Z|injection Hp as <-; exists [0; 1; 2; 3]%Z|destruct p; discriminate]; (split; [intros v Hv; cbn in *; tauto|vm_compute; lia]).
Qed.

Print Assumptions C124_performance.
Print Assumptions C124_importance.
Print Assumptions C124_additivity.
