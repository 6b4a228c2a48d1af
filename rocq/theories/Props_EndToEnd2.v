(** C115, C116: from the model and the data to what the user sees, for the performance based
    method (Oh), and the comparison of any two of the model agnostic methods. *)
From Verif Require Import Py Num NumR Sorting Frame Rng PdCalc PdSpec PdFacts PdProofs PdTheorems PdErrors PdApi PdMethods MethodSpec
  PdMethodFacts PdMethodRun PdMethodReal PdMethodReal2 GreenwellFacts Props_Pd Props_Methods Props_Methods2 Perm ForestFacts PermFacts PermRun Props_Perm SplitScore Comparator Props_Split Props_Compare
  Visual VisualFacts Props_Visual Props_Visual2 Props_Visual3 Props_Visual5 Compared Props_EndToEnd.
From Coq Require Import Reals Lra.
Open Scope string_scope.
Open Scope nat_scope.
Open Scope list_scope.
Notation included := Props_Perm.included.

(** ** Specification *)
(** the three metrics of the library, and their value for targets [ys] and predictions [zs] *)
Inductive scoring := ByMSE | ByRMSE | ByAccuracy.
Definition scoring_metric (c : scoring) : metric (ext R) := match c with ByMSE => MSE xR | ByRMSE => RMSE xR | ByAccuracy => Accuracy xR end.
Definition score_value (c : scoring) (ys zs : list R) : R := match c with ByMSE => Rmse ys zs | ByRMSE => sqrt (Rmse ys zs) | ByAccuracy => Raccuracy ys zs end.

Section Spec.
  Context {C G : Type} (Rg : rng_ops G) (c : scoring) (h : list C -> R) (X : frame C) (ys : list R) (n : nat) (fs : list string).
  (** the score of the model on altered rows *)
  Definition score_on (rows : list (list C)) : R := score_value c ys (map h rows).
  (** the i-th draw of the generator in state [g] shuffles the columns at the positions [sel] *)
  Definition shuffled_score (g : G) (sel : list nat) (i : nat) : R := score_on (rearranged (f_rows X) sel (nth_perm Rg (length (f_rows X)) g i)).
  (** mean over the repetitions of |joint effect - single effects|; three draws per repetition *)
  Definition oh_statistic (g : G) (p1 p2 i : nat) : R :=
    Rmean (map (fun j => let d := 3 * n * i + 3 * j in
                         Rabs (shuffled_score g [p1; p2] (d + 2) - shuffled_score g [p1] d - shuffled_score g [p2] (d + 1) + score_on (f_rows X))) (seq 0 n)).
  (** the value of an unordered pair: the i-th of the pairs of the features in their order *)
  Definition oh_pair (g : G) (f1 f2 : string) (v : ext R) : Prop :=
    exists i a b p1 p2, nth_error (combinations2 fs) i = Some (a, b) /\ ((a = f1 /\ b = f2) \/ (a = f2 /\ b = f1))
      /\ nth_error (f_cols X) p1 = Some a /\ nth_error (f_cols X) p2 = Some b /\ v = Fin (oh_statistic g p1 p2 i).
  (** importance: how much worse the score is on average when the column is shuffled; the
      repetitions go through the features in their order *)
  Definition loss (x : R) : R := match c with ByAccuracy => (score_on (f_rows X) - x)%R | _ => (x - score_on (f_rows X))%R end.
  Definition oh_importance (g : G) (f : string) (v : ext R) : Prop :=
    exists k p, nth_error fs k = Some f /\ nth_error (f_cols X) p = Some f
      /\ v = Fin (loss (Rmean (map (fun j => shuffled_score g [p] (j * length fs + k)) (seq 0 n)))).
End Spec.

Lemma combinations2_once {A} (l : list A) a b : NoDup l -> In (a, b) (combinations2 l) -> In (b, a) (combinations2 l) -> False.
Proof.
  induction l as [|x l IH]; [intros _ []|]. intros Hn. inversion Hn as [|? ? Hx Hl]; subst. cbn [combinations2]. intros H1 H2. apply in_app_or in H1, H2.
  destruct H1 as [H1|H1], H2 as [H2|H2].
  - apply in_map_iff in H1 as (y & E1 & Hy). apply in_map_iff in H2 as (z & E2 & Hz). congruence.
  - apply in_map_iff in H1 as (y & E1 & Hy). injection E1 as -> ->. apply combinations2_In in H2 as [_ H2]. contradiction.
  - apply in_map_iff in H2 as (y & E1 & Hy). injection E1 as -> ->. apply combinations2_In in H1 as [_ H1]. contradiction.
  - exact (IH Hl H1 H2).
Qed.
Lemma combinations2_NoDup {A} (l : list A) : NoDup l -> NoDup (combinations2 l).
Proof.
  induction 1 as [|x l Hx Hn IH]; [constructor|]. cbn [combinations2]. apply NoDup_app_disj.
  - apply FinFun.Injective_map_NoDup; [intros y z E; congruence|exact Hn].
  - exact IH.
  - intros p H1 H2. apply in_map_iff in H1 as (y & <- & _). apply combinations2_In in H2 as [H2 _]. contradiction.
Qed.
Lemma oh_pair_unique {C G} (Rg : rng_ops G) c h (X : frame C) ys n fs g f1 f2 v v' : NoDup (f_cols X) -> NoDup fs ->
  oh_pair Rg c h X ys n fs g f1 f2 v -> oh_pair Rg c h X ys n fs g f1 f2 v' -> v = v'.
Proof.
  intros HX Hn (i & a & b & p1 & p2 & Hi & Hab & H1 & H2 & ->) (i' & a' & b' & p1' & p2' & Hi' & Hab' & H1' & H2' & ->).
  assert (E : (a, b) = (a', b')).
  { pose proof (nth_error_In _ _ Hi) as I1. pose proof (nth_error_In _ _ Hi') as I2.
    destruct Hab as [[-> ->]|[-> ->]], Hab' as [[-> ->]|[-> ->]]; try reflexivity; exfalso; exact (combinations2_once fs _ _ Hn I1 I2). }
  injection E as <- <-. rewrite (nth_once _ _ _ _ (combinations2_NoDup fs Hn) Hi Hi'), (nth_once _ _ _ _ HX H1 H1'), (nth_once _ _ _ _ HX H2 H2'). reflexivity.
Qed.
Lemma oh_pair_sym {C G} (Rg : rng_ops G) c h (X : frame C) ys n fs g f1 f2 v : oh_pair Rg c h X ys n fs g f1 f2 v -> oh_pair Rg c h X ys n fs g f2 f1 v.
Proof. intros (i & a & b & p1 & p2 & H). exists i, a, b, p1, p2. tauto. Qed.

Section EndToEnd.
  Context {C G : Type} (O : cell_ops C) (HO : cell_ok O) (Rg : rng_ops G) (HR : rng_ok Rg) (srt : sorter) (Hs : sorter_ok srt) (lower : string -> string).

  (** the input of [fit]: a model that computes [h] row by row and answers any table, a numeric
      target for every row used, at least one repetition, features that are columns *)
  Record sj_input (s : Perm.sstate C (ext R) G) (a : sargs C (ext R)) (h : list C -> R) (X : frame C) (ys : list R) (g : G) : Prop := {
    si_frame : wf_frame (sa_X a);
    si_sample : exists b idx, sample_both Rg (sj_rng s) (sa_X a) (sa_y a) (sa_n a) = Ok (X, fin_target b idx ys, g);
    si_target : length ys = length (f_rows X);
    si_rows : f_rows X <> [];
    si_model : exists P, md_predict (sa_model a) = Some P /\ rowwise P (fun r => Fin (h r)) /\ total P;
    si_repeat : 0 < sa_repeat a;
    si_distinct : NoDup (included a);
    si_columns : forall f, In f (included a) -> In f (f_cols (sa_X a));
    si_two : 2 <= length (included a) }.

  Record sj_output c (a : sargs C (ext R)) (h : list C -> R) (X : frame C) (ys : list R) (g e : G) (s' : Perm.sstate C (ext R) G) t fi : Prop := {
    so_ovo : sj_ovo s' = Some t;
    so_fi : sj_fi s' = Some fi;
    so_pairs : lists_pairs (included a) t;
    so_values : forall r, In r t -> oh_pair Rg c h X ys (sa_repeat a) (included a) g (fst (fst r)) (snd (fst r)) (snd r);
    so_sorted : StronglySorted (fun x y => le_dir xR false (snd x) (snd y) = true) t;
    so_names : Permutation (map fst fi) (included a);
    so_importance : forall f v, In (f, v) fi -> oh_importance Rg c h X ys (sa_repeat a) (included a) e f v }.

  Lemma scores_scoring c (X : frame C) b idx ys (h : list C -> R) : length ys = length (f_rows X) -> f_rows X <> [] ->
    scores_as (scoring_metric c) X (fin_target b idx ys) (fun r => Fin (h r)) (score_on c h ys).
  Proof. intros Hl Hne. destruct c; [apply scores_mse|apply scores_rmse|apply scores_accuracy]; assumption. Qed.

  Lemma shuffles_seq fs n f k : NoDup fs -> nth_error fs k = Some f -> shuffles fs n f = map (fun j => j * length fs + k) (seq 0 n).
  Proof.
    intros Hn Hk. assert (Hlt : k < length fs) by (apply nth_error_Some; congruence). unfold shuffles.
    induction n as [|n IH]; [reflexivity|]. replace (S n * length fs) with (n * length fs + length fs) by lia. rewrite seq_app, filter_app, IH, seq_S, map_app. f_equal. cbn [plus map].
    assert (El : seq (n * length fs) (length fs) = seq (n * length fs) k ++ seq (n * length fs + k) (S (length fs - S k))) by (rewrite <- seq_app; f_equal; lia). rewrite El, filter_app. cbn [seq filter].
    assert (Hm : forall i, i < length fs -> String.eqb f (nth ((n * length fs + i) mod length fs) fs "") = (i =? k)).
    { intros i Hi. rewrite Nat.add_comm, Nat.mod_add, Nat.mod_small by lia. destruct (Nat.eqb_spec i k) as [->|Hik].
      - rewrite (nth_error_nth _ _ _ Hk). apply String.eqb_refl.
      - apply String.eqb_neq. intros E. apply Hik. eapply nth_once; [exact Hn| |exact Hk]. rewrite E. apply nth_error_nth', Hi. }
    assert (H0 : forall a m, (forall i, a <= i < a + m -> String.eqb f (nth (i mod length fs) fs "") = false) -> filter (fun i => String.eqb f (nth (i mod length fs) fs "")) (seq a m) = []).
    { clear. intros a m. revert a. induction m as [|m IH]; intros a H; [reflexivity|]. cbn [seq filter]. rewrite H by lia. apply IH. intros i Hi. apply H. lia. }
    rewrite (Hm k Hlt), Nat.eqb_refl, !H0; [reflexivity|..].
    - intros i Hi. replace i with (n * length fs + (i - n * length fs)) by lia. rewrite Hm by lia. apply Nat.eqb_neq. lia.
    - intros i Hi. replace i with (n * length fs + (i - n * length fs)) by lia. rewrite Hm by lia. apply Nat.eqb_neq. lia.
  Qed.

  Lemma sj_fit_output c s a h X ys g e : sj_input s a h X ys g ->
    exists s' t fi log, sj_fit xR Rg srt (scoring_metric c) e s a = (s', Ok tt, log) /\ wf_frame X /\ sj_output c a h X ys g e s' t fi.
  Proof.
    intros [Hf (b & idx & Hsmp) Hl Hr (P & HP & Hrow & Htot) Hrep Hd Hcol H2]. pose proof (scores_scoring c X b idx ys h Hl Hr) as HS.
    assert (Hne : included a <> []) by (intros E; rewrite E in H2; cbn in H2; lia).
    destruct (C25_fit_returns xR Rg HR srt (scoring_metric c) e s a X _ g P _ Hf Hd Hne Hcol Hsmp HP Hrow Htot (fun rs Hrs => ex_intro _ _ (HS rs Hrs))) as (s' & log & E).
    destruct (sample_both_frame Rg HR _ _ _ _ _ _ _ Hf Hsmp) as (_ & HX & Hcols).
    destruct (C25_interaction_values Rg HR srt Hs (scoring_metric c) e s a s' log X _ g P _ _ Hf Hd Hrep Hsmp HP Hrow HS E) as (t & raw & Et & Hp & Hm & Hv & _ & Hsd).
    destruct (sj_tables xR Rg srt Hs xR_ord (scoring_metric c) e s a s' log E) as (t' & fi & Et' & Efi & HL & HPf). rewrite Et in Et'. injection Et' as <-. rewrite (dedup_id _ Hd) in HPf.
    destruct (sj_fit_inv xR Rg srt (scoring_metric c) e s a s' log X _ g Hsmp E) as (s1 & s2 & t0 & fi0 & _ & E2 & _ & Ef0 & _). rewrite Efi in Ef0. injection Ef0 as <-. rewrite HP in E2.
    destruct (C31_importance_values Rg HR srt Hs (scoring_metric c) X _ _ _ e {| p_log := p_log s1; p_rng := e |} s2 fi P _ _ HX Hrow HS Hrep eq_refl E2) as (_ & _ & Hi & _).
    exists s', t, fi, log. split; [exact E|]. split; [exact HX|]. constructor; try assumption.
    - intros [[f1 f2] v] Hin. cbn [fst snd]. apply (Permutation_in _ Hp) in Hin. apply In_nth_error in Hin as (i & Hin).
      assert (Hc : nth_error (combinations2 (included a)) i = Some (f1, f2)) by (rewrite <- Hm, nth_error_map, Hin; reflexivity).
      destruct (combinations2_In _ _ (nth_error_In _ _ Hc)) as [Ha Hb]. cbn [fst snd] in Ha, Hb. apply Hcol in Ha, Hb. rewrite <- Hcols in Ha, Hb. apply In_nth_error in Ha as (p1 & H1). apply In_nth_error in Hb as (p2 & H3).
      exists i, f1, f2, p1, p2. split; [exact Hc|]. split; [auto|]. split; [exact H1|]. split; [exact H3|]. rewrite (Hv i f1 f2 p1 p2 Hc H1 H3) in Hin. injection Hin as <-. reflexivity.
    - eapply StronglySorted_impl; [|exact Hsd]. intros x y _ _ (u & w & Eu & Ew & Huw). rewrite Eu, Ew. cbn. apply negb_true_iff, Rltb_false. lra.
    - intros f v Hin. assert (Hfi : In f (included a)) by (apply (Permutation_in _ HPf), (in_map fst _ _ Hin)). pose proof Hfi as Hfc. apply In_nth_error in Hfi as (k & Hk). apply Hcol in Hfc. rewrite <- Hcols in Hfc.
      apply In_nth_error in Hfc as (p & Hp0). exists k, p. split; [exact Hk|]. split; [exact Hp0|]. destruct (Hi f v p Hin Hp0) as [-> _]. rewrite (shuffles_seq _ _ _ _ Hd Hk), map_map.
      unfold loss, penalty, shuffled_score, score_on. destruct c; cbn; f_equal; lra.
  Qed.

  (** a fitted method as the comparator and interaction_value see it: one row per pair of its
      features, with the value [val] *)
  Record seen (v : mview (ext R)) (fs : list string) (val : string -> string -> ext R -> Prop) : Prop := {
    seen_distinct : NoDup fs;
    seen_two : 2 <= length fs;
    seen_sym : forall f1 f2 x, val f1 f2 x -> val f2 f1 x;
    seen_nan : forall f1 f2 x, val f1 f2 x -> n_isnan xR x = false;
    seen_table : exists t, mv_compare v = Ok t /\ lists_pairs fs t /\ (forall r, In r t -> val (fst (fst r)) (snd (fst r)) (snd r))
                   /\ StronglySorted (fun x y => n_ltb xR (snd x) (snd y) = false) t;
    seen_descending : mv_ascending v = false }.

  Lemma seen_of fs t (val : string -> string -> ext R -> Prop) name : NoDup fs -> 2 <= length fs -> (forall f1 f2 x, val f1 f2 x -> val f2 f1 x) -> (forall f1 f2 x, val f1 f2 x -> n_isnan xR x = false) ->
    lists_pairs fs t -> (forall r, In r t -> val (fst (fst r)) (snd (fst r)) (snd r)) ->
    seen {| mv_name := name; mv_ascending := false; mv_compare := compare_table xR srt false (Some t) |} fs val.
  Proof.
    intros Hd H2 Hsym Hnan HL Hv. constructor; try assumption; [|reflexivity]. cbn [mv_compare compare_table].
    destruct (sort_values_ok xR srt false (fun r : string * string * ext R => snd r) t Hs xR_ord) as [HP Hst].
    exists (sort_values xR srt false (fun r => snd r) t). split; [reflexivity|]. split; [exact (lists_pairs_perm _ _ _ (Permutation_sym HP) HL)|].
    split; [intros r Hr; apply Hv, (Permutation_in _ HP), Hr|]. eapply StronglySorted_impl; [|exact Hst]. intros x y Hx Hy Hle. cbn [le_dir] in Hle. unfold le_desc in Hle.
    apply (Permutation_in _ HP) in Hx, Hy. rewrite (Hnan _ _ _ (Hv x Hx)), (Hnan _ _ _ (Hv y Hy)) in Hle. apply negb_true_iff, Hle.
  Qed.
  Lemma sj_seen c s a h X ys g e s' log : sj_input s a h X ys g -> sj_fit xR Rg srt (scoring_metric c) e s a = (s', Ok tt, log) ->
    seen (sj_compared xR srt s') (included a) (oh_pair Rg c h X ys (sa_repeat a) (included a) g).
  Proof.
    intros Hin E. destruct (sj_fit_output c s a h X ys g e Hin) as (s0 & t & fi & log0 & E0 & _ & [Et _ HL Hv _ _ _]). assert (s0 = s') by congruence. subst s0.
    unfold sj_compared. rewrite Et. apply seen_of; [apply (si_distinct _ _ _ _ _ _ Hin)|apply (si_two _ _ _ _ _ _ Hin)|intros f1 f2 x; apply oh_pair_sym| |exact HL|exact Hv].
    intros f1 f2 x (i & a0 & b & p1 & p2 & _ & _ & _ & _ & ->). reflexivity.
  Qed.
  Lemma pair_value_nan h X k f1 f2 x : pair_value O h X k f1 f2 x -> n_isnan xR x = false.
  Proof. intros (p & q & _ & -> & _). destruct k as [[|]|]; cbn [statistic]; unfold Hstat; [|reflexivity..]. destruct (Req_EM_T _ _); [destruct (Req_EM_T _ _)|]; reflexivity. Qed.

  (** the model agnostic methods after [fit] *)
  Inductive agnostic : mview (ext R) -> list string -> (string -> string -> ext R -> Prop) -> Prop :=
  | by_dependence k s a h X s' : input O Rg k s a h X -> PdMethods.fit O xR Rg srt k s a = (s', Ok tt) ->
      agnostic (pd_compared xR srt k s') (fitted_features a) (pair_value O h X k)
  | by_performance c s a h X ys g e s' log : sj_input s a h X ys g -> sj_fit xR Rg srt (scoring_metric c) e s a = (s', Ok tt, log) ->
      agnostic (sj_compared xR srt s') (included a) (oh_pair Rg c h X ys (sa_repeat a) (included a) g).

  Lemma agnostic_seen v fs val : agnostic v fs val -> seen v fs val.
  Proof.
    intros [k s a h X s' Hin E|c s a h X ys g e s' log Hin E].
    - destruct (fit_output O HO Rg HR srt Hs k s a h X Hin) as (s0 & t & fi & E0 & _ & [Et _ HL Hv _ _ _ _]). assert (s0 = s') by congruence. subst s0.
      unfold pd_compared. rewrite Et. apply seen_of; [apply (in_distinct _ _ _ _ _ _ _ Hin)|apply (in_two _ _ _ _ _ _ _ Hin)|apply pair_value_sym|intros f1 f2 x; apply pair_value_nan|exact HL|exact Hv].
    - apply (sj_seen c s a h X ys g e s' log Hin E).
  Qed.

  Lemma seen_value v fs val f1 f2 : seen v fs val ->
    (In f1 fs -> In f2 fs -> f1 <> f2 -> exists x, interaction_value (mv_compare v) f1 f2 = Ok x /\ val f1 f2 x)
    /\ (~ (In f1 fs /\ In f2 fs /\ f1 <> f2) -> interaction_value (mv_compare v) f1 f2 = Err IndexError).
  Proof.
    intros [Hd H2 Hsym _ (t & Et & HL & Hv & _) _]. rewrite Et. pose proof (interaction_value_ok t f1 f2) as Hi.
    destruct (interaction_value _ f1 f2) as [x|e].
    - destruct Hi as (r & Hr & Ha & <-). destruct (lists_pairs_In _ t r Hd HL Hr) as (A & B & D).
      assert (Hpv : val f1 f2 (snd r)) by (specialize (Hv r Hr); destruct Ha as [[<- <-]|[<- <-]]; auto).
      split; [intros; exists (snd r); auto|]. intros Hno. exfalso. apply Hno. destruct Ha as [[<- <-]|[<- <-]]; auto.
    - destruct Hi as [-> Hi]. split; [|reflexivity]. intros A B D. exfalso. destruct (lists_pairs_all _ t f1 f2 HL A B D) as (r & Hr & Ha). exact (Hi r Hr Ha).
  Qed.

  (** ** C115: the performance based method from the input of fit to values and charts *)
  Theorem C115_value c s a h X ys g e f1 f2 : sj_input s a h X ys g ->
    exists s' log, sj_fit xR Rg srt (scoring_metric c) e s a = (s', Ok tt, log)
      /\ (In f1 (included a) -> In f2 (included a) -> f1 <> f2 ->
          exists v, interaction_value (mv_compare (sj_compared xR srt s')) f1 f2 = Ok v /\ oh_pair Rg c h X ys (sa_repeat a) (included a) g f1 f2 v)
      /\ (~ (In f1 (included a) /\ In f2 (included a) /\ f1 <> f2) -> interaction_value (mv_compare (sj_compared xR srt s')) f1 f2 = Err IndexError).
  Proof.
    intros Hin. destruct (sj_fit_output c s a h X ys g e Hin) as (s' & t & fi & log & E & _). exists s', log. split; [exact E|].
    exact (seen_value _ _ _ f1 f2 (sj_seen c s a h X ys g e s' log Hin E)).
  Qed.

  Theorem C115_heatmap c s a h X ys g e title kw : sj_input s a h X ys g -> usable kw ->
    exists s' log t c1 c2 labels importance interaction, sj_fit xR Rg srt (scoring_metric c) e s a = (s', Ok tt, log)
      /\ sj_plot xR srt lower s' "heatmap" title kw = Ok (None, [PHeatmap t c1 c2 labels importance interaction])
      /\ Permutation labels (included a)
      /\ (forall i f, nth_error labels i = Some f -> entry interaction i i = Some None
            /\ exists v, entry importance i i = Some (Some v) /\ oh_importance Rg c h X ys (sa_repeat a) (included a) e f v)
      /\ (forall i j f1 f2, i <> j -> nth_error labels i = Some f1 -> nth_error labels j = Some f2 ->
            entry importance i j = Some None /\ exists v, entry interaction i j = Some (Some v) /\ oh_pair Rg c h X ys (sa_repeat a) (included a) g f1 f2 v).
  Proof.
    intros Hin Hu. destruct (sj_fit_output c s a h X ys g e Hin) as (s' & t & fi & log & E & HwX & [Et Efi HL Hv _ HP Himp]). exists s', log.
    destruct Hin as [Hf _ _ _ _ _ Hd Hcol H2].
    assert (Hnn : forall f v, In (f, v) fi -> n_isnan xR v = false) by (intros f w Hw; destruct (Himp f w Hw) as (k & p & _ & _ & ->); reflexivity).
    destruct (C56_sejong_partial xR Rg srt lower Hs xR_ord (scoring_metric c) e s a s' log t fi "heatmap" title kw E Hd H2 Et Efi (or_introl Hnn) Hu) as (f & Ef & _); [cbn; tauto|].
    pose proof Ef as Ef0. unfold sj_plot in Ef0. rewrite Et, Efi in Ef0.
    assert (Ef' : (do p <- plot_heatmap xR srt lower t (Some fi) title false false false (k_own kw); Ok (None, [p])) = Ok f) by (rewrite <- Ef0; reflexivity).
    destruct (plot_heatmap xR srt lower t (Some fi) title false false false (k_own kw)) as [p|] eqn:Ep; [|discriminate]. cbn [bind] in Ef'. injection Ef' as <-.
    assert (Hp : exists ti c1 c2 labels imp int, p = PHeatmap ti c1 c2 labels imp int).
    { clear -Ep. unfold plot_heatmap in Ep. destruct (all_pairs _ _ _) as [rows|]; [|discriminate]. cbn [bind] in Ep. destruct (order_heatmap _ _ _ _ _ _) as [[|x l]|]; try discriminate. cbn [bind] in Ep. injection Ep as <-. eauto 10. }
    destruct Hp as (ti & c1 & c2 & labels & imp & int & ->). exists ti, c1, c2, labels, imp, int. split; [exact E|]. split; [exact Ef|].
    assert (Hsym : forall f1 f2 x, oh_pair Rg c h X ys (sa_repeat a) (included a) g f1 f2 x -> oh_pair Rg c h X ys (sa_repeat a) (included a) g f2 f1 x) by (intros; apply oh_pair_sym; assumption).
    assert (Hg : good_pairs false t).
    { split; [intros x Hx; apply (lists_pairs_In _ t x Hd HL Hx)|]. intros x y r c0 Hx Hy Fx Fy.
      assert (A : forall z, In z t -> fills false r c0 z -> oh_pair Rg c h X ys (sa_repeat a) (included a) g r c0 (snd z)).
      { intros z Hz [[<- <-]|(_ & <- & <-)]; [exact (Hv z Hz)|apply Hsym, (Hv z Hz)]. }
      destruct HwX as (HwX & _). eapply oh_pair_unique; [exact HwX|exact Hd|exact (A x Hx Fx)|exact (A y Hy Fy)]. }
    destruct (C55_heatmap_partial xR srt lower Hs xR_ord t fi title false false false (k_own kw) ti c1 c2 labels imp int Ep Hg) as (Hnd & Hocc & Hall & Hdiag & Hoff).
    destruct (lists_pairs_first _ _ Hd H2 HL) as (x & y & v & _ & _ & x' & y' & l & Efs). pose proof (lists_pairs_occurs _ t x' y' l Efs HL) as Hoc.
    split; [|split].
    - apply NoDup_Permutation; [exact Hnd|exact Hd|]. intros f. rewrite <- Hoc. split; [apply Hocc|apply (Hall Hnn)].
    - intros i f Hi. destruct (Hdiag i f Hi) as (w & Hw & E1 & E2). split; [exact E2|]. exists w.
      assert (Hin : In (f, w) fi) by (apply has_importance_In; exact Hw). split; [rewrite E1; unfold show; rewrite (Hnn _ _ Hin); reflexivity|exact (Himp f w Hin)].
    - intros i j f1 f2 Hij Hi Hj. destruct (Hoff i j f1 f2 Hi Hj Hij) as (E1 & o & E2 & Hsh). split; [exact E1|].
      assert (Hf1 : In f1 (included a)) by (apply Hoc, Hocc, (nth_error_In _ _ Hi)). assert (Hf2 : In f2 (included a)) by (apply Hoc, Hocc, (nth_error_In _ _ Hj)).
      assert (Hne : f1 <> f2) by (intros ->; apply Hij; eapply nth_once; eassumption).
      destruct (lists_pairs_all _ t f1 f2 HL Hf1 Hf2 Hne) as (r & Hr & Ha). exists (snd r).
      assert (Hpv : oh_pair Rg c h X ys (sa_repeat a) (included a) g f1 f2 (snd r)) by (specialize (Hv r Hr); destruct Ha as [[<- <-]|[<- <-]]; [exact Hv|apply Hsym, Hv]).
      split; [|exact Hpv]. rewrite E2. f_equal. apply Hsh. split.
      + destruct Hpv as (i0 & a0 & b0 & p1 & p2 & _ & _ & _ & _ & ->). reflexivity.
      + exists r. split; [exact Hr|]. split; [|reflexivity]. destruct Ha as [[<- <-]|[<- <-]]; unfold fills; auto.
  Qed.

  Theorem C115_bars c s a h X ys g e title kw : sj_input s a h X ys g -> usable kw ->
    let n := match k_top (k_own kw) with Some n => n | None => 10 end in
    exists s' log bars rest, sj_fit xR Rg srt (scoring_metric c) e s a = (s', Ok tt, log)
      /\ sj_plot xR srt lower s' "bar_chart" title kw
         = Ok (None, [PBars (if String.eqb title "default" then "Pair interactions" else title) "Sejong Oh Performance Based Interaction Measure"
                        (map (fun r => (fst (fst r) ++ ":" ++ snd (fst r), snd r)%string) bars)])
      /\ lists_pairs (included a) (bars ++ rest) /\ length bars = Nat.min n (length (bars ++ rest))
      /\ (forall f1 f2 v, In (f1, f2, v) (bars ++ rest) -> oh_pair Rg c h X ys (sa_repeat a) (included a) g f1 f2 v)
      /\ StronglySorted (fun x y => n_ltb xR (snd x) (snd y) = false) (bars ++ rest).
  Proof.
    intros Hin Hu n. destruct (sj_fit_output c s a h X ys g e Hin) as (s' & t & fi & log & E & HwX & [Et Efi HL Hv Hsd HP Himp]). destruct Hin as [Hf _ _ _ _ _ Hd Hcol H2].
    assert (Hnn : forall f v, In (f, v) fi -> n_isnan xR v = false) by (intros f w Hw; destruct (Himp f w Hw) as (k & p & _ & _ & ->); reflexivity).
    destruct (C56_sejong_partial xR Rg srt lower Hs xR_ord (scoring_metric c) e s a s' log t fi "bar_chart" title kw E Hd H2 Et Efi (or_introl Hnn) Hu) as (f & Ef & _); [cbn; tauto|].
    pose proof Ef as Ef0. unfold sj_plot in Ef0. rewrite Et, Efi in Ef0.
    destruct (C73_pairs xR srt lower _ _ title kw f Ef0 Hsd) as (bars & rest & -> & Eb & Hlen & _ & _ & _). cbn [pd_ovo] in Eb, Hlen.
    exists s', log, bars, rest. split; [exact E|]. split; [exact Ef|]. rewrite <- Eb. split; [exact HL|]. split; [exact Hlen|].
    split; [intros f1 f2 v Hr; exact (Hv _ Hr)|]. eapply StronglySorted_impl; [|exact Hsd]. intros x y Hx Hy Hle. cbn [le_dir] in Hle. unfold le_desc in Hle.
    assert (Hvn : forall r, In r t -> n_isnan xR (snd r) = false) by (intros r Hr; destruct (Hv r Hr) as (i0 & a0 & b0 & p1 & p2 & _ & _ & _ & _ & ->); reflexivity).
    rewrite (Hvn _ Hx), (Hvn _ Hy) in Hle. apply negb_true_iff, Hle.
  Qed.

  (** ** C116: the comparison of any two model agnostic methods after fit *)
  Theorem C116_points v1 fs1 val1 v2 fs2 val2 df n box : agnostic v1 fs1 val1 -> agnostic v2 fs2 val2 -> incl fs1 fs2 ->
    exists p pairs, comparison_plot xR df v1 v2 n box = Ok p
      /\ lists_pairs fs1 pairs
      /\ Forall2 (fun r xy => fst xy = snd r /\ val1 (fst (fst r)) (snd (fst r)) (fst xy) /\ val2 (fst (fst r)) (snd (fst r)) (snd xy)) pairs (cp_points p)
      /\ StronglySorted (fun x y => n_ltb xR (snd x) (snd y) = false) pairs
      /\ cp_labels p = combine (map (fun r => fst (fst r) ++ "-" ++ snd (fst r))%string (firstn n pairs)) (firstn n (cp_points p))
      /\ cp_axes p = (mv_name v1, mv_name v2) /\ cp_invert_x p = false /\ cp_invert_y p = false.
  Proof.
    intros Hin1 Hin2 Hincl. apply agnostic_seen in Hin1 as [Hd1 H21 Hsym1 Hnan1 (T1 & C1 & HL1 & Hv1 & Hs1) As1]. apply agnostic_seen in Hin2 as [Hd2 H22 Hsym2 Hnan2 (T2 & C2 & HL2 & Hv2 & Hs2) As2].
    assert (N1 : T1 <> []) by (destruct (lists_pairs_first _ _ Hd1 H21 HL1) as (x & y & v & Hr & _); intros En; rewrite En in Hr; destruct Hr).
    assert (N2 : T2 <> []) by (destruct (lists_pairs_first _ _ Hd2 H22 HL2) as (x & y & v & Hr & _); intros En; rewrite En in Hr; destruct Hr).
    pose proof (C54_points xR df v1 v2 T1 T2 n C1 C2 N1 N2 box) as Hpts.
    destruct (comparison_plot xR df v1 v2 n box) as [p|e] eqn:Ep.
    2:{ exfalso. destruct Hpts as (_ & r & Hr & Hno). destruct (lists_pairs_In _ T1 r Hd1 HL1 Hr) as (Ha & Hb & Hab).
        destruct (lists_pairs_all _ T2 _ _ HL2 (Hincl _ Ha) (Hincl _ Hb) Hab) as (r2 & Hr2 & Hab2). exact (Hno r2 Hr2 Hab2). }
    destruct Hpts as (HF & Hl1 & Hl2 & Ix & Iy & Iax & _). exists p, T1. split; [reflexivity|]. split; [exact HL1|]. split; [|split; [exact Hs1|split; [|split; [exact Iax|split; [rewrite Ix|rewrite Iy]; assumption]]]].
    - clear -HF Hv1 Hv2 Hsym2. induction HF as [|r xy l1 l2 (Hx & _ & r2 & Hr2 & Ha & Hy) HF IH]; [constructor|]. constructor; [|apply IH; intros; apply Hv1; right; assumption].
      split; [exact Hx|]. rewrite Hx, <- Hy. split; [apply Hv1; left; reflexivity|]. specialize (Hv2 r2 Hr2).
      destruct Ha as [[Ea Eb]|[Ea Eb]]; rewrite Ea, Eb in Hv2; [exact Hv2|apply Hsym2, Hv2].
    - rewrite <- Hl1, <- Hl2. clear. induction (cp_labels p) as [|[x y] l IH]; [reflexivity|]. cbn [map combine fst snd]. rewrite <- IH. reflexivity.
  Qed.
  Theorem C116_missing v1 fs1 val1 v2 fs2 val2 df n box : agnostic v1 fs1 val1 -> agnostic v2 fs2 val2 -> ~ incl fs1 fs2 ->
    comparison_plot xR df v1 v2 n box = Err IndexError.
  Proof.
    intros Hin1 Hin2 Hincl. apply agnostic_seen in Hin1 as [Hd1 H21 _ _ (T1 & C1 & HL1 & _ & _) As1]. apply agnostic_seen in Hin2 as [Hd2 H22 _ _ (T2 & C2 & HL2 & _ & _) As2].
    assert (N1 : T1 <> []) by (destruct (lists_pairs_first _ _ Hd1 H21 HL1) as (x & y & v & Hr & _); intros En; rewrite En in Hr; destruct Hr).
    assert (N2 : T2 <> []) by (destruct (lists_pairs_first _ _ Hd2 H22 HL2) as (x & y & v & Hr & _); intros En; rewrite En in Hr; destruct Hr).
    pose proof (C54_points xR df v1 v2 T1 T2 n C1 C2 N1 N2 box) as Hpts.
    destruct (comparison_plot xR df v1 v2 n box) as [p|e] eqn:Ep; [|destruct Hpts as [-> _]; reflexivity].
    exfalso. apply Hincl. destruct Hpts as (HF & _). intros f Hf.
    destruct (lists_pairs_first _ _ Hd1 H21 HL1) as (_ & _ & _ & _ & _ & x' & y' & l & Efs). apply (lists_pairs_occurs _ T1 x' y' l Efs HL1) in Hf as (r & Hr & Hf).
    assert (Hr2 : exists r2, In r2 T2 /\ about (fst (fst r)) (snd (fst r)) r2).
    { clear -HF Hr. induction HF as [|r0 xy l1 l2 (_ & _ & r2 & Hr2 & Ha & _) HF IH]; [destruct Hr|]. destruct Hr as [->|Hr]; [eauto|exact (IH Hr)]. }
    destruct Hr2 as (r2 & Hr2 & Ha). destruct (lists_pairs_In _ T2 r2 Hd2 HL2 Hr2) as (Hb1 & Hb2 & _).
    destruct Ha as [[Ea Eb]|[Ea Eb]]; destruct Hf as [<-|<-]; congruence.
  Qed.
End EndToEnd.

(** ** Examples: the product of two columns, scored by the mean squared error *)
Definition times_r (r : list Z) : R := IZR (nth 0 r 0 * nth 1 r 0)%Z.
Definition oh_ys : list R := map IZR [0; 0; 3; 35; 40]%Z.
Definition oh_args : sargs Z (ext R) :=
  {| sa_model := {| md_id := 0; md_proba1 := None; md_predict := Some (fun _ rows => Ok (map (fun r => Fin (times_r r)) rows)) |};
     sa_X := ex_X; sa_y := fin_target false [] oh_ys; sa_n := None; sa_repeat := 2; sa_features := None |}.
Lemma oh_input : sj_input rotR (sj_init (r_seed rotR 1)) oh_args times_r ex_X oh_ys (r_seed rotR 1).
Proof.
  constructor; [exact ex_X_wf|exists false, []; reflexivity|reflexivity|discriminate| |cbn; lia| |intros f Hf; exact Hf|cbn; lia].
  - eexists. split; [reflexivity|]. split.
    + intros i rows l H. injection H as <-. reflexivity.
    + intros i rows. eexists. reflexivity.
  - apply ex_X_wf.
Qed.
Lemma oh_ex : oh_statistic rotR ByMSE times_r ex_X oh_ys 2 (r_seed rotR 1) 0 1 0 = (2639 / 5)%R.
Proof.
  unfold oh_statistic. cbn [seq map Nat.mul Nat.add].
  unfold shuffled_score, score_on, score_value.
  repeat match goal with |- context [rearranged ?a ?b ?c] => let x := eval vm_compute in (rearranged a b c) in change (rearranged a b c) with x end.
  cbn. unfold Rmse. cbn. unfold Rmean, Rsum, times_r. cbn. replace (1 + 1 + 1 + 1 + 1)%R with 5%R by lra.
  match goal with |- ((Rabs ?x + (Rabs ?y + 0)) / (1 + 1))%R = _ => replace x with (- (4806 / 5))%R by (unfold Rsqr; field); replace y with (472 / 5)%R by (unfold Rsqr; field) end.
  rewrite Rabs_Ropp, !Rabs_pos_eq by lra. field.
Qed.
Example C115_example : exists s' log, sj_fit xR rotR isort (scoring_metric ByMSE) 5 (sj_init (r_seed rotR 1)) oh_args = (s', Ok tt, log)
  /\ interaction_value (mv_compare (sj_compared xR isort s')) "b" "a" = Ok (Fin (2639 / 5)%R).
Proof.
  destruct (C115_value rotR rotR_ok isort isort_ok ByMSE _ oh_args times_r ex_X oh_ys _ 5 "b" "a" oh_input) as (s' & log & E & Hv & _).
  exists s', log. split; [exact E|]. destruct Hv as (v & -> & Hv); [cbn; tauto..|discriminate|]. f_equal. rewrite <- oh_ex.
  eapply oh_pair_unique; [apply ex_X_wf|apply ex_X_wf|exact Hv|]. exists 0, "a", "b", 0, 1. repeat split; try reflexivity. right. split; reflexivity.
Qed.
(** both kinds of methods meet the assumptions of the comparison; here H against the loss of performance, on different data *)
Example C116_example : exists v1 v2 fs1 fs2 val1 val2, agnostic Zcell rotR isort v1 fs1 val1 /\ agnostic Zcell rotR isort v2 fs2 val2 /\ incl fs1 fs2 /\ ~ incl fs2 fs1
  /\ mv_name v1 <> mv_name v2 /\ val1 "a" "b" (Fin (2639 / 5)%R) /\ val2 "a" "c" (Fin (1 / 28)%R).
Proof.
  destruct (C115_value rotR rotR_ok isort isort_ok ByMSE _ oh_args times_r ex_X oh_ys _ 5 "b" "a" oh_input) as (s' & log & E & _).
  destruct (C111_value Zcell Zcell_ok rotR rotR_ok isort isort_ok (Friedman true) init0 (rargs rh true) rh rX "c" "a" (ex_input _)) as (s2 & E2 & _).
  do 6 eexists. split; [exact (by_performance Zcell rotR isort ByMSE _ oh_args times_r ex_X oh_ys _ 5 s' log oh_input E)|].
  split; [exact (by_dependence Zcell rotR isort (Friedman true) init0 (rargs rh true) rh rX s2 (ex_input _) E2)|].
  split; [intros f [<-|[<-|[]]]; cbn; auto|]. split; [intros H; destruct (H "c") as [H0|[H0|[]]]; try discriminate H0; cbn; auto|]. split; [discriminate|]. split.
  - exists 0, "a", "b", 0, 1. split; [reflexivity|]. split; [auto|]. split; [reflexivity|]. split; [reflexivity|]. symmetry. f_equal. exact oh_ex.
  - exists 0, 2. split; [lia|]. split; [symmetry; apply ex_H|]. left. split; reflexivity.
Qed.

Print Assumptions C115_value.
Print Assumptions C115_heatmap.
Print Assumptions C115_bars.
Print Assumptions C116_points.
Print Assumptions C116_missing.
