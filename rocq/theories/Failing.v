(** Runs in which the model may raise: the request that fails is the last one, its exception is the outcome, and later
    runs go on from what was calculated before (facts for C143). *)
From Verif Require Import Py Num NumR Sorting Frame Rng PdCalc PdSpec PdFacts PdProofs PdTheorems PdErrors PdApi PdMethods MethodSpec PdMethodFacts PdMethodRun.
From Coq Require Import Lia.
Open Scope nat_scope.
Open Scope list_scope.

(** ** Specification *)

(** every request from number [n0] on is answered *)
Definition answered {C V} (P : nat -> list (list C) -> result (list V)) (n0 : nat) (log : list (list (list C))) : Prop :=
  forall n rows, n0 <= n -> nth_error log n = Some rows -> exists ys, P n rows = Ok ys.
(** the last request, and only that one, is answered with the exception [e] *)
Definition stopped {C V} (P : nat -> list (list C) -> result (list V)) (n0 : nat) (log : list (list (list C))) (e : exn) : Prop :=
  exists log' rows, log = log' ++ [rows] /\ n0 <= length log' /\ answered P n0 log' /\ P (length log') rows = Err e.
(** the exceptions of lookups, empty selections, samples that are too large, rejected calculators, and standard deviations *)
Definition library (e : exn) : Prop := e = KeyError \/ e = IndexError \/ e = ValueError \/ e = StatisticsError.

Definition raises {A} (E : exn -> Prop) (r : result A) : Prop := match r with Ok _ => True | Err e => E e end.
Lemma raises_bind {A B} (E : exn -> Prop) (r : result A) (f : A -> result B) : raises E r -> (forall a, raises E (f a)) -> raises E (bind r f).
Proof. destruct r; cbn; auto. Qed.
Lemma raises_mapM {A B} (E : exn -> Prop) (f : A -> result B) l : (forall x, raises E (f x)) -> raises E (mapM f l).
Proof. intros H. induction l as [|x l IH]; cbn [mapM]; [exact I|]. apply raises_bind; [apply H|]. intros y. apply raises_bind; [exact IH|]. intros ys. exact I. Qed.
Lemma raises_dict {K A} (eqb : K -> K -> bool) k (d : list (K * A)) : raises library (dict_get eqb k d).
Proof. unfold dict_get. destruct (assoc eqb k d); cbn; unfold library; auto. Qed.
Lemma raises_nth {A} i (l : list A) : raises library (get_nth i l).
Proof. unfold get_nth. destruct (nth_error l i); cbn; unfold library; auto. Qed.
Lemma raises_set {A} i (v : A) l : raises library (array_set i v l).
Proof. unfold array_set. destruct (i <? length l); cbn; unfold library; auto. Qed.
Lemma raises_index {C} (O : cell_ops C) a v : raises library (get_index O a v).
Proof. unfold get_index. generalize 0. induction a as [|x a IH]; intros i; cbn; [unfold library; auto|]. destruct (c_eqb O x v); [exact I|apply IH]. Qed.
Lemma raises_column {C} (X : frame C) f : raises library (column X f).
Proof. unfold column. destruct (col_pos (f_cols X) f); cbn; unfold library; auto. Qed.
Lemma raises_max {V} (N : num_ops V) l : raises library (np_max N l).
Proof. destruct l; cbn; unfold library; auto. Qed.
Lemma raises_min {V} (N : num_ops V) l : raises library (np_min N l).
Proof. destruct l; cbn; unfold library; auto. Qed.
Lemma raises_stdev {V} (N : num_ops V) l : raises library (stat_stdev N l).
Proof. unfold stat_stdev. destruct (_ <? 2); cbn; unfold library; auto. Qed.

Ltac lib := repeat first [exact I | apply raises_bind; [|intros] | apply raises_mapM; intros | apply raises_dict | apply raises_nth | apply raises_set | apply raises_index | apply raises_column
  | apply raises_max | apply raises_min | apply raises_stdev].

(** ** The batches *)
Section Engine.
  Context {K T C V : Type} (P : nat -> list (list C) -> result (list V)) (mean : list V -> V) (keqb : K -> K -> bool) (job : K -> list (list C)) (tset : K -> V -> T -> result T) (xlen : nat) (bs : Z)
          (Hset : forall k x t, raises library (tset k x t)) (n0 : nat).
  Definition going (s : est K T C) : Prop := n0 <= length (e_log s) /\ answered P n0 (e_log s).
  Definition after (sr : est K T C * result unit) : Prop :=
    match snd sr with Ok _ => going (fst sr) | Err e => (going (fst sr) /\ library e) \/ stopped P n0 (e_log (fst sr)) e end.
  Lemma answered_snoc log rows ys : answered P n0 log -> P (length log) rows = Ok ys -> answered P n0 (log ++ [rows]).
  Proof.
    intros H E n r Hn Hr. destruct (Nat.lt_ge_cases n (length log)) as [L|L]; [rewrite nth_error_app1 in Hr by exact L; exact (H n r Hn Hr)|].
    rewrite nth_error_app2 in Hr by exact L. destruct (n - length log) as [|j] eqn:Ej; [|destruct j; discriminate]. injection Hr as <-. assert (n = length log) as -> by lia. eauto.
  Qed.
  Lemma fill_ranges_raises y rs t : raises library (snd (fill_ranges mean tset y rs t)).
  Proof.
    revert t. induction rs as [|[k [a b]] rs IH]; intros t; cbn; [exact I|]. pose proof (Hset k (mean (slice a b y)) t) as Hk. destruct (tset _ _ _); [apply IH|exact Hk].
  Qed.
  Lemma fill_after s : going s -> after (fill P mean tset s).
  Proof.
    intros [H1 H2]. unfold fill. destruct (P (length (e_log s)) (b_rows (e_b s))) as [y|e] eqn:E.
    - pose proof (fill_ranges_raises y (b_ranges (e_b s)) (e_tab s)) as Hr. destruct (fill_ranges _ _ _ _ _) as [t r]. cbn [snd] in Hr.
      assert (Hg : going {| e_log := e_log s ++ [b_rows (e_b s)]; e_tab := t; e_b := b_empty |}) by (split; cbn; [rewrite app_length; cbn; lia|eapply answered_snoc; eassumption]).
      unfold after. cbn [fst snd]. destruct r as [u|e]; [exact Hg|left; split; [exact Hg|exact Hr]].
    - unfold after. cbn. right. exists (e_log s), (b_rows (e_b s)). auto.
  Qed.
  Lemma submit_after s ks : going s -> after (submit P mean keqb job tset xlen bs s ks).
  Proof. intros H. unfold submit. destruct (_ <? _)%Z; [apply fill_after; exact H|]. unfold after. cbn. exact H. Qed.
  Lemma finish_after s : going s -> after (finish P mean tset s).
  Proof. intros H. unfold finish. destruct (_ <? _); [apply fill_after; exact H|]. unfold after. cbn. exact H. Qed.
  Lemma loop_after {A} (body : est K T C -> A -> est K T C * result unit) l s : (forall s x, going s -> after (body s x)) -> going s -> after (loop body l s).
  Proof.
    intros Hb. revert s. induction l as [|x l IH]; intros s Hs; cbn [loop]; [exact Hs|]. pose proof (Hb s x Hs) as H. unfold after in H. destruct (body s x) as [s' [u|e]]; cbn [fst snd] in H; [apply IH, H|].
    unfold after. cbn. exact H.
  Qed.
  Lemma seq2_after sr k : after sr -> (forall s, going s -> after (k s)) -> after (seq2 sr k).
  Proof. intros H Hk. destruct sr as [s [u|e]]; unfold seq2; [apply Hk, H|exact H]. Qed.
End Engine.

(** ** The calculator *)
Section Calc.
  Context {C V : Type} (O : cell_ops C) (N : num_ops V).
  Notation calc := (calc C V).
  (** what happened to the requests of a call that started with the calculator [c] *)
  Definition kept (c c' : calc) : Prop := c_predict c' = c_predict c /\ c_X c' = c_X c /\ c_model c' = c_model c /\ c_batchsize c' = c_batchsize c.
  Definition continued (n0 : nat) (c : calc) : Prop := n0 <= length (c_log c) /\ answered (c_predict c) n0 (c_log c).
  Definition leads (n0 : nat) (c : calc) {A} (cr : calc * result A) : Prop :=
    kept c (fst cr) /\ match snd cr with Ok _ => continued n0 (fst cr) | Err e => (continued n0 (fst cr) /\ library e) \/ stopped (c_predict c) n0 (c_log (fst cr)) e end.

  Lemma set_single_raises k x t : raises library (set_single O k x t : result (list (string * (list C * list V)))).
  Proof. unfold set_single. lib. Qed.
  Lemma set_pairs_raises k x t : raises library (set_pairs O k x t : result (list ((string * string) * (list C * list C * list (list V))))).
  Proof. unfold set_pairs. destruct k as [[p v1] v2]. lib. Qed.
  Lemma set_minus_raises k x t : raises library (set_minus k x t : result (list (string * list V))).
  Proof. unfold set_minus. lib. Qed.

  Lemma calculate_pd_single_leads n0 c fs : continued n0 c -> leads n0 c (calculate_pd_single O N c fs).
  Proof.
    intros [Hn Ha]. unfold calculate_pd_single.
    assert (H : after (c_predict c) n0 (seq2 (loop (single_body O N c) (match fs with None => f_cols (c_X c) | Some l => l end) {| e_log := c_log c; e_tab := c_single c; e_b := b_empty |})
                        (finish (c_predict c) (np_mean N) (set_single O)))).
    { apply seq2_after; [|intros s Hs; apply finish_after; [apply set_single_raises|exact Hs]]. apply loop_after; [|split; assumption].
      intros s f Hs. unfold single_body. pose proof (raises_dict String.eqb f (e_tab s)) as Hd. destruct (dict_get String.eqb f (e_tab s)) as [e|e]; [|unfold after; cbn; left; split; [exact Hs|exact Hd]].
      destruct (has_nan N (snd e)); [apply submit_after; [apply set_single_raises|exact Hs]|unfold after; cbn; exact Hs]. }
    destruct (seq2 _ _) as [s r]. unfold after in H. cbn [fst snd] in H. split; [repeat split|]. cbn [fst snd c_log]. unfold continued. cbn [c_log c_predict]. exact H.
  Qed.
  Lemma calculate_pd_minus_leads n0 c fs : continued n0 c -> leads n0 c (calculate_pd_minus_single N c fs).
  Proof.
    intros [Hn Ha]. unfold calculate_pd_minus_single.
    assert (H : after (c_predict c) n0 (seq2 (loop (minus_body N c) (match fs with None => f_cols (c_X c) | Some l => l end) {| e_log := c_log c; e_tab := c_minus c; e_b := b_empty |})
                        (finish (c_predict c) (np_mean N) (@set_minus V)))).
    { apply seq2_after; [|intros s Hs; apply finish_after; [apply set_minus_raises|exact Hs]]. apply loop_after; [|split; assumption].
      intros s f Hs. unfold minus_body. pose proof (raises_dict String.eqb f (e_tab s)) as Hd. destruct (dict_get String.eqb f (e_tab s)) as [e|e]; [|unfold after; cbn; left; split; [exact Hs|exact Hd]].
      destruct (has_nan N e); [apply submit_after; [apply set_minus_raises|exact Hs]|unfold after; cbn; exact Hs]. }
    destruct (seq2 _ _) as [s r]. unfold after in H. cbn [fst snd] in H. split; [repeat split|]. cbn [fst snd c_log]. unfold continued. cbn [c_log c_predict]. exact H.
  Qed.
  Lemma calculate_pd_pairs_leads n0 c ps a : continued n0 c -> leads n0 c (calculate_pd_pairs O N c ps a).
  Proof.
    intros [Hn Ha]. unfold calculate_pd_pairs.
    assert (H : after (c_predict c) n0 (seq2 (loop (pairs_body O N c a) (match ps with None => map fst (c_pairs c) | Some l => l end) {| e_log := c_log c; e_tab := c_pairs c; e_b := b_empty |})
                        (finish (c_predict c) (np_mean N) (set_pairs O)))).
    { apply seq2_after; [|intros s Hs; apply finish_after; [apply set_pairs_raises|exact Hs]]. apply loop_after; [|split; assumption].
      intros s p Hs. unfold pairs_body. set (vals := if a then _ else _). assert (Hv : raises library vals) by (unfold vals; destruct a; lib). destruct vals as [vs|e]; [|unfold after; cbn; left; split; [exact Hs|exact Hv]].
      apply loop_after; [|exact Hs]. clear s Hs Hv. intros s v Hs. unfold pairs_cell_body. set (x := bind _ _). assert (Hx : raises library x) by (unfold x; lib).
      destruct x as [x|e]; [|unfold after; cbn; left; split; [exact Hs|exact Hx]]. destruct (n_isnan N x); [apply submit_after; [apply set_pairs_raises|exact Hs]|unfold after; cbn; exact Hs]. }
    destruct (seq2 _ _) as [s r]. unfold after in H. cbn [fst snd] in H. split; [repeat split|]. cbn [fst snd c_log]. unfold continued. cbn [c_log c_predict]. exact H.
  Qed.

  (** sequences of such calls *)
  Lemma kept_trans c c' c'' : kept c c' -> kept c' c'' -> kept c c''.
  Proof. unfold kept. intros (A1 & A2 & A3 & A4) (B1 & B2 & B3 & B4). repeat split; congruence. Qed.
  Lemma leads_value {A} n0 c c' (r : result A) : kept c c' -> continued n0 c' -> raises library r -> leads n0 c (c', r).
  Proof. intros Hk Hc Hr. split; [exact Hk|]. cbn. destruct r; [exact Hc|left; split; [exact Hc|exact Hr]]. Qed.
  Lemma leads_through {A} n0 c c1 (cr : calc * result A) : kept c c1 -> leads n0 c1 cr -> leads n0 c cr.
  Proof. intros Hk [H1 H2]. split; [exact (kept_trans _ _ _ Hk H1)|]. destruct Hk as (<- & _). exact H2. Qed.
End Calc.

(** ** The methods *)
Section Methods.
  Context {C V G : Type} (O : cell_ops C) (N : num_ops V) (Rg : rng_ops G) (srt : sorter).
  Notation calc := (calc C V).

  Lemma get_pd_single_raises (c : calc) f vals : raises library (get_pd_single O c f vals).
  Proof. unfold get_pd_single. destruct vals; lib. Qed.
  Lemma get_pd_pairs_raises (c : calc) f1 f2 vals : raises library (get_pd_pairs O c f1 f2 vals).
  Proof. unfold get_pd_pairs, mat_get. lib. Qed.
  Lemma get_pd_pairs_all_raises (c : calc) f1 f2 : raises library (get_pd_pairs_all c f1 f2).
  Proof. unfold get_pd_pairs_all. lib. Qed.
  Lemma get_pd_minus_raises (c : calc) f : raises library (get_pd_minus_single c f).
  Proof. unfold get_pd_minus_single. lib. Qed.
  Lemma calc_importance_raises l num : raises library (calc_importance N l num).
  Proof. unfold calc_importance. destruct num; lib. Qed.
  Lemma conditional_imp_raises num l : raises library (conditional_imp N num l).
  Proof. unfold conditional_imp. destruct num; lib. Qed.
  Lemma along_raises f l : (forall x, raises library (f x)) -> raises library (@along V f l).
  Proof. intros H. unfold along. destruct l as [|x l]; [cbn; unfold library; auto|]. apply raises_mapM, H. Qed.
  Lemma greenwell_value_raises n1 n2 k mat : raises library (greenwell_value N n1 n2 k mat).
  Proof. unfold greenwell_value. repeat first [apply conditional_imp_raises | apply along_raises; intros | lib]. Qed.

  Lemma friedman_ovo_leads norm X fs ps n0 c : continued n0 c -> leads n0 c (friedman_ovo O N srt norm X fs ps c).
  Proof.
    intros Hc. unfold friedman_ovo. pose proof (calculate_pd_pairs_leads O N n0 c (Some ps) false Hc) as [K1 H1]. destruct (calculate_pd_pairs O N c (Some ps) false) as [c1 [u|e]]; cbn [fst snd] in K1, H1; [|split; [exact K1|exact H1]].
    apply (leads_through n0 c c1); [exact K1|]. pose proof (calculate_pd_single_leads O N n0 c1 (Some fs) H1) as [K2 H2]. destruct (calculate_pd_single O N c1 (Some fs)) as [c2 [u2|e]]; cbn [fst snd] in K2, H2; [|split; [exact K2|exact H2]].
    apply leads_value; [exact K2|exact H2|]. repeat first [apply get_pd_single_raises | apply get_pd_pairs_raises | lib].
  Qed.
  Lemma greenwell_ovo_leads X fs ps n0 c : continued n0 c -> leads n0 c (greenwell_ovo O N srt X fs ps c).
  Proof.
    intros Hc. unfold greenwell_ovo. pose proof (calculate_pd_pairs_leads O N n0 c (Some ps) true Hc) as [K1 H1]. destruct (calculate_pd_pairs O N c (Some ps) true) as [c1 [u|e]]; cbn [fst snd] in K1, H1; [|split; [exact K1|exact H1]].
    apply leads_value; [exact K1|exact H1|]. cbv zeta. repeat first [apply get_pd_pairs_all_raises | apply greenwell_value_raises | lib]. all: apply along_raises; intros; apply conditional_imp_raises.
  Qed.
  Lemma ovo_leads k X fs ps n0 c : continued n0 c -> leads n0 c (ovo_of O N srt k X fs ps c).
  Proof. intros Hc. destruct k; cbn [ovo_of]; [apply friedman_ovo_leads|apply greenwell_ovo_leads]; exact Hc. Qed.
  Lemma pdp_importance_leads X fs n0 c : continued n0 c -> leads n0 c (pdp_importance O N srt X fs c).
  Proof.
    intros Hc. unfold pdp_importance. pose proof (calculate_pd_single_leads O N n0 c None Hc) as [K1 H1]. destruct (calculate_pd_single O N c None) as [c1 [u|e]]; cbn [fst snd] in K1, H1; [|split; [exact K1|exact H1]].
    apply leads_value; [exact K1|exact H1|]. repeat first [apply get_pd_single_raises | apply calc_importance_raises | lib].
  Qed.
  Lemma vsub_np_raises a b : raises library (vsub_np N a b).
  Proof. unfold vsub_np. destruct (_ =? _); [exact I|]. destruct a as [|x [|]]; destruct b as [|y [|]]; cbn; unfold library; auto. Qed.
  Lemma hstat_np_raises a b c norm : raises library (hstat_np N a b c norm).
  Proof. unfold hstat_np. apply raises_bind; [apply vsub_np_raises|intros]. apply raises_bind; [apply vsub_np_raises|intros; exact I]. Qed.
  (** the one-vs-all table asks the predict function once more *)
  Lemma friedman_ova_leads norm pf X fs n0 c : continued n0 c -> leads n0 c (friedman_ova O N srt norm pf X fs c)
    \/ exists c' e, friedman_ova O N srt norm pf X fs c = (c', Err e) /\ kept c c' /\ continued n0 c' /\ callable pf (length (c_log c')) (f_rows X) = Err e.
  Proof.
    intros Hc. unfold friedman_ova. pose proof (calculate_pd_minus_leads N n0 c (Some fs) Hc) as [K1 H1]. destruct (calculate_pd_minus_single N c (Some fs)) as [c1 [u|e]]; cbn [fst snd] in K1, H1; [|left; split; [exact K1|exact H1]].
    destruct (callable pf (length (c_log c1)) (f_rows X)) as [preds|e] eqn:E; cbn [bind]; [left|right; exists c1, e; auto].
    apply leads_value; [exact K1|exact H1|]. apply raises_bind; [|intros; exact I]. apply raises_mapM. intros f. apply raises_bind; [apply raises_column|intros x]. apply raises_bind; [apply get_pd_single_raises|intros u1]. apply raises_bind; [apply get_pd_minus_raises|intros u2]. apply raises_bind; [apply hstat_np_raises|intros; exact I].
  Qed.
  Lemma friedman_ova_asked norm pf X fs c c' t : friedman_ova O N srt norm pf X fs c = (c', Ok t) -> exists ys, callable pf (length (c_log c')) (f_rows X) = Ok ys.
  Proof.
    unfold friedman_ova. destruct (calculate_pd_minus_single N c (Some fs)) as [c1 [u|e]]; [|discriminate]. intros E. injection E as <- E. destruct (callable pf (length (c_log c1)) (f_rows X)) as [ys|]; [eauto|discriminate].
  Qed.
  Lemma sample_raises g (X : frame C) n : raises library (sample_if_not_none Rg g X n).
  Proof. unfold sample_if_not_none. destruct n as [k|]; [|exact I]. destruct (k <=? _); [destruct (r_sample _ _ _ _); exact I|cbn; unfold library; auto]. Qed.
  Lemma pick_raises md X pf bs given : raises library (pick_calc O N md X pf bs given).
  Proof. unfold pick_calc. destruct given as [c|]; [|exact I]. destruct (negb _); [cbn; unfold library; auto|]. destruct (negb _); [cbn; unfold library; auto|exact I]. Qed.
End Methods.
