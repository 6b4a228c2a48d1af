(** C144, continued: predictions beyond the number of rows. *)
From Verif Require Import Py Num NumR Sorting Frame Rng PdCalc PdMethods Props_Pd Props_Methods2.
From Coq Require Import QArith Permutation.
Open Scope string_scope.
Open Scope nat_scope.
Open Scope list_scope.

(** ** Vocabulary *)
(** two predict functions that agree on one prediction per row; what follows is arbitrary *)
Definition same_start {C V} (P Q : nat -> list (list C) -> result (list V)) : Prop := forall n rows,
  match P n rows, Q n rows with
  | Ok ys, Ok zs => firstn (length rows) ys = firstn (length rows) zs
  | Err e, Err e' => e = e'
  | _, _ => False
  end.
(** a call with another predict function *)
Definition with_function {C V} (Q : nat -> list (list C) -> result (list V)) (a : fargs C V) : fargs C V :=
  {| a_model := a_model a; a_X := a_X a; a_n := a_n a; a_predict := Some Q; a_features := a_features a; a_batch := a_batch a; a_calc := a_calc a; a_ova := a_ova a |}.

(** ** The batching skeleton *)
Lemma slice_start {A} a b n (y z : list A) : b <= n -> firstn n y = firstn n z -> slice a b y = slice a b z.
Proof.
  intros Hb E. unfold slice. assert (G : forall l : list A, firstn (b - a) (skipn a l) = firstn (b - a) (skipn a (firstn n l))).
  { intros l. rewrite skipn_firstn_comm, firstn_firstn, Nat.min_l by lia. reflexivity. }
  rewrite (G y), (G z), E. reflexivity.
Qed.

Section Engine.
  Context {K T C V : Type} (P Q : nat -> list (list C) -> result (list V)) (HPQ : same_start P Q).
  Context (mean : list V -> V) (keqb : K -> K -> bool) (job : K -> list (list C)) (tset : K -> V -> T -> result T) (xlen : nat) (bs : Z).
  Definition in_bounds (b : batch K C) : Prop := b_len b = length (b_rows b) /\ forall k a e, In (k, (a, e)) (b_ranges b) -> e <= b_len b.
  Definition Sound (s : est K T C) : Prop := in_bounds (e_b s).

  Lemma fill_ranges_start n y z rs t : firstn n y = firstn n z -> (forall k a e, In (k, (a, e)) rs -> e <= n) -> fill_ranges mean tset y rs t = fill_ranges mean tset z rs t.
  Proof.
    intros E. revert t. induction rs as [|[k [a e]] rs IH]; intros t H; [reflexivity|]. cbn. rewrite (slice_start a e n y z (H k a e (or_introl eq_refl)) E).
    destruct (tset _ _ _); [|reflexivity]. apply IH. intros k' a' e' H'. apply (H k' a' e'). right. exact H'.
  Qed.
  Lemma fill_start s : Sound s -> fill P mean tset s = fill Q mean tset s /\ Sound (fst (fill Q mean tset s)).
  Proof.
    intros [Hl Hr]. unfold fill. pose proof (HPQ (length (e_log s)) (b_rows (e_b s))) as H. destruct (P _ _) as [y|e], (Q _ _) as [z|e']; try contradiction.
    - rewrite (fill_ranges_start _ y z _ (e_tab s) H) by (rewrite <- Hl; exact Hr). split; [reflexivity|]. destruct (fill_ranges _ _ z _ _). cbn. split; [reflexivity|intros k a e []].
    - subst e'. split; [reflexivity|]. split; assumption.
  Qed.
  Lemma dict_set_range k r (d : list (K * (nat * nat))) k' r' : In (k', r') (dict_set keqb k r d) -> In (k', r') d \/ r' = r.
  Proof.
    induction d as [|[k0 r0] d IH]; cbn; [intros [E|[]]; right; congruence|]. destruct (keqb k k0); cbn.
    - intros [E|H]; [right; congruence|left; right; exact H].
    - intros [E|H]; [left; left; exact E|]. destruct (IH H); [left; right; assumption|right; assumption].
  Qed.
  Lemma pushes_bounds ks b : in_bounds b -> (forall k, In k ks -> length (job k) = xlen) -> in_bounds (fold_left (push keqb job xlen) ks b).
  Proof.
    revert b. induction ks as [|k ks IH]; intros b Hb Hk; [exact Hb|]. apply IH; [|intros; apply Hk; right; assumption]. destruct Hb as [Hl Hr]. split; cbn.
    - rewrite app_length, (Hk k (or_introl eq_refl)), Hl. reflexivity.
    - intros k' a e H. apply dict_set_range in H as [H|H]; [specialize (Hr _ _ _ H); lia|]. injection H as _ ->. lia.
  Qed.
  Lemma submit_start s ks : Sound s -> (forall k, In k ks -> length (job k) = xlen) ->
    submit P mean keqb job tset xlen bs s ks = submit Q mean keqb job tset xlen bs s ks /\ Sound (fst (submit Q mean keqb job tset xlen bs s ks)).
  Proof.
    intros Hs Hk. unfold submit. pose proof (pushes_bounds ks _ Hs Hk) as Hb. destruct (_ <? _)%Z; [apply fill_start; exact Hb|]. split; [reflexivity|exact Hb].
  Qed.
  Lemma finish_start s : Sound s -> finish P mean tset s = finish Q mean tset s.
  Proof. intros Hs. unfold finish. destruct (_ <? _); [apply fill_start, Hs|reflexivity]. Qed.
  Lemma loop_start {A} (f g : est K T C -> A -> est K T C * result unit) l : (forall s x, Sound s -> f s x = g s x /\ Sound (fst (g s x))) ->
    forall s, Sound s -> loop f l s = loop g l s /\ Sound (fst (loop g l s)).
  Proof.
    intros H. induction l as [|x l IH]; intros s Hs; [split; [reflexivity|exact Hs]|]. cbn. destruct (H s x Hs) as [-> Hx]. destruct (g s x) as [s' [u|e]]; cbn in Hx; [apply IH, Hx|].
    split; [reflexivity|exact Hx].
  Qed.
End Engine.

(** ** The calculator *)
Section Calculator.
  Context {C V : Type} (O : cell_ops C) (N : num_ops V).
  Context (Q : nat -> list (list C) -> result (list V)).
  (** the calculator with another predict function *)
  Definition asking (c : calc C V) : calc C V :=
    {| c_model := c_model c; c_predict := Q; c_X := c_X c; c_batchsize := c_batchsize c; c_single := c_single c; c_pairs := c_pairs c; c_minus := c_minus c; c_log := c_log c |}.
  Definition moved {A} (r : calc C V * A) : calc C V * A := (asking (fst r), snd r).
  Lemma assign_rows_length (X : frame C) l : length (assign_rows X l) = length (f_rows X).
  Proof. unfold assign_rows. apply map_length. Qed.
  Lemma job_minus_length (X : frame C) f i : i < length (f_rows X) -> length (job_minus X (f, i)) = length (f_rows X).
  Proof. intros H. unfold job_minus. cbn [snd]. destruct (nth_error (f_rows X) i) eqn:E; [apply assign_rows_length|]. apply nth_error_None in E. lia. Qed.

  Lemma single_start c fs : same_start (c_predict c) Q -> calculate_pd_single O N (asking c) fs = moved (calculate_pd_single O N c fs).
  Proof.
    intros H. unfold calculate_pd_single. cbn [c_X c_log c_single asking c_predict]. set (l := match fs with None => _ | Some l => l end). set (s0 := {| e_log := c_log c; e_tab := c_single c; e_b := b_empty |}).
    assert (B : forall s x, Sound s -> single_body O N c s x = single_body O N (asking c) s x /\ Sound (fst (single_body O N (asking c) s x))).
    { intros s f Hs. unfold single_body. destruct (dict_get _ _ _) as [e|]; [|split; [reflexivity|exact Hs]]. destruct (has_nan _ _); [|split; [reflexivity|exact Hs]].
      apply submit_start; [exact H|exact Hs|]. intros k Hk. apply in_map_iff in Hk as (v & <- & _). apply assign_rows_length. }
    destruct (loop_start (single_body O N c) (single_body O N (asking c)) l B s0) as [E Hs]; [split; [reflexivity|intros k a e []]|]. rewrite E.
    destruct (loop (single_body O N (asking c)) l s0) as [s [u|e]]; cbn [seq2 fst snd] in *; [|reflexivity]. rewrite (finish_start _ _ H _ _ s Hs). destruct (finish _ _ _ s) as [s' r]. reflexivity.
  Qed.
  Lemma minus_start c fs : same_start (c_predict c) Q -> calculate_pd_minus_single N (asking c) fs = moved (calculate_pd_minus_single N c fs).
  Proof.
    intros H. unfold calculate_pd_minus_single. cbn [c_X c_log c_minus asking c_predict]. set (l := match fs with None => _ | Some l => l end). set (s0 := {| e_log := c_log c; e_tab := c_minus c; e_b := b_empty |}).
    assert (B : forall s x, Sound s -> minus_body N c s x = minus_body N (asking c) s x /\ Sound (fst (minus_body N (asking c) s x))).
    { intros s f Hs. unfold minus_body. destruct (dict_get _ _ _) as [e|]; [|split; [reflexivity|exact Hs]]. destruct (has_nan _ _); [|split; [reflexivity|exact Hs]].
      apply submit_start; [exact H|exact Hs|]. intros k Hk. apply in_map_iff in Hk as (i & <- & Hi). apply in_seq in Hi. apply job_minus_length. exact (proj2 Hi). }
    destruct (loop_start (minus_body N c) (minus_body N (asking c)) l B s0) as [E Hs]; [split; [reflexivity|intros k a e []]|]. rewrite E.
    destruct (loop (minus_body N (asking c)) l s0) as [s [u|e]]; cbn [seq2 fst snd] in *; [|reflexivity]. rewrite (finish_start _ _ H _ _ s Hs). destruct (finish _ _ _ s) as [s' r]. reflexivity.
  Qed.
  Lemma pairs_start c ps all : same_start (c_predict c) Q -> calculate_pd_pairs O N (asking c) ps all = moved (calculate_pd_pairs O N c ps all).
  Proof.
    intros H. unfold calculate_pd_pairs. cbn [c_X c_log c_pairs asking c_predict]. set (l := match ps with None => _ | Some l => l end). set (s0 := {| e_log := c_log c; e_tab := c_pairs c; e_b := b_empty |}).
    assert (B0 : forall p s x, Sound s -> pairs_cell_body O N c p s x = pairs_cell_body O N (asking c) p s x /\ Sound (fst (pairs_cell_body O N (asking c) p s x))).
    { intros p s v Hs. unfold pairs_cell_body. destruct (do e <- _; _) as [e|]; [|split; [reflexivity|exact Hs]]. destruct (n_isnan _ _); [|split; [reflexivity|exact Hs]].
      apply submit_start; [exact H|exact Hs|]. intros k [<-|[]]. apply assign_rows_length. }
    assert (B : forall s x, Sound s -> pairs_body O N c all s x = pairs_body O N (asking c) all s x /\ Sound (fst (pairs_body O N (asking c) all s x))).
    { intros s pr Hs. unfold pairs_body. change (get_pair_key (asking c) pr) with (get_pair_key c pr). change (c_X (asking c)) with (c_X c). destruct (if all then _ else _) as [vals|]; [|split; [reflexivity|exact Hs]].
      apply loop_start; [apply B0|exact Hs]. }
    destruct (loop_start (pairs_body O N c all) (pairs_body O N (asking c) all) l B s0) as [E Hs]; [split; [reflexivity|intros k a e []]|]. rewrite E.
    destruct (loop (pairs_body O N (asking c) all) l s0) as [s [u|e]]; cbn [seq2 fst snd] in *; [|reflexivity]. rewrite (finish_start _ _ H _ _ s Hs). destruct (finish _ _ _ s) as [s' r]. reflexivity.
  Qed.
End Calculator.

(** ** The methods *)
Section Methods.
  Context {C V G : Type} (O : cell_ops C) (N : num_ops V) (R : rng_ops G) (srt : sorter).
  Context (P Q : nat -> list (list C) -> result (list V)) (HPQ : same_start P Q).
  Notation fit := (fit O N R srt).

  Lemma moved_predict (c : calc C V) : c_predict c = P -> same_start (c_predict c) Q.
  Proof. intros ->. exact HPQ. Qed.
  Lemma single_predict c fs : c_predict (fst (calculate_pd_single O N c fs)) = c_predict c.
  Proof. unfold calculate_pd_single. destruct (seq2 _ _). reflexivity. Qed.
  Lemma pairs_predict c ps all : c_predict (fst (calculate_pd_pairs O N c ps all)) = c_predict c.
  Proof. unfold calculate_pd_pairs. destruct (seq2 _ _). reflexivity. Qed.

  Lemma friedman_ovo_start norm X fs ps c : c_predict c = P ->
    friedman_ovo O N srt norm X fs ps (asking Q c) = moved Q (friedman_ovo O N srt norm X fs ps c) /\ c_predict (fst (friedman_ovo O N srt norm X fs ps c)) = P.
  Proof.
    intros Hc. unfold friedman_ovo. rewrite pairs_start by (apply moved_predict, Hc). pose proof (pairs_predict c (Some ps) false) as E1. rewrite Hc in E1.
    destruct (calculate_pd_pairs O N c (Some ps) false) as [c1 [u|e]]; cbn [moved fst snd] in *; [|split; [reflexivity|exact E1]].
    rewrite single_start by (apply moved_predict, E1). pose proof (single_predict c1 (Some fs)) as E2. rewrite E1 in E2.
    destruct (calculate_pd_single O N c1 (Some fs)) as [c2 [u2|e]]; cbn [moved fst snd] in *; (split; [reflexivity|exact E2]).
  Qed.
  Lemma greenwell_ovo_start X fs ps c : c_predict c = P ->
    greenwell_ovo O N srt X fs ps (asking Q c) = moved Q (greenwell_ovo O N srt X fs ps c) /\ c_predict (fst (greenwell_ovo O N srt X fs ps c)) = P.
  Proof.
    intros Hc. unfold greenwell_ovo. rewrite pairs_start by (apply moved_predict, Hc). pose proof (pairs_predict c (Some ps) true) as E1. rewrite Hc in E1.
    destruct (calculate_pd_pairs O N c (Some ps) true) as [c1 [u|e]]; cbn [moved fst snd] in *; (split; [reflexivity|exact E1]).
  Qed.
  Lemma pdp_importance_start X fs c : c_predict c = P -> pdp_importance O N srt X fs (asking Q c) = moved Q (pdp_importance O N srt X fs c).
  Proof.
    intros Hc. unfold pdp_importance. rewrite single_start by (apply moved_predict, Hc). destruct (calculate_pd_single O N c None) as [c1 [u|e]]; reflexivity.
  Qed.

  (** what a caller sees of a method: tables, data, position of the random generator, requests of its calculator *)
  Definition seen (s : mstate C V G) := (m_ovo s, m_fi s, m_ova s, m_X s, m_rng s, option_map c_log (m_calc s)).

  Lemma ovo_start k X fs ps c : c_predict c = P ->
    ovo_of O N srt k X fs ps (asking Q c) = moved Q (ovo_of O N srt k X fs ps c) /\ c_predict (fst (ovo_of O N srt k X fs ps c)) = P.
  Proof. destruct k; [apply friedman_ovo_start|apply greenwell_ovo_start]. Qed.
  Lemma importance_start g md X fs b c : c_predict c = P ->
    pd_importance O N R srt g md X None None fs b (Some (asking Q c)) = let r := pd_importance O N R srt g md X None None fs b (Some c) in (option_map (asking Q) (fst r), snd r).
  Proof.
    intros Hc. unfold pd_importance, pick_calc. destruct (sample_if_not_none R g X None) as [[Xs g']|e]; [|reflexivity]. change (c_model (asking Q c)) with (c_model c). change (c_X (asking Q c)) with (c_X c).
    destruct (negb _); [reflexivity|]. destruct (negb _); [reflexivity|]. rewrite pdp_importance_start by exact Hc. destruct (pdp_importance O N srt Xs _ c) as [c' r]. reflexivity.
  Qed.
  Lemma asking_log (o : option (calc C V)) : option_map c_log (option_map (asking Q) o) = option_map c_log o.
  Proof. destruct o; reflexivity. Qed.

  (** Predictions beyond the number of rows are ignored: two predict functions that agree on one prediction per row give
      the same outcome, the same tables and the same requests.  The one-versus-all table is not part of it: it notices
      surplus predictions (C144_one_versus_all_partial). *)
  Theorem C144_surplus k s a : get_predict_function (a_model a) (a_predict a) = Some P -> a_calc a = None -> (k = Greenwell \/ a_ova a = false) ->
    snd (fit k s a) = snd (fit k s (with_function Q a)) /\ seen (fst (fit k s a)) = seen (fst (fit k s (with_function Q a))).
  Proof.
    intros Hp Ha Hk.
    assert (B : snd (fit_base O N R srt k s a) = snd (fit_base O N R srt k s (with_function Q a)) /\ seen (fst (fit_base O N R srt k s a)) = seen (fst (fit_base O N R srt k s (with_function Q a)))).
    { unfold fit_base. rewrite Hp. cbn [with_function a_model a_X a_n a_predict a_features a_batch a_calc a_ova get_predict_function]. rewrite Ha.
      destruct (sample_if_not_none R (m_rng s) (a_X a) (a_n a)) as [[Xs rng']|e]; [|split; reflexivity]. cbn [pick_calc callable].
      set (fs := match a_features a with None => _ | Some l => l end). set (c := calc_init O N (md_id (a_model a)) Xs P (a_batch a)).
      change (calc_init O N (md_id (a_model a)) Xs Q (a_batch a)) with (asking Q c). destruct (ovo_start k Xs fs (combinations2 fs) c eq_refl) as [E Ec]. rewrite E.
      destruct (ovo_of O N srt k Xs fs (combinations2 fs) c) as [c1 [t|e]]; cbn [moved fst snd] in *; [|split; reflexivity].
      rewrite importance_start by exact Ec. cbv zeta. destruct (pd_importance O N R srt rng' (a_model a) Xs None None (Some fs) 2000 (Some c1)) as [c2 [fi|e]]; cbn [fst snd]; (split; [reflexivity|]); unfold seen; cbn; rewrite asking_log; reflexivity. }
    unfold PdMethods.fit. destruct (fit_base O N R srt k s a) as [s1 r1], (fit_base O N R srt k s (with_function Q a)) as [s2 r2]. cbn [fst snd] in B. destruct B as [-> B].
    destruct r2 as [u|e]; [|split; [reflexivity|exact B]]. destruct k as [norm|]; [|split; [reflexivity|exact B]].
    destruct Hk as [Hk|Hk]; [discriminate|]. cbn [with_function a_ova]. rewrite Hk. split; [reflexivity|exact B].
  Qed.
  (** the same for the importance called on its own *)
  Theorem C144_surplus_importance g md X n fs b :
    snd (pd_importance O N R srt g md X n (Some P) fs b None) = snd (pd_importance O N R srt g md X n (Some Q) fs b None).
  Proof.
    unfold pd_importance. destruct (sample_if_not_none R g X n) as [[Xs g']|e]; [|reflexivity]. cbn [pick_calc get_predict_function callable].
    change (calc_init O N (md_id md) Xs Q b) with (asking Q (calc_init O N (md_id md) Xs P b)). rewrite pdp_importance_start by reflexivity. destruct (pdp_importance O N srt Xs _ _) as [c' r]. reflexivity.
  Qed.
End Methods.

(** a model that computes one value per row and returns some more *)
Corollary C144_padded {C V G} (O : cell_ops C) (N : num_ops V) (R : rng_ops G) srt (g : list C -> V) (more : nat -> list (list C) -> list V) k s a :
  get_predict_function (a_model a) (a_predict a) = Some (fun n rows => Ok (map g rows ++ more n rows)) -> a_calc a = None -> (k = Greenwell \/ a_ova a = false) ->
  let r1 := fit O N R srt k s a in let r2 := fit O N R srt k s (with_function (fun _ rows => Ok (map g rows)) a) in
  snd r1 = snd r2 /\ m_ovo (fst r1) = m_ovo (fst r2) /\ m_fi (fst r1) = m_fi (fst r2).
Proof.
  intros Hp Ha Hk. cbv zeta. destruct (C144_surplus O N R srt (fun n rows => Ok (map g rows ++ more n rows)) (fun _ rows => Ok (map g rows))) with (k := k) (s := s) (a := a) as [E1 E2]; auto.
  - intros n rows. cbn. rewrite <- (map_length g rows), firstn_app, Nat.sub_diag, firstn_O, app_nil_r. reflexivity.
  - split; [exact E1|]. unfold seen in E2. split; congruence.
Qed.

(** ** A case meeting the hypotheses: a model that repeats its answers *)
Definition exTwice : nat -> list (list Z) -> result (list (ext Q)) := fun _ rows => Ok (map exg rows ++ map exg rows).
Example C144_surplus_example : same_start exTwice exP /\ (exists ys, exTwice 0 (f_rows exX) = Ok ys /\ length ys = 2 * length (f_rows exX))
  /\ snd (fitQ (Friedman true) init0 (mkargs exTwice exX None false None)) = Ok tt
  /\ m_ovo (fst (fitQ (Friedman true) init0 (mkargs exTwice exX None false None))) = m_ovo (fst (fitQ (Friedman true) init0 (mkargs exP exX None false None)))
  /\ snd (fitQ (Friedman true) init0 (mkargs exTwice exX None true None)) = Err ValueError.
Proof.
  split.
  - intros n rows. unfold exTwice, exP. rewrite <- (map_length exg rows) at 1. rewrite firstn_app, Nat.sub_diag, firstn_O, app_nil_r, map_length. reflexivity.
  - split; [eexists; split; [reflexivity|]; vm_compute; reflexivity|]. split; [vm_compute; reflexivity|]. split; vm_compute; reflexivity.
Qed.

Print Assumptions C144_surplus.
Print Assumptions C144_surplus_importance.
Print Assumptions C144_padded.
