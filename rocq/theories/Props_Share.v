(** C97: several methods using one calculator object; C98: data changed in place. *)
From Verif Require Import Py Num NumR Sorting Frame Rng PdCalc EngineFacts PdSpec PdFacts PdProofs PdTheorems PdErrors PdApi PdMethods MethodSpec
  PdMethodFacts PdMethodRun Props_Pd Props_Methods Props_Methods2 Zenplot ZenFacts Props_Zen Props_Zen2.
From Coq Require Import QArith.
Open Scope string_scope.
Open Scope nat_scope.
Open Scope list_scope.
Notation assoc := Py.assoc.

(** ** Specification *)

(** the method [s] when the calculator it refers to has been changed by somebody else *)
Definition with_calc {C V G} (s : mstate C V G) (c : calc C V) : mstate C V G :=
  {| m_rng := m_rng s; m_predict := m_predict s; m_model := m_model s; m_X := m_X s; m_features := m_features s; m_pairs := m_pairs s;
     m_calc := Some c; m_ovo := m_ovo s; m_fi := m_fi s; m_fi_obj := m_fi_obj s; m_ova := m_ova s |}.

(** the same picture, except that undefined cells may have been filled in *)
Definition same_or_filled {C V} (N : num_ops V) (r r' : result (profile (C := C) (V := V))) : Prop :=
  match r, r' with
  | Err e, Err e' => e = e'
  | Ok (PLine l xs ys), Ok p => p = PLine l xs ys
  | Ok (PMesh xl yl xs ys M), Ok (PMesh xl' yl' xs' ys' M') =>
      xl' = xl /\ yl' = yl /\ xs' = xs /\ ys' = ys /\ Forall2 (Forall2 (fun v v' => v' = v \/ n_isnan N v = true)) M M'
  | _, _ => False
  end.

Section Share.
  Context {C V G : Type} (O : cell_ops C) (N : num_ops V) (HO : cell_ok O) (HN : num_ord_ok N) (R : rng_ops G) (HR : rng_ok R) (srt : sorter).
  Notation fit := (PdMethods.fit O N R srt).
  Notation Hnan := (no_isnan_nan N HN).
  Notation calc := (calc C V).

  (** [c'] is the object [c] after some further calls *)
  Definition later (c c' : calc) : Prop := exists ops, c' = run O N c ops.
  Lemma later_refl c : later c c. Proof. exists []. reflexivity. Qed.
  Lemma later_trans c1 c2 c3 : later c1 c2 -> later c2 c3 -> later c1 c3.
  Proof. intros [o1 ->] [o2 ->]. exists (o1 ++ o2). unfold run. rewrite fold_left_app. reflexivity. Qed.
  Lemma later_step c o : later c (fst (step O N c o)).
  Proof. exists [o]. reflexivity. Qed.
  Lemma later_single c fs : later c (fst (calculate_pd_single O N c fs)). Proof. apply (later_step c (OpSingle fs)). Qed.
  Lemma later_pairs c ps a : later c (fst (calculate_pd_pairs O N c ps a)). Proof. apply (later_step c (OpPairs ps a)). Qed.
  Lemma later_minus c fs : later c (fst (calculate_pd_minus_single N c fs)). Proof. apply (later_step c (OpMinus fs)). Qed.

  Lemma later_ovo k X fs ps c c' r : ovo_of O N srt k X fs ps c = (c', r) -> later c c'.
  Proof.
    destruct k as [norm|]; cbn [ovo_of]; unfold friedman_ovo, greenwell_ovo; intros H.
    - pose proof (later_pairs c (Some ps) false) as H1. destruct (calculate_pd_pairs _ _ _ _ _) as [c1 [u|e]]; [|injection H as <- <-; exact H1]. cbn [fst] in H1.
      pose proof (later_single c1 (Some fs)) as H2. destruct (calculate_pd_single _ _ _ _) as [c2 [u2|e]]; injection H as <- <-; eapply later_trans; eassumption.
    - pose proof (later_pairs c (Some ps) true) as H1. destruct (calculate_pd_pairs _ _ _ _ _) as [c1 [u|e]]; injection H as <- <-; exact H1.
  Qed.
  Lemma later_importance X fs c c' r : pdp_importance O N srt X fs c = (c', r) -> later c c'.
  Proof. unfold pdp_importance. intros H. pose proof (later_single c None) as H1. destruct (calculate_pd_single _ _ _ _) as [c1 [u|e]]; injection H as <- <-; exact H1. Qed.
  Lemma later_ova norm pf X fs c c' r : friedman_ova O N srt norm pf X fs c = (c', r) -> later c c'.
  Proof. unfold friedman_ova. intros H. pose proof (later_minus c (Some fs)) as H1. destruct (calculate_pd_minus_single _ _ _) as [c1 [u|e]]; injection H as <- <-; exact H1. Qed.

  Lemma pick_given md X pf b c c' : pick_calc O N md X pf b (Some c) = Ok c' -> c' = c.
  Proof. unfold pick_calc. destruct (negb _); [discriminate|]. destruct (negb _); [discriminate|]. congruence. Qed.

  (** whatever the outcome of the fit *)
  Lemma fit_later k s a s' r c c2 : a_calc a = Some c -> m_calc s = None -> fit k s a = (s', r) -> m_calc s' = Some c2 -> later c c2.
  Proof.
    intros Ha Hn H Hc. unfold fit, fit_base in H. destruct (sample_if_not_none _ _ _ _) as [[Xs rng']|e]; [|injection H as <- <-; cbn in Hc; congruence].
    destruct (pick_calc O N _ Xs _ _ _) as [c0|e] eqn:Ep; [|injection H as <- <-; cbn in Hc; congruence]. rewrite Ha in Ep. apply pick_given in Ep. subst c0.
    destruct (ovo_of _ _ _ _ _ _ _ c) as [c1 r1] eqn:Eo. pose proof (later_ovo _ _ _ _ _ _ _ Eo) as L1.
    destruct r1 as [t|e]; [|injection H as <- <-; cbn in Hc; injection Hc as <-; exact L1].
    unfold pd_importance in H. cbn [sample_if_not_none] in H. destruct (pick_calc O N _ Xs _ 2000 (Some c1)) as [c1'|e] eqn:Ep; [|injection H as <- <-; cbn in Hc; injection Hc as <-; exact L1].
    apply pick_given in Ep. subst c1'. destruct (pdp_importance _ _ _ _ _ c1) as [c3 r3] eqn:Ei. pose proof (later_trans _ _ _ L1 (later_importance _ _ _ _ _ Ei)) as L3.
    destruct r3 as [fi|e]; [|injection H as <- <-; cbn in Hc; injection Hc as <-; exact L3].
    cbn [m_calc m_X m_features m_predict m_rng m_ova m_ovo m_fi] in H. destruct k as [norm|]; [|injection H as <- <-; cbn in Hc; injection Hc as <-; exact L3].
    destruct (a_ova a); [|injection H as <- <-; cbn in Hc; injection Hc as <-; exact L3].
    destruct (friedman_ova _ _ _ _ _ _ _ c3) as [c4 r4] eqn:Ev. pose proof (later_trans _ _ _ L3 (later_ova _ _ _ _ _ _ _ Ev)) as L4.
    destruct r4; injection H as <- <-; cbn in Hc; injection Hc as <-; exact L4.
  Qed.

  (** a table without wrong cells keeps all of them *)
  Definition exact (g : list C -> V) (X : frame C) (t : list (string * (list C * list V))) : Prop :=
    Coh (fun _ => false) (sget O) (sspec N X g) t.

  Lemma single_exact_kept m X P b c g fs : wf_frame X -> rowwise P g -> reachable O N m X P b c -> exact g X (c_single c) ->
    exact g X (c_single (fst (calculate_pd_single O N c fs))).
  Proof.
    intros HX Hg Hr He. destruct (reachable_shaped O N HO m X P b c HX Hr) as ((Hs & _) & EX & EP & _). unfold calculate_pd_single.
    set (fs' := match fs with None => f_cols (c_X c) | Some l => l end).
    assert (Hg' : rowwise (c_predict c) g) by (rewrite EP; exact Hg). assert (He' : exact g (c_X c) (c_single c)) by (rewrite EX; exact He). rewrite <- EX.
    assert (HX' : wf_frame (c_X c)) by (rewrite EX; exact HX).
    set (Y := c_X c) in *. set (xl := length (f_rows Y)).
    destruct (seq2 _ _) as [s' r] eqn:E. cbn [fst c_single].
    set (s0 := {| e_log := c_log c; e_tab := c_single c; e_b := b_empty |}) in E.
    destruct (loop (single_body O N c) fs' s0) as [s1 r1] eqn:El.
    assert (Hi0 : Inv (job_single Y) xl (fun _ => false) (sget O) (sspec N Y g) s0) by (split; [apply batch_ok_empty|exact He']).
    assert (Hq0 : keysQ (fun k => In (snd k) (grid O Y (fst k))) s0) by (apply keysQ_empty; reflexivity).
    eapply (loop_good (job_single Y) xl (fun _ => false) (sget O) (ssh O) (sspec N Y g) (fun k => In (snd k) (grid O Y (fst k))) (single_body O N c) (fun _ _ => False) (sshape O N Y)) in El as [Hgood _];
      [| |exact Hs|exact Hi0|exact Hq0].
    - destruct Hgood as (Gsh & Gi & Gq & Gfr & _). destruct r1 as [[]|e]; cbn [seq2] in E; [|injection E as <- <-; apply Gi].
      eapply (finish_good (c_predict c) (np_mean N) (skey_eqb O) (job_single Y) (set_single O) xl (fun _ => false) (sget O) (ssh O) (single_laws O HO) g (sspec N Y g) Hg' (fun k => eq_refl)) in E as [(_ & Fi & _) _];
        [apply Fi|exact Gi|exact Gq|intros k Hk; eapply (grid_nonempty_rows O HO); exact Hk].
    - intros s2 s3 r2 f Hf Hb Hsh Hi Hq. split; [|intros _ k []]. unfold single_body in Hb.
      destruct (dict_get String.eqb f (e_tab s2)) as [e|x] eqn:Ed; [|injection Hb as <- <-; apply Good_refl; assumption].
      apply dict_get_assoc in Ed. destruct (sshape_assoc O N Y _ f Hsh) as [_ H2]. destruct (H2 _ Ed) as (Hcol & Hfv & _).
      destruct (has_nan N (snd e)); [|injection Hb as <- <-; apply Good_refl; assumption].
      eapply (submit_good (c_predict c) (np_mean N) (skey_eqb O) (job_single Y) (set_single O) xl (c_batchsize c) (fun _ => false) (sget O) (ssh O) (single_laws O HO) g (sspec N Y g) Hg' (fun k => eq_refl)) in Hb as [Hgd _];
        [exact Hgd|exact Hi|exact Hq|]. intros k Hk. apply in_map_iff in Hk as (v & <- & Hv). rewrite Hfv in Hv. split; [exact Hv|apply job_single_length].
  Qed.

  Lemma later_kept m X P b g c c' : wf_frame X -> rowwise P g -> reachable O N m X P b c -> exact g X (c_single c) -> later c c' ->
    reachable O N m X P b c' /\ exact g X (c_single c')
    /\ forall f1 f2 v w x, In f1 (f_cols X) -> In f2 (f_cols X) -> f1 <> f2 -> get_pd_pairs O c f1 f2 [(v, w)] = Ok [x] -> n_isnan N x = false -> get_pd_pairs O c' f1 f2 [(v, w)] = Ok [x].
  Proof.
    intros HX Hg Hr He [ops ->]. revert c Hr He. induction ops as [|o ops IH]; intros c Hr He; [auto|].
    change (run O N c (o :: ops)) with (run O N (fst (step O N c o)) ops). destruct (step O N c o) as [c1 r] eqn:E. cbn [fst].
    assert (Hr1 : reachable O N m X P b c1) by (eapply reachable_step; [exact Hr|exact E]).
    assert (He1 : exact g X (c_single c1)).
    { destruct o as [fs|ps a|fs]; cbn [step] in E; [pose proof (single_exact_kept m X P b c g fs HX Hg Hr He) as H; rewrite E in H; exact H| |];
        [unfold calculate_pd_pairs in E|unfold calculate_pd_minus_single in E]; destruct (seq2 _ _); injection E as <- <-; exact He. }
    destruct (IH c1 Hr1 He1) as (A & B & D). split; [exact A|]. split; [exact B|]. intros f1 f2 v w x H1 H2 Hd Hx Hn. apply D; try assumption.
    destruct o as [fs|ps a|fs]; cbn [step] in E.
    - rewrite (get_pd_pairs_ext O c1 c f1 f2 _); [exact Hx|]. unfold calculate_pd_single in E. destruct (seq2 _ _). injection E as <- <-. reflexivity.
    - apply (pairs_keep O N HO m X P b c ps a c1 r f1 f2 v w x HX Hr E H1 H2 Hd Hx Hn).
    - rewrite (get_pd_pairs_ext O c1 c f1 f2 _); [exact Hx|]. unfold calculate_pd_minus_single in E. destruct (seq2 _ _). injection E as <- <-. reflexivity.
  Qed.

  (** ** C97 *)
  Lemma fit_exact k s a s' g Xs c : wf_frame (a_X a) -> fit k s a = (s', Ok tt) -> m_X s' = Some Xs -> explains O N a g Xs -> m_calc s' = Some c ->
    wf_frame Xs /\ exists m P b, reachable O N m Xs P b c /\ rowwise P g /\ exact g Xs (c_single c)
      /\ (forall f p v, nth_error (f_cols Xs) p = Some f -> In v (col_at p (f_rows Xs)) -> c_isnan O v = false).
  Proof.
    intros HX H HXs Hex Hc. destruct (fit_calc O N HO HN R HR srt k s a s' g Xs HX H HXs Hex) as (HwX & _ & m & P & b & c0 & c1 & c2 & c3 & c' & _ & Hg & _ & Hr2 & Es & Ec & Hr & _ & E1).
    rewrite Hc in Ec. injection Ec as <-. split; [exact HwX|]. exists m, P, b. split; [exact Hr|]. split; [exact Hg|]. split.
    - intros [f v] x Hx. right. assert (Hx' := Hx). rewrite E1 in Hx.
      destruct (reachable_shaped O N HO m Xs P b c HwX Hr) as ((Hs & _) & HXc & _). rewrite HXc in Hs.
      unfold sget in Hx'; cbn [fst snd] in Hx'. destruct (Py.assoc String.eqb f (c_single c)) as [e|] eqn:Ea; [|discriminate].
      destruct (sshape_assoc O N Xs _ f Hs) as [_ H2]. destruct (H2 _ Ea) as (Hcol & Hfv & _).
      destruct (get_index O (fst e) v) as [i|] eqn:Ei; [|discriminate]. apply (get_index_spec O HO) in Ei as [Ei _]. rewrite Hfv in Ei. apply nth_error_In in Ei.
      rewrite (calc_single_done O N HO Hnan m Xs P b c2 g None c3 HwX Hg Hr2 Es f v Hcol Ei) in Hx. congruence.
    - intros f p v Hp Hv. eapply (single_success_no_nan O N HO Hnan m Xs P b c2 g None c3); eauto. eapply nth_error_In, Hp.
  Qed.

  Lemma shared_single m X P b g c c' f vis (s : mstate C V G) : wf_frame X -> rowwise P g -> reachable O N m X P b c -> reachable O N m X P b c' -> exact g X (c_single c) -> exact g X (c_single c') ->
    m_calc s = Some c -> plot_profile (with_calc s c') f None vis = plot_profile s f None vis.
  Proof.
    intros HX Hg Hr Hr' He He' Hc. unfold plot_profile, with_calc. cbn [m_calc]. rewrite Hc.
    destruct (reachable_shaped O N HO m X P b c HX Hr) as ((Hs & _) & HXc & _). rewrite HXc in Hs.
    destruct (reachable_shaped O N HO m X P b c' HX Hr') as ((Hs' & _) & HXc' & _). rewrite HXc' in Hs'.
    unfold dict_get. rewrite (single_entry_ext O N HO X (c_single c) (c_single c') f Hs Hs'); [reflexivity|].
    intros v. destruct (sget O (c_single c) (f, v)) as [x|] eqn:E, (sget O (c_single c') (f, v)) as [x'|] eqn:E'.
    - destruct (He _ _ E) as [|E1]; [discriminate|]. destruct (He' _ _ E') as [|E2]; [discriminate|]. congruence.
    - exfalso. revert E E'. unfold sget; cbn [fst snd].
      destruct (sshape_assoc O N X _ f Hs) as [_ A2]. destruct (sshape_assoc O N X _ f Hs') as [B1 B2].
      destruct (Py.assoc String.eqb f (c_single c)) as [e|] eqn:Ea; [|discriminate]. destruct (A2 _ eq_refl) as (A & F & L & _). destruct (B1 A) as (e' & Ee). rewrite Ee in *. destruct (B2 _ eq_refl) as (_ & F' & L' & _).
      rewrite F, F'. destruct (get_index O (grid O X f) v) as [i|]; [|discriminate]. intros H1 H2. apply nth_error_None in H2. assert (i < length (snd e)) by (apply nth_error_Some; congruence). lia.
    - exfalso. revert E E'. unfold sget; cbn [fst snd].
      destruct (sshape_assoc O N X _ f Hs') as [_ A2]. destruct (sshape_assoc O N X _ f Hs) as [B1 B2].
      destruct (Py.assoc String.eqb f (c_single c')) as [e|] eqn:Ea; [|discriminate]. destruct (A2 _ eq_refl) as (A & F & L & _). destruct (B1 A) as (e' & Ee). rewrite Ee in *. destruct (B2 _ eq_refl) as (_ & F' & L' & _).
      rewrite F, F'. destruct (get_index O (grid O X f) v) as [i|]; [|discriminate]. intros H1 H2. apply nth_error_None in H1. assert (i < length (snd e)) by (apply nth_error_Some; congruence). lia.
    - reflexivity.
  Qed.

  Lemma matrix_two {A B} (Q Q' : A -> B -> V -> Prop) (S : V -> V -> Prop) xs ys M M' : (forall x y u u', In x xs -> In y ys -> Q x y u -> Q' x y u' -> S u u') ->
    matrix_shows Q xs ys M -> matrix_shows Q' xs ys M' -> Forall2 (Forall2 S) M M'.
  Proof.
    unfold matrix_shows. intros HS H. revert M'. induction H as [|y row ys M Hr H IH]; intros M' H'; inversion H' as [|? row' ? M'' Hr' H'']; subst; constructor.
    - assert (HSy : forall x u u', In x xs -> Q x y u -> Q' x y u' -> S u u') by (intros x u u' Hx; apply HS; [exact Hx|left; reflexivity]). clear -Hr Hr' HSy. revert row' Hr'.
      induction Hr as [|x u xs row Hu Hr IH]; intros row' Hr'; inversion Hr' as [|? u' ? row'' Hu' Hr'']; subst; constructor; [apply (HSy x); [left; reflexivity|assumption|assumption]|apply IH; [intros; eapply HSy; [right|..]; eassumption|assumption]].
    - apply IH; [intros; eapply HS; try eassumption; right; assumption|assumption].
  Qed.

  Lemma shared_pair m X P b c c' f1 f2 vis (s : mstate C V G) : wf_frame X -> reachable O N m X P b c -> reachable O N m X P b c' ->
    (forall f p v, nth_error (f_cols X) p = Some f -> In v (col_at p (f_rows X)) -> c_isnan O v = false) ->
    (forall f1 f2 v w x, In f1 (f_cols X) -> In f2 (f_cols X) -> f1 <> f2 -> get_pd_pairs O c f1 f2 [(v, w)] = Ok [x] -> n_isnan N x = false -> get_pd_pairs O c' f1 f2 [(v, w)] = Ok [x]) ->
    m_calc s = Some c -> same_or_filled N (plot_profile s f1 (Some f2) vis) (plot_profile (with_calc s c') f1 (Some f2) vis).
  Proof.
    intros HX Hr Hr' Hnn Hkeep Hc. unfold plot_profile, with_calc. cbn [m_calc]. rewrite Hc.
    destruct (reachable_shaped O N HO m X P b c HX Hr) as ((_ & Hs & _) & HXc & _). rewrite HXc in Hs.
    destruct (reachable_shaped O N HO m X P b c' HX Hr') as ((_ & Hs' & _) & HXc' & _). rewrite HXc' in Hs'.
    assert (Hkk : get_pair_key c' (f1, f2) = get_pair_key c (f1, f2)).
    { destruct (in_combinations_key O N c X f1 f2 HX Hs) as [A1 A2]. destruct (in_combinations_key O N c' X f1 f2 HX Hs') as [B1 B2].
      destruct (in_dec pair_dec (f1, f2) (combinations2 (f_cols X))) as [Hi|Hi]; [rewrite A1, B1|rewrite A2, B2]; auto. }
    rewrite Hkk. destruct (get_pair_key c (f1, f2)) as [h1 h2]. unfold dict_get. cbn [fst snd].
    destruct (in_dec pair_dec (h1, h2) (combinations2 (f_cols X))) as [Hi|Hi].
    - destruct (combinations2_In _ _ Hi) as [Hi1 Hi2]. cbn [fst snd] in Hi1, Hi2. destruct (In_nth_error _ _ Hi1) as [p Hp]. destruct (In_nth_error _ _ Hi2) as [q Hq].
      assert (Hd : h1 <> h2). { intros ->. pose proof Hi as Hi'. apply (combinations2_asym (f_cols X) h2 h2) in Hi'; [exact (Hi' Hi)|apply HX]. }
      destruct (pair_cells_key O N HO m X P b c h1 h2 p q HX Hr Hp Hq Hi (fun v => Hnn _ _ v Hp) (fun v => Hnn _ _ v Hq)) as (M & Ha & HM).
      destruct (pair_cells_key O N HO m X P b c' h1 h2 p q HX Hr' Hp Hq Hi (fun v => Hnn _ _ v Hp) (fun v => Hnn _ _ v Hq)) as (M' & Ha' & HM').
      rewrite Ha, Ha'. cbn [bind fst snd]. destruct (drawable _ _ _) as [u|e]; cbn [bind]; [|reflexivity]. destruct (known_kind vis); [|reflexivity].
      cbn [same_or_filled]. repeat (split; [reflexivity|]). eapply matrix_two; [|exact HM|exact HM']. cbn beta. intros w v x x' _ _ Hx Hx'.
      destruct (n_isnan N x) eqn:En; [right; reflexivity|left]. apply Hkeep in Hx; try assumption. congruence.
    - destruct (pshape_assoc O N X _ (h1, h2) Hs) as [_ A]. destruct (pshape_assoc O N X _ (h1, h2) Hs') as [_ B].
      destruct (Py.assoc _ _ (c_pairs c)) as [e|]; [exfalso; apply Hi, (A _ eq_refl)|]. destruct (Py.assoc _ _ (c_pairs c')) as [e|]; [exfalso; apply Hi, (B _ eq_refl)|]. reflexivity.
  Qed.

  (** other calls on the calculator of a fitted method *)
  Theorem C97_calls k s a s' g Xs c ops f f2 vis : wf_frame (a_X a) -> fit k s a = (s', Ok tt) -> m_X s' = Some Xs -> explains O N a g Xs -> m_calc s' = Some c ->
    plot_profile (with_calc s' (run O N c ops)) f None vis = plot_profile s' f None vis
    /\ same_or_filled N (plot_profile s' f (Some f2) vis) (plot_profile (with_calc s' (run O N c ops)) f (Some f2) vis).
  Proof.
    intros HX H HXs Hex Hc. destruct (fit_exact k s a s' g Xs c HX H HXs Hex Hc) as (HwX & m & P & b & Hr & Hg & He & Hnn).
    destruct (later_kept m Xs P b g c (run O N c ops) HwX Hg Hr He (ex_intro _ ops eq_refl)) as (Hr' & He' & Hk).
    split; [exact (shared_single m Xs P b g c _ f vis s' HwX Hg Hr Hr' He He' Hc)|exact (shared_pair m Xs P b c _ f f2 vis s' HwX Hr Hr' Hnn Hk Hc)].
  Qed.

  (** another method fitted with the calculator of a fitted method, whatever comes of that fit *)
  Theorem C97_fits k1 s1 a1 s1' g Xs c1 k2 s2 a2 s2' r c2 f f2 vis :
    wf_frame (a_X a1) -> fit k1 s1 a1 = (s1', Ok tt) -> m_X s1' = Some Xs -> explains O N a1 g Xs -> m_calc s1' = Some c1 ->
    a_calc a2 = Some c1 -> m_calc s2 = None -> fit k2 s2 a2 = (s2', r) -> m_calc s2' = Some c2 ->
    plot_profile (with_calc s1' c2) f None vis = plot_profile s1' f None vis
    /\ same_or_filled N (plot_profile s1' f (Some f2) vis) (plot_profile (with_calc s1' c2) f (Some f2) vis).
  Proof.
    intros HX H HXs Hex Hc Ha Hn H2 Hc2. destruct (fit_later k2 s2 a2 s2' r c1 c2 Ha Hn H2 Hc2) as [ops ->].
    apply (C97_calls k1 s1 a1 s1' g Xs c1 ops f f2 vis HX H HXs Hex Hc).
  Qed.
End Share.

(** ** C98: the data of a calculator changed in place *)

(** what the calculator [c] becomes when the caller assigns to the cells of the frame it was
    built for: pd_calculator.py:15 keeps the caller's object *)
Definition edited {C V} (c : calc C V) (X : frame C) : calc C V :=
  {| c_model := c_model c; c_predict := c_predict c; c_X := X; c_batchsize := c_batchsize c;
     c_single := c_single c; c_pairs := c_pairs c; c_minus := c_minus c; c_log := c_log c |}.

Lemma bind_Ok {A B} (r : result A) (k : A -> result B) y : bind r k = Ok y -> exists x, r = Ok x /\ k x = Ok y.
Proof. destruct r; cbn; [eauto|discriminate]. Qed.

Section Edited.
  Context {C V G : Type} (O : cell_ops C) (N : num_ops V) (HO : cell_ok O) (HN : num_ord_ok N) (R : rng_ops G) (HR : rng_ok R) (srt : sorter).
  Notation fit := (PdMethods.fit O N R srt).

  Lemma loop_tab {K T A Sh} (sh : T -> Sh) (body : est K T C -> A -> est K T C * result unit) l s s' r :
    (forall s s' r x, body s x = (s', r) -> sh (e_tab s') = sh (e_tab s)) -> loop body l s = (s', r) -> sh (e_tab s') = sh (e_tab s).
  Proof.
    intros Hb. revert s. induction l as [|x l IH]; intros s H; cbn [loop] in H; [injection H as <- _; reflexivity|].
    destruct (body s x) as [s1 [u|e]] eqn:E; [rewrite (IH _ H); eapply Hb, E|injection H as <- _; eapply Hb, E].
  Qed.
  Lemma fill_tab P (s s' : est skey (list (string * (list C * list V))) C) r : fill P (np_mean N) (set_single O) s = (s', r) -> ssh O (e_tab s') = ssh O (e_tab s).
  Proof. intros H. apply (fill_gen P (np_mean N) (skey_eqb O) (fun _ => []) (set_single O) 0 (sget O) (ssh O) (single_laws O HO)) in H. apply H. Qed.

  (** the values a calculator knows about are fixed when it is made *)
  Lemma single_grid (c : calc C V) fs : ssh O (c_single (fst (calculate_pd_single O N c fs))) = ssh O (c_single c).
  Proof.
    unfold calculate_pd_single. destruct (loop _ _ _) as [s1 r1] eqn:El.
    assert (H1 : ssh O (e_tab s1) = ssh O (c_single c)).
    { apply (loop_tab (ssh O)) in El; [exact El|]. intros s s' r f H. unfold single_body in H. destruct (dict_get _ _ _) as [e|x]; [|injection H as <- _; reflexivity].
      destruct (has_nan _ _); [|injection H as <- _; reflexivity]. unfold submit in H. destruct (Z.ltb _ _); [apply fill_tab in H; exact H|injection H as <- _; reflexivity]. }
    destruct r1 as [u|e]; cbn [seq2]; [|exact H1]. destruct (finish _ _ _ s1) as [s2 r2] eqn:Ef. cbn [fst c_single]. rewrite <- H1.
    unfold finish in Ef. destruct (_ <? _); [apply fill_tab in Ef; exact Ef|injection Ef as <- _; reflexivity].
  Qed.

  (** if Friedman's method accepts the calculator, all values of a column that occurs in a pair
      were in the data the calculator was made for *)
  Theorem C98_known_values_partial norm s a s' m X P b c Xs f f' vs v : wf_frame X -> reachable O N m X P b c ->
    a_calc a = Some (edited c (a_X a)) -> fit (Friedman norm) s a = (s', Ok tt) -> m_X s' = Some Xs ->
    In f (PdMethodFacts.all_features a) -> In f' (PdMethodFacts.all_features a) -> f <> f' -> column Xs f = Ok vs -> In v vs ->
    exists vs0, column X f = Ok vs0 /\ In v vs0.
  Proof.
    intros HX Hr Ha H HXs Hf Hf' Hd Hcol Hv. apply fit_ok in H as (Xs' & rng' & c0 & c1 & t & c2 & fi & _ & Ec & Eo & _ & E1 & _).
    rewrite HXs in E1; injection E1 as <-. rewrite Ha in Ec. apply pick_given in Ec. subst c0. cbn [ovo_of] in Eo. unfold friedman_ovo in Eo.
    destruct (calculate_pd_pairs _ _ _ _ _) as [d1 [u|e]] eqn:E1; [|discriminate]. pose proof (single_grid d1 (Some (PdMethodFacts.all_features a))) as Hg. destruct (calculate_pd_single _ _ _ _) as [d2 [u2|e]]; [|discriminate]. cbn [fst] in Hg.
    assert (Hg1 : c_single d1 = c_single c) by (unfold calculate_pd_pairs in E1; destruct (seq2 _ _); injection E1 as <- _; reflexivity). rewrite Hg1 in Hg.
    injection Eo as _ Eo. destruct (mapM _ _) as [rows|] eqn:E; [|discriminate]. apply mapM_Ok_inv in E.
    destruct (reachable_shaped O N HO m X P b c HX Hr) as ((Hs & _) & HXc & _). rewrite HXc, <- Hg in Hs.
    assert (Hgo : forall x pd, get_pd_single O d2 f (Some x) = Ok pd -> column Xs f = Ok x -> exists vs0, column X f = Ok vs0 /\ In v vs0).
    { intros x pd Hx Hc. rewrite Hcol in Hc. injection Hc as <-. apply mapM_Ok_inv in Hx. destruct (Forall2_In_l _ _ _ Hx _ Hv) as (y & _ & Hy).
      destruct (dict_get String.eqb f (c_single d2)) as [e|] eqn:Ee; [|discriminate]. apply dict_get_assoc in Ee. cbn [bind] in Hy.
      destruct (sshape_assoc O N X _ f Hs) as [_ H2]. destruct (H2 _ Ee) as (_ & Hfv & _).
      destruct (get_index O (fst e) v) as [i|] eqn:Ei; [|discriminate]. apply (get_index_spec O HO) in Ei as [Ei _]. rewrite Hfv in Ei. apply nth_error_In in Ei.
      unfold grid in Ei. destruct (column X f) as [vs0|]; [|destruct Ei]. exists vs0. split; [reflexivity|]. apply (np_unique_sub O HO). exact Ei. }
    destruct (combinations2_complete (PdMethodFacts.all_features a) f f' Hf Hf' Hd) as [Hin|Hin]; destruct (Forall2_In_l _ _ _ E _ Hin) as (y & _ & Hy); cbn [fst snd] in Hy.
    - rewrite Hcol in Hy. cbn [bind] in Hy. apply bind_Ok in Hy as (pd & Ep & _). exact (Hgo _ _ Ep Hcol).
    - apply bind_Ok in Hy as (x' & _ & Hy). apply bind_Ok in Hy as (pd' & _ & Hy). rewrite Hcol in Hy. cbn [bind] in Hy. apply bind_Ok in Hy as (pd & Ep & _). exact (Hgo _ _ Ep Hcol).
  Qed.
End Edited.

(** ** Concrete cases *)


Definition shA := mkargs zP2 zX None false None.
Definition shC : calc Z (ext Q) := match m_calc zS2 with Some c => c | None => calc_init Zcell xQ 0 zX zP2 3 end.
Definition shB := mkargs zP2 zX None false (Some shC).
Definition shS := fst (fitQ Greenwell init0 shB).
Definition shC2 : calc Z (ext Q) := match m_calc shS with Some c => c | None => shC end.

(** Friedman's method fitted first, then Greenwell's method with its calculator: the undefined
    cells of the first method's profile are filled in, the others stay *)
Example C97_example :
  wf_frame (a_X shA) /\ explains Zcell xQ shA zg2 zX /\ fitQ (Friedman true) init0 shA = (zS2, Ok tt) /\ m_X zS2 = Some zX /\ m_calc zS2 = Some shC
  /\ a_calc shB = Some shC /\ m_calc (init0 : mstate Z (ext Q) nat) = None /\ fitQ Greenwell init0 shB = (shS, Ok tt) /\ m_calc shS = Some shC2
  /\ plot_profile zS2 "a" (Some "c") "colormesh" = Ok (PMesh "c" "a" [0; 1; 2; 3]%Z [0; 1]%Z [[Fin 0%Q; NaN; Fin 0%Q; NaN]; [NaN; Fin 1%Q; NaN; Fin 3%Q]])
  /\ plot_profile (with_calc zS2 shC2) "a" (Some "c") "colormesh" = Ok (PMesh "c" "a" [0; 1; 2; 3]%Z [0; 1]%Z [[Fin 0%Q; Fin 0%Q; Fin 0%Q; Fin 0%Q]; [Fin 0%Q; Fin 1%Q; Fin 2%Q; Fin 3%Q]]).
Proof.
  split; [exact zX_wf|]. split; [apply zP2_explains|]. split; [vm_compute; reflexivity|]. split; [vm_compute; reflexivity|]. split; [vm_compute; reflexivity|].
  split; [reflexivity|]. split; [reflexivity|]. split; [vm_compute; reflexivity|]. split; [vm_compute; reflexivity|]. split; vm_compute; reflexivity.
Qed.

Definition zX' : frame Z := {| f_cols := ["a"; "b"; "c"]; f_index := [0;1;2;3]%Z; f_num := ["a"; "b"; "c"];
                               f_rows := [[0;0;3];[0;1;2];[0;0;1];[1;1;0]]%Z |}.

(** some cells of the frame are assigned after a fit.  The old calculator is accepted for the new
    data and mixes old and new values: "b", which the model ignores, interacts with "c" *)
Theorem C98_stale_refuted :
  exists (a : fargs Z (ext Q)) s c X' g, wf_frame (a_X a) /\ explains Zcell xQ a g (a_X a) /\ fitQ (Friedman true) init0 a = (s, Ok tt) /\ m_calc s = Some c
    /\ wf_frame X' /\ f_cols X' = f_cols (a_X a) /\ length (f_rows X') = length (f_rows (a_X a)) /\ (forall x y y' z, g [x; y; z] = g [x; y'; z])
    /\ let given := fitQ (Friedman true) init0 (mkargs zP2 X' None false (Some (edited c X'))) in
       let fresh := fitQ (Friedman true) init0 (mkargs zP2 X' None false None) in
       snd given = Ok tt /\ snd fresh = Ok tt
       /\ m_ovo (fst given) = Some [("a", "c", PInf); ("b", "c", Fin (27 # 35)); ("a", "b", Fin 0%Q)]
       /\ m_ovo (fst fresh) = Some [("a", "c", PInf); ("a", "b", Fin 0%Q); ("b", "c", Fin 0%Q)]
       /\ m_fi (fst given) = Some [("a", Fin (3 # 4)); ("c", Fin (1 # 2)); ("b", Fin 0%Q)]
       /\ m_fi (fst fresh) = Some [("a", Fin (3 # 4)); ("c", Fin (1 # 4)); ("b", Fin 0%Q)].
Proof.
  exists shA, zS2, shC, zX', zg2. split; [exact zX_wf|]. split; [apply zP2_explains|]. split; [vm_compute; reflexivity|]. split; [vm_compute; reflexivity|].
  split; [repeat constructor; cbn; intuition congruence|]. split; [reflexivity|]. split; [reflexivity|]. split; [reflexivity|].
  cbv zeta. repeat (split; [vm_compute; reflexivity|]). vm_compute. reflexivity.
Qed.

(** the hypotheses of C98_known_values_partial are met there; a new value is refused *)
Example C98_example :
  wf_frame zX /\ reachable Zcell xQ 0 zX zP2 3 shC
  /\ a_calc (mkargs zP2 zX' None false (Some (edited shC zX'))) = Some (edited shC zX')
  /\ snd (fitQ (Friedman true) init0 (mkargs zP2 zX' None false (Some (edited shC zX')))) = Ok tt
  /\ let X2 := {| f_cols := ["a"; "b"; "c"]; f_index := [0;1;2;3]%Z; f_num := ["a"; "b"; "c"]; f_rows := [[0;0;3];[0;1;2];[0;0;1];[1;1;5]]%Z |} in
     snd (fitQ (Friedman true) init0 (mkargs zP2 X2 None false (Some (edited shC X2)))) = Err IndexError.
Proof.
  split; [exact zX_wf|]. split; [|split; [reflexivity|split; vm_compute; reflexivity]].
  exists [OpPairs (Some (combinations2 ["a"; "b"; "c"])) false; OpSingle (Some ["a"; "b"; "c"]); OpSingle None]. vm_compute. reflexivity.
Qed.

Print Assumptions C97_calls.
Print Assumptions C97_fits.
Print Assumptions C98_known_values_partial.
Print Assumptions C98_stale_refuted.
