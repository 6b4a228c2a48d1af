(** C60, C61, C77-C81: zen plots and profiles of a fitted method. *)
From Verif Require Import Py Num NumR Sorting Frame Rng PdCalc PdSpec PdFacts PdProofs PdTheorems PdErrors PdApi PdMethods MethodSpec
  PdMethodFacts PdMethodRun PdMethodReal PdMethodReal2 GreenwellFacts Props_Pd Props_Methods Props_Methods2 Props_Visual3 Props_Visual4 Zenplot ZenFacts Props_Zen.
From Coq Require Import Reals Lra QArith.
Open Scope string_scope.
Open Scope nat_scope.
Open Scope list_scope.

(** ** Specification *)

(** the rows of a matrix go along [ys], its columns along [xs]; [Q x y] holds of the cells *)
Definition matrix_shows {A B V} (Q : A -> B -> V -> Prop) (xs : list A) (ys : list B) (M : list (list V)) : Prop :=
  Forall2 (fun y row => Forall2 (fun x cell => Q x y cell) xs row) ys M.

(** the two values occur together in the data *)
Definition together {C} (rows : list (list C)) (p q : nat) (v w : C) : Prop := exists r, In r rows /\ nth_error r p = Some v /\ nth_error r q = Some w.

(** what a cell shows: the partial dependence function; Friedman's method leaves some cells
    off the data undefined *)
Definition drawn {C V} (N : num_ops V) (k : kind) (g : list C -> V) (rows : list (list C)) (p q : nat) (v w : C) (x : V) : Prop :=
  (x = PD2 (np_mean N) g rows p q v w \/ (k <> Greenwell /\ n_isnan N x = true)) /\ (together rows p q v w -> x = PD2 (np_mean N) g rows p q v w).

Lemma matrix_transpose {A B V} (Q : A -> B -> V -> Prop) xs ys (M : list (list V)) :
  matrix_shows Q xs ys M -> matrix_shows (fun y x c => Q x y c) ys xs (columns_of (length xs) M).
Proof.
  unfold matrix_shows, columns_of. revert M. induction xs as [|x xs IH]; intros M H; [constructor|]. cbn [length seq map]. constructor.
  - clear IH. unfold col_of. induction H as [|y row ys M Hr H IH]; [constructor|]. inversion Hr as [|? c ? row' Hc _]; subst. cbn [flat_map nth_error app]. constructor; [exact Hc|exact IH].
  - rewrite <- seq_shift, map_map.
    assert (E : map (fun j => col_of (S j) M) (seq 0 (length xs)) = map (fun j => col_of j (map (@tl V) M)) (seq 0 (length xs))).
    { apply map_ext_in. intros j _. unfold col_of. rewrite !flat_map_concat_map, map_map. f_equal. apply map_ext_in. intros row Hrow. destruct row; [|reflexivity]. cbn [tl nth_error]. destruct j; reflexivity. }
    rewrite E. apply IH. clear -H. induction H as [|y row ys M Hr H IH]; [constructor|]. inversion Hr as [|? c ? row' _ Hc]; subst. cbn [map tl]. constructor; [exact Hc|exact IH].
Qed.
Lemma matrix_impl {A B V} (Q Q' : A -> B -> V -> Prop) xs ys M : (forall x y c, In x xs -> In y ys -> Q x y c -> Q' x y c) -> matrix_shows Q xs ys M -> matrix_shows Q' xs ys M.
Proof.
  unfold matrix_shows. intros HQ H. induction H as [|y row ys M Hr H IH]; [constructor|]. constructor; [|apply IH; intros; apply HQ; try assumption; right; assumption].
  assert (HQy : forall x c, In x xs -> Q x y c -> Q' x y c) by (intros x c Hx; apply HQ; [exact Hx|left; reflexivity]). clear -Hr HQy.
  induction Hr as [|x c xs row Hc Hr IH]; constructor; [apply HQy; [left; reflexivity|exact Hc]|apply IH; intros; apply HQy; [right|]; assumption].
Qed.

Section Fitted.
  Context {C V G : Type} (O : cell_ops C) (N : num_ops V) (HO : cell_ok O) (HN : num_ord_ok N)
          (H0 : n_isnan N (n_ofZ N 0) = false) (R : rng_ops G) (HR : rng_ok R) (srt : sorter) (Hs : sorter_ok srt).
  Notation fit := (PdMethods.fit O N R srt).
  Notation Hnan := (no_isnan_nan N HN).
  Notation plot_zenplot := (plot_zenplot (C := C) (G := G) N).

  (** ** Cells of a calculator *)
  Lemma pair_cells_key m X P b c f1 f2 p q : wf_frame X -> reachable O N m X P b c -> nth_error (f_cols X) p = Some f1 -> nth_error (f_cols X) q = Some f2 ->
    In (f1, f2) (combinations2 (f_cols X)) -> (forall v, In v (col_at p (f_rows X)) -> c_isnan O v = false) -> (forall w, In w (col_at q (f_rows X)) -> c_isnan O w = false) ->
    exists M, assoc pair_eqb (f1, f2) (c_pairs c) = Some (np_unique O (col_at p (f_rows X)), np_unique O (col_at q (f_rows X)), M)
      /\ matrix_shows (fun w v x => get_pd_pairs O c f1 f2 [(v, w)] = Ok [x]) (np_unique O (col_at q (f_rows X))) (np_unique O (col_at p (f_rows X))) M.
  Proof.
    intros HX Hr Hp Hq Hin Hnp Hnq. destruct (reachable_shaped O N HO m X P b c HX Hr) as ((_ & Hsh & _) & HXc & _). rewrite HXc in Hsh.
    destruct (pshape_assoc O N X _ (f1, f2) Hsh) as [H1 H2]. destruct (H1 Hin) as (mm & Ha). destruct (H2 _ Ha) as (_ & _ & Hl & _). cbn [fst snd] in *.
    rewrite (grid_of O X HX p f1 Hp), (grid_of O X HX q f2 Hq) in *. exists mm. split; [exact Ha|].
    apply Forall2_nth; [rewrite <- (map_length (@length V) mm), Hl, repeat_length; reflexivity|].
    intros i v row Hv Hrow. apply Forall2_nth; [symmetry; eapply map_length_repeat_nth; [exact Hl|exact Hrow]|]. intros j w x Hw Hx.
    apply (pairs_elem O N c X f1 f2 _ HX Hsh Hin). constructor; [|constructor]. unfold pget; cbn [fst snd]. rewrite Ha; cbn [fst snd].
    assert (Hvn : c_isnan O v = false) by (apply Hnp, (np_unique_sub O HO); eapply nth_error_In; exact Hv).
    assert (Hwn : c_isnan O w = false) by (apply Hnq, (np_unique_sub O HO); eapply nth_error_In; exact Hw).
    rewrite (get_index_NoDup O HO _ _ _ (np_unique_NoDup O HO _) Hv Hvn), (get_index_NoDup O HO _ _ _ (np_unique_NoDup O HO _) Hw Hwn), Hrow. exact Hx.
  Qed.

  Lemma pair_cells m X P b c f1 f2 p q : wf_frame X -> reachable O N m X P b c -> nth_error (f_cols X) p = Some f1 -> nth_error (f_cols X) q = Some f2 -> p <> q ->
    (forall v, In v (col_at p (f_rows X)) -> c_isnan O v = false) -> (forall w, In w (col_at q (f_rows X)) -> c_isnan O w = false) ->
    exists M, get_pd_pairs_values c (f1, f2) = Ok (np_unique O (col_at p (f_rows X)), np_unique O (col_at q (f_rows X)), M)
      /\ matrix_shows (fun w v x => get_pd_pairs O c f1 f2 [(v, w)] = Ok [x]) (np_unique O (col_at q (f_rows X))) (np_unique O (col_at p (f_rows X))) M.
  Proof.
    intros HX Hr Hp Hq Hne Hnp Hnq. destruct (reachable_shaped O N HO m X P b c HX Hr) as ((_ & Hsh & _) & HXc & _). rewrite HXc in Hsh.
    destruct (combos_pos _ _ _ _ _ HX Hp Hq Hne) as (Hi1 & Hi2 & Hd). destruct (combinations2_complete (f_cols X) f1 f2 Hi1 Hi2 Hd) as [Hin|Hin]; unfold get_pd_pairs_values.
    - destruct (pair_cells_key m X P b c f1 f2 p q HX Hr Hp Hq Hin Hnp Hnq) as (M & Ha & HM). exists M. split; [|exact HM].
      destruct (in_combinations_key O N c X f1 f2 HX Hsh) as [A _]. rewrite (A Hin). unfold dict_get. rewrite Ha. cbn [bind fst]. rewrite String.eqb_refl. reflexivity.
    - destruct (pair_cells_key m X P b c f2 f1 q p HX Hr Hq Hp Hin Hnq Hnp) as (M & Ha & HM).
      assert (Hnin : ~ In (f1, f2) (combinations2 (f_cols X))) by (apply combinations2_asym; [apply HX|exact Hin]).
      destruct (in_combinations_key O N c X f1 f2 HX Hsh) as [_ A]. rewrite (A Hnin). unfold dict_get. rewrite Ha. cbn [bind fst snd].
      destruct (String.eqb_spec f2 f1) as [E|_]; [congruence|]. eexists. split; [reflexivity|].
      apply matrix_transpose in HM. eapply matrix_impl; [|exact HM]. cbn beta. intros w v x _ _ Hx. rewrite (get_pd_pairs_swap O N c X) by assumption. exact Hx.
  Qed.

  (** ** What a successful fit leaves in the calculator *)
  Lemma fit_calc k s a s' g Xs : wf_frame (a_X a) -> fit k s a = (s', Ok tt) -> m_X s' = Some Xs -> explains O N a g Xs ->
    wf_frame Xs /\ known_pairs Xs (combinations2 (fitted_features a))
    /\ exists m P b c0 c1 c2 c3 c, reachable O N m Xs P b c0 /\ rowwise P g
       /\ calculate_pd_pairs O N c0 (Some (combinations2 (fitted_features a))) (match k with Greenwell => true | _ => false end) = (c1, Ok tt)
       /\ reachable O N m Xs P b c2 /\ calculate_pd_single O N c2 None = (c3, Ok tt)
       /\ m_calc s' = Some c /\ reachable O N m Xs P b c /\ c_pairs c = c_pairs c1 /\ c_single c = c_single c3.
  Proof.
    intros HX H HXs Hex. apply fit_ok in H as (Xs' & rng' & c & c1 & t & c2 & fi & Es & Ec & Eo & Ei & E1 & E2 & E3 & E4 & E5 & E6).
    rewrite HXs in E1; injection E1 as <-. destruct (sample_wf R _ _ _ _ _ HR HX Es) as (HwX & _). split; [exact HwX|].
    destruct (explains_calc O N _ _ _ _ Hex Ec) as (m & P & b & Hr & Hg).
    assert (Hov : known_pairs Xs (combinations2 (fitted_features a)) /\ exists d, calculate_pd_pairs O N c (Some (combinations2 (fitted_features a))) (match k with Greenwell => true | _ => false end) = (d, Ok tt)
       /\ reachable O N m Xs P b c1 /\ c_pairs c1 = c_pairs d).
    { destruct k as [norm|]; cbn [ovo_of] in Eo.
      - pose proof Eo as Eo'. apply (friedman_ovo_spec O N HO Hnan srt norm Xs _ _ _ _ _ m P b g HwX Hg Hr) in Eo' as (_ & Hr1 & Hk); [|intros p; apply combinations2_fst_snd]. split; [exact Hk|].
        unfold friedman_ovo in Eo. destruct (calculate_pd_pairs _ _ _ _ _) as [d [[]|e]] eqn:Ed; [|discriminate]. exists d. split; [reflexivity|]. split; [exact Hr1|].
        assert (Hrd : reachable O N m Xs P b d) by (eapply (reachable_step O N m Xs P b c (OpPairs _ _)); [exact Hr|exact Ed]).
        destruct (calculate_pd_single _ _ _ _) as [d2 [[]|e]] eqn:Ed2; [|discriminate]. injection Eo as <- _.
        apply (single_isolation O N HO m Xs P b d _ d2 _ HwX Hrd Ed2).
      - pose proof Eo as Eo'. apply (greenwell_ovo_spec O N HO Hnan srt Xs _ _ _ _ _ m P b g HwX Hg Hr) in Eo' as (Hr1 & r0 & Ed & He & A).
        destruct r0 as [[]|e]; [|specialize (He e eq_refl); discriminate]. destruct (A eq_refl) as [Hk _]. split; [exact Hk|]. exists c1. auto. }
    destruct Hov as (Hk & d & Ed & Hr1 & Ep). split; [exact Hk|].
    destruct (pdp_importance_spec O N HO Hnan srt Xs _ _ _ _ m P b g HwX Hg Hr1 Ei) as (l & _ & _ & Hr2 & Es2 & _).
    pose proof (single_isolation O N HO m Xs P b c1 _ c2 _ HwX Hr1 Es2) as (Ep2 & _).
    assert (Hfin : exists cf, m_calc s' = Some cf /\ reachable O N m Xs P b cf /\ c_pairs cf = c_pairs c2 /\ c_single cf = c_single c2).
    { destruct k as [norm|]; [|destruct E6 as [_ ->]; eauto 6]. destruct (a_ova a); [|destruct E6 as [_ ->]; eauto 6]. destruct E6 as (c3 & ova & Ev & _ & ->). exists c3. split; [reflexivity|].
      unfold friedman_ova in Ev. destruct (calculate_pd_minus_single _ _ _) as [d3 [[]|e]] eqn:Ed3; [|discriminate]. injection Ev as <- _.
      split; [eapply (reachable_step O N m Xs P b c2 (OpMinus _)); [exact Hr2|exact Ed3]|]. destruct (minus_isolation O N HO m Xs P b c2 _ d3 _ HwX Hr2 Ed3) as (A1 & A2 & _). auto. }
    destruct Hfin as (cf & Ecf & Hrf & Ef1 & Ef2). exists m, P, b, c, d, c1, c2, cf. repeat (split; [assumption|]). split; congruence.
  Qed.

  Lemma known_NoDup (fs : list string) X : known_pairs (C := C) X (combinations2 fs) -> NoDup fs.
  Proof.
    intros Hk. induction fs as [|f fs IH]; [constructor|]. constructor.
    - intros Hf. destruct (Hk (f, f)) as (_ & _ & Hn); [cbn [combinations2]; apply in_or_app; left; apply in_map, Hf|apply Hn; reflexivity].
    - apply IH. intros p Hp. apply Hk. cbn [combinations2]. apply in_or_app. right. exact Hp.
  Qed.

  Lemma reachable_one_order m X P b c : wf_frame X -> reachable O N m X P b c -> one_order c.
  Proof.
    intros HX Hr a1 a2 e E. destruct (reachable_shaped O N HO m X P b c HX Hr) as ((_ & Hsh & _) & HXc & _). rewrite HXc in Hsh.
    destruct (pshape_assoc O N X _ (a1, a2) Hsh) as [_ H2]. destruct (H2 _ E) as (Hi & _).
    destruct (pshape_assoc O N X _ (a2, a1) Hsh) as [_ H2']. destruct (assoc pair_eqb (a2, a1) (c_pairs c)) as [e'|] eqn:E'; [|reflexivity].
    destruct (H2' _ eq_refl) as (Hi' & _). exfalso. apply (combinations2_asym (f_cols X) a1 a2); [apply HX|exact Hi|exact Hi'].
  Qed.

  (** two different fitted features *)
  Lemma fit_cells k s a s' g Xs : wf_frame (a_X a) -> fit k s a = (s', Ok tt) -> m_X s' = Some Xs -> explains O N a g Xs ->
    exists c, m_calc s' = Some c /\ one_order c
      /\ (forall f1 f2, In f1 (fitted_features a) -> In f2 (fitted_features a) -> f1 <> f2 ->
          exists p q M, nth_error (f_cols Xs) p = Some f1 /\ nth_error (f_cols Xs) q = Some f2 /\ p <> q
            /\ get_pd_pairs_values c (f1, f2) = Ok (np_unique O (col_at p (f_rows Xs)), np_unique O (col_at q (f_rows Xs)), M)
            /\ matrix_shows (fun w v x => drawn N k g (f_rows Xs) p q v w x) (np_unique O (col_at q (f_rows Xs))) (np_unique O (col_at p (f_rows Xs))) M)
      /\ (forall f p, nth_error (f_cols Xs) p = Some f ->
            get_pd_single O c f None = Ok (map (PD1 (np_mean N) g (f_rows Xs) p) (np_unique O (col_at p (f_rows Xs))))
            /\ exists vs, assoc String.eqb f (c_single c) = Some (np_unique O (col_at p (f_rows Xs)), vs)).
  Proof.
    intros HX H HXs Hex. destruct (fit_calc k s a s' g Xs HX H HXs Hex) as (HwX & Hk & m & P & b & c0 & c1 & c2 & c3 & c & Hr0 & Hg & Ep & Hr2 & Es & Ec & Hr & Epc & Esc).
    exists c. split; [exact Ec|]. split; [apply (reachable_one_order m Xs P b c HwX Hr)|]. split.
    - intros f1 f2 Hf1 Hf2 Hne. assert (Hreq : requested Xs (Some (combinations2 (fitted_features a))) f1 f2) by (cbn; apply combinations2_complete; assumption).
      assert (Hcols : In f1 (f_cols Xs) /\ In f2 (f_cols Xs)) by (destruct Hreq as [Hi|Hi]; destruct (Hk _ Hi) as (A & B & _); auto).
      destruct Hcols as [Hc1 Hc2]. apply In_nth_error in Hc1 as (p & Hp). apply In_nth_error in Hc2 as (q & Hq). exists p, q.
      assert (Hpq : p <> q) by congruence.
      assert (Hreq' : requested Xs (Some (combinations2 (fitted_features a))) f2 f1) by (cbn in *; tauto).
      assert (Hnp : forall v, In v (col_at p (f_rows Xs)) -> c_isnan O v = false) by (intros v; apply (pairs_success_no_nan O N HO Hnan _ _ _ _ _ g _ _ _ HwX Hg Hr0 Ep f1 f2 p q v Hreq Hp Hq Hpq)).
      assert (Hnq : forall v, In v (col_at q (f_rows Xs)) -> c_isnan O v = false) by (intros v; apply (pairs_success_no_nan O N HO Hnan _ _ _ _ _ g _ _ _ HwX Hg Hr0 Ep f2 f1 q p v Hreq' Hq Hp (not_eq_sym Hpq))).
      destruct (pair_cells m Xs P b c f1 f2 p q HwX Hr Hp Hq Hpq Hnp Hnq) as (M & HM & HC). exists M. repeat (split; [assumption|]).
      eapply matrix_impl; [|exact HC]. cbn beta. intros w v x Hw Hv Hx. rewrite (get_pd_pairs_ext O c c1 f1 f2 _ Epc) in Hx.
      assert (Hr1 : reachable O N m Xs P b c1) by (eapply (reachable_step O N m Xs P b c0 (OpPairs _ _)); [exact Hr0|exact Ep]).
      apply (np_unique_sub O HO) in Hw. apply (np_unique_sub O HO) in Hv.
      assert (Hex1 : match k with Greenwell => True | _ => together (f_rows Xs) p q v w end -> x = PD2 (np_mean N) g (f_rows Xs) p q v w).
      { intros Ht. pose proof (pd_pairs_exact O N HO Hnan m Xs P b c0 g _ _ c1 p q f1 f2 HwX Hg Hr0 Ep Hreq Hp Hq Hpq [(v, w)]) as He. rewrite Hx in He.
        assert (E : Ok [x] = Ok [PD2 (np_mean N) g (f_rows Xs) p q v w]); [|congruence]. apply He. intros v0 w0 [Ev|[]]. injection Ev as <- <-. destruct k; [exact Ht|auto]. }
      pose proof (pd_pairs_sound O N HO Hnan m Xs P b c1 g p q f1 f2 _ _ HwX Hg Hr1 Hp Hq Hpq Hx) as Hsd. inversion Hsd as [|? ? ? ? Hd _]; subst. cbn [fst snd] in Hd.
      destruct k as [norm|]; [|split; [left|intros _]; apply Hex1, I]. split; [|exact Hex1]. destruct Hd as [Hd|Hd]; [right; split; [discriminate|exact Hd]|left; exact Hd].
    - intros f p Hp. assert (Hf : In f (f_cols Xs)) by (eapply nth_error_In, Hp).
      destruct (pd_single_exact O N HO Hnan m Xs P b c2 g None c3 p f HwX Hg Hr2 Es Hf Hp) as [_ A]. rewrite <- (get_pd_single_ext O c c3 f None Esc) in A. split; [exact A|].
      destruct (reachable_shaped O N HO m Xs P b c HwX Hr) as ((Hsh & _) & HXc & _). rewrite HXc in Hsh.
      destruct (sshape_assoc O N Xs _ f Hsh) as [B _]. destruct (B Hf) as (vs & E). rewrite (grid_of O Xs HwX p f Hp) in E. eauto.
  Qed.
  Lemma get_values_holds (c : calc C V) p e : one_order c -> get_pd_pairs_values c p = Ok e -> exists e0, holds c p e0 /\ (e = e0 \/ e = (snd (fst e0), fst (fst e0), columns_of (length (snd (fst e0))) (snd e0))).
  Proof.
    intros _ H. unfold get_pd_pairs_values in H. destruct (dict_get _ _ _) as [e0|] eqn:E; [|discriminate]. apply holds_key in E. cbn [bind] in H. injection H as <-. exists e0. split; [exact E|]. destruct (String.eqb _ _); auto.
  Qed.

  (** the pairs of the table are made of different fitted features *)
  Lemma table_pairs k s a s' g Xs t r : wf_frame (a_X a) -> fit k s a = (s', Ok tt) -> m_X s' = Some Xs -> explains O N a g Xs -> m_ovo s' = Some t -> In r t ->
    In (fst (fst r)) (fitted_features a) /\ In (snd (fst r)) (fitted_features a) /\ fst (fst r) <> snd (fst r) /\ n_isnan N (snd r) = false.
  Proof.
    intros HX H HXs Hex Et Hr. destruct (fit_calc k s a s' g Xs HX H HXs Hex) as (_ & Hk & _).
    destruct (pd_tables O N R srt Hs HN H0 k s a s' H) as (t' & fi & Et' & _ & (l & HP & HF) & _). assert (t' = t) by congruence. subst t'.
    assert (Hq : In (fst r) l) by (apply (Permutation_in _ HP), in_map, Hr). destruct (Forall2_In_r _ _ _ HF _ Hq) as (p & Hp & Eq).
    destruct (Hk p Hp) as (_ & _ & Hd). pose proof (combinations2_fst_snd _ _ Hp) as [Hf1 Hf2].
    assert (Hn : n_isnan N (snd r) = false).
    { apply fit_ok in H as (X1 & rng' & c & c1 & t' & c2 & fi' & _ & _ & Eo & _ & _ & _ & Et1 & _). assert (t' = t) by congruence. subst t'.
      destruct r as [pr v]. destruct k as [norm|]; cbn [ovo_of] in Eo.
      - unfold friedman_ovo in Eo. destruct (calculate_pd_pairs _ _ _ _ _) as [d1 [u|e]]; [|discriminate]. destruct (calculate_pd_single _ _ _ _) as [d2 [u'|e]]; [|discriminate].
        destruct (mapM _ (combinations2 (fitted_features a))) as [l'|] eqn:El; [|discriminate]. cbn [bind] in Eo. injection Eo as _ <-. apply (table_no_nan N srt Hs HN l' pr v H0 Hr).
      - unfold greenwell_ovo in Eo. destruct (calculate_pd_pairs _ _ _ _ _) as [d1 [u|e]]; [|discriminate].
        destruct (mapM _ (combinations2 (fitted_features a))) as [l'|] eqn:El; [|discriminate]. cbn [bind] in Eo. injection Eo as _ <-. apply (table_no_nan N srt Hs HN l' pr v H0 Hr). }
    destruct Eq as [-> | ->]; cbn [fst snd]; auto.
  Qed.
  Lemma table_once k s a s' g Xs t : wf_frame (a_X a) -> fit k s a = (s', Ok tt) -> m_X s' = Some Xs -> explains O N a g Xs -> m_ovo s' = Some t -> one_edge_each false t.
  Proof.
    intros HX H HXs Hex Et. destruct (fit_calc k s a s' g Xs HX H HXs Hex) as (_ & Hk & _).
    destruct (pd_tables O N R srt Hs HN H0 k s a s' H) as (t' & fi & Et' & _ & (l & HP & HF) & _). assert (t' = t) by congruence. subst t'.
    assert (HL : ForallOrdPairs (fun a b => ~ same_pair false a b) l).
    { pose proof (known_NoDup _ _ Hk) as Hnd. clear -HF Hnd.
      assert (HC : ForallOrdPairs (fun a b => ~ same_pair false a b) (combinations2 (fitted_features a))).
      { revert Hnd. generalize (fitted_features a). clear. induction l as [|f fs IH]; intros Hnd; [constructor|]. inversion Hnd as [|? ? Hf Hnd']; subst. cbn [combinations2].
        assert (Hin : forall p, In p (combinations2 fs) -> fst p <> f /\ snd p <> f) by (intros p Hp; apply combinations2_fst_snd in Hp as [A B]; split; intros E; rewrite E in *; contradiction).
        assert (HA : forall gs, (forall x, In x gs -> x <> f) -> NoDup gs -> ForallOrdPairs (fun a b => ~ same_pair false a b) (map (fun y => (f, y)) gs ++ combinations2 fs)).
        { induction gs as [|x gs IHg]; intros Hg Hn; [apply IH, Hnd'|]. cbn [map app]. inversion Hn as [|? ? Hx Hn']; subst. constructor; [|apply IHg; [intros; apply Hg; right; assumption|exact Hn']].
          rewrite Forall_app, !Forall_forall. split.
          - intros p Hp. apply in_map_iff in Hp as (y & <- & Hy). unfold same_pair. cbn [fst snd]. intros [E|[_ E]]; injection E as E1; [subst; contradiction|]. apply (Hg y); [right; exact Hy|congruence].
          - intros p Hp. destruct (Hin p Hp) as [A B]. unfold same_pair. intros [E|[_ E]]; destruct p; cbn [fst snd] in *; injection E as E1 E2; subst; auto. }
        apply HA; [intros x Hx ->; contradiction|exact Hnd']. }
      revert HC. clear Hnd. induction HF as [|p q ps qs Hq HF IH]; intros HC; [constructor|]. inversion HC as [|? ? Hp HC']; subst. constructor; [|apply IH, HC'].
      rewrite Forall_forall in *. intros q' Hq' Hsp. destruct (Forall2_In_r _ _ _ HF _ Hq') as (p' & Hp' & Eq). apply (Hp p' Hp').
      apply (same_pair_trans _ q); [|apply (same_pair_trans _ q'); [exact Hsp|]]; unfold same_pair; [destruct Hq as [->| ->]|destruct Eq as [->| ->]]; cbn [fst snd]; destruct p, p'; auto. }
    assert (HM : ForallOrdPairs (fun a b => ~ same_pair false a b) (map fst t)).
    { refine (FOP_perm _ _ _ _ (Permutation_sym HP) HL). intros x y Hxy Hyx. apply Hxy, same_pair_sym, Hyx. }
    clear -HM. unfold one_edge_each. induction t as [|r t IH]; [constructor|]. cbn [map] in HM. inversion HM as [|? ? Hr Ht]; subst. constructor; [|apply IH, Ht].
    rewrite Forall_forall in *. intros y Hy. apply Hr, in_map, Hy.
  Qed.
  Lemma table_length k s a s' t : fit k s a = (s', Ok tt) -> m_ovo s' = Some t -> length t = length (combinations2 (fitted_features a)).
  Proof.
    intros H Et. destruct (pd_tables O N R srt Hs HN H0 k s a s' H) as (t' & fi & Et' & _ & (l & HP & HF) & _). assert (t' = t) by congruence. subst t'.
    apply Permutation_length in HP. rewrite map_length in HP. etransitivity; [exact HP|]. clear -HF. induction HF; cbn [length]; congruence.
  Qed.

  (** ** C60 for fitted methods: the plot of [n] panels exists exactly when there are more than [n]
      pairs, and the panels are different pairs *)
  Theorem C60_fitted k s a s' g Xs n kind : wf_frame (a_X a) -> fit k s a = (s', Ok tt) -> m_X s' = Some Xs -> explains O N a g Xs -> f_rows Xs <> [] -> 1 <= n ->
    kind = "colormesh" \/ (kind = "contour" /\ forall f p, In f (fitted_features a) -> nth_error (f_cols Xs) p = Some f -> 2 <= length (np_unique O (col_at p (f_rows Xs)))) ->
    (n < length (combinations2 (fitted_features a)) -> exists z, plot_zenplot s' n kind = Ok z /\ length (z_panels z) = n /\ all_different (map z_pair (z_panels z)))
    /\ (length (combinations2 (fitted_features a)) <= n -> plot_zenplot s' n kind = Err IndexError).
  Proof.
    intros HX H HXs Hex Hne Hn Hkind. destruct (fit_cells k s a s' g Xs HX H HXs Hex) as (c & Ec & Hone & Hcell & _).
    destruct (pd_tables O N R srt Hs HN H0 k s a s' H) as (t & fi & Et & _). rewrite <- (table_length k s a s' t H Et).
    destruct (C60_outcome N HN s' n kind t c Et Ec Hn ltac:(tauto) Hone) as [A B].
    { intros r Hr. destruct (table_pairs k s a s' g Xs t r HX H HXs Hex Et Hr) as (F1 & F2 & Hd & Hnan). split; [exact Hnan|].
      destruct (Hcell _ _ F1 F2 Hd) as (p & q & M & Hp & Hq & Hpq & HV & HM). rewrite <- surjective_pairing in HV.
      destruct (get_values_holds c _ _ Hone HV) as (e0 & He0 & Heq). exists e0. split; [exact He0|].
      assert (HwX : wf_frame Xs) by apply (fit_calc k s a s' g Xs HX H HXs Hex).
      assert (Hu : forall i f, nth_error (f_cols Xs) i = Some f -> np_unique O (col_at i (f_rows Xs)) <> []).
      { intros i f Hi E. destruct (f_rows Xs) as [|row rows] eqn:Er; [congruence|]. assert (Hrow : In row (f_rows Xs)) by (rewrite Er; left; reflexivity).
        pose proof (wf_len Xs i f row HwX Hi Hrow) as Hl. destruct (nth_error row i) as [v|] eqn:Ev; [|apply nth_error_None in Ev; lia].
        assert (Hv : In v (col_at i (row :: rows))) by (apply col_at_In; exists row; split; [left; reflexivity|exact Ev]).
        apply (proj1 (np_unique_nil O HO _)) in E. rewrite E in Hv. destruct Hv. }
      assert (HM' : concat M <> []).
      { unfold matrix_shows in HM. destruct (np_unique O (col_at p (f_rows Xs))) as [|v0 vs] eqn:Eu; [apply (Hu p _ Hp) in Eu; destruct Eu|].
        inversion HM as [|? row ? M' Hrow _]; subst. destruct (np_unique O (col_at q (f_rows Xs))) as [|w0 ws] eqn:Eu2; [apply (Hu q _ Hq) in Eu2; destruct Eu2|]. inversion Hrow; subst. discriminate. }
      assert (HT : forall m (L : list (list V)), concat (columns_of m L) <> [] -> concat L <> []).
      { intros m L HL E. destruct (concat (columns_of m L)) as [|x l] eqn:Ex; [congruence|]. assert (Hx : In x (concat (columns_of m L))) by (rewrite Ex; left; reflexivity). apply columns_of_In in Hx. rewrite E in Hx. destruct Hx. }
      split.
      - destruct Heq as [<-|Heq]; [exact HM'|]. injection Heq as _ _ EM. rewrite EM in HM'. apply (HT _ _ HM').
      - intros Hk. destruct Hkind as [->|[_ Hk2]]; [discriminate|]. pose proof (Hk2 _ p F1 Hp). pose proof (Hk2 _ q F2 Hq).
        destruct Heq as [<-|Heq]; [cbn [fst snd]; auto|]. injection Heq as E1 E2 _. rewrite <- E1, <- E2. auto. }
    split; [|exact B]. intros Hlt. destruct (A Hlt) as (z & Hz). exists z. split; [exact Hz|].
    destruct (C60_path N HN s' n kind z Hz) as (_ & _ & _ & _ & Hl & _). split; [exact Hl|].
    apply (C60_distinct N HN s' n kind z t Hz Et). apply (table_once k s a s' g Xs t HX H HXs Hex Et).
  Qed.
  (** with at most four features the default length is too long *)
  Theorem C60_default_length k s a s' g Xs : wf_frame (a_X a) -> fit k s a = (s', Ok tt) -> m_X s' = Some Xs -> explains O N a g Xs -> f_rows Xs <> [] ->
    length (fitted_features a) <= 4 -> plot_zenplot s' 7 "colormesh" = Err IndexError.
  Proof.
    intros HX H HXs Hex Hne Hl. apply (C60_fitted k s a s' g Xs 7 "colormesh" HX H HXs Hex Hne ltac:(lia) (or_introl eq_refl)).
    destruct (fitted_features a) as [|f1 [|f2 [|f3 [|f4 [|f5 fs]]]]]; cbn [length combinations2 map app] in *; lia.
  Qed.

  (** ** C77: every panel shows the function of its pair *)
  Theorem C77_panels k s a s' g Xs n kind z j P : wf_frame (a_X a) -> fit k s a = (s', Ok tt) -> m_X s' = Some Xs -> explains O N a g Xs ->
    plot_zenplot s' n kind = Ok z -> nth_error (z_panels z) j = Some P ->
    z_row P = j / 2 /\ z_col P = (j + 1) / 2 /\ z_row P < z_nrows z /\ z_col P < z_ncols z
    /\ exists p q, nth_error (f_cols Xs) p = Some (fst (z_pair P)) /\ nth_error (f_cols Xs) q = Some (snd (z_pair P)) /\ p <> q
       /\ if Nat.odd j
          then z_ys P = np_unique O (col_at p (f_rows Xs)) /\ z_xs P = np_unique O (col_at q (f_rows Xs))
               /\ matrix_shows (fun w v x => drawn N k g (f_rows Xs) p q v w x) (z_xs P) (z_ys P) (z_mesh P)
          else z_xs P = np_unique O (col_at p (f_rows Xs)) /\ z_ys P = np_unique O (col_at q (f_rows Xs))
               /\ matrix_shows (fun v w x => drawn N k g (f_rows Xs) p q v w x) (z_xs P) (z_ys P) (z_mesh P).
  Proof.
    intros HX H HXs Hex Hz HP. destruct (fit_cells k s a s' g Xs HX H HXs Hex) as (c & Ec & Hone & Hcell & _).
    destruct (zen_panels N HN s' n kind z c Hz Ec) as (_ & _ & HZ). destruct (HZ j P HP) as ((e & He & Hsh) & Hrow & Hcol & Hr1 & Hc1 & _). repeat (split; [assumption|]).
    destruct (C60_path N HN s' n kind z Hz) as (r0 & u & Eo & Hk & _ & Hw).
    assert (Hpair : exists r, In r (r0 :: u) /\ same_pair false (z_pair P) (fst r)).
    { assert (HPi : In (z_pair P) (map z_pair (z_panels z))) by (apply in_map; eapply nth_error_In; exact HP). apply walk_rows in Hw as (qs & used & rest & Eq & HPm & HF). rewrite Eq in HPi.
      destruct HPi as [<-|HPi]; [exists r0; split; left; reflexivity|]. destruct (Forall2_In_l _ _ _ HF _ HPi) as (r & Hr & Hsp). exists r. split; [right|exact Hsp].
      rewrite <- (firstn_skipn n u). apply in_or_app. left. apply (Permutation_in _ (Permutation_sym HPm)), in_or_app. left. exact Hr. }
    destruct Hpair as (r & Hr & Hsp). destruct (table_pairs k s a s' g Xs _ r HX H HXs Hex Eo Hr) as (F1 & F2 & Hd & _).
    assert (HF : In (fst (z_pair P)) (fitted_features a) /\ In (snd (z_pair P)) (fitted_features a) /\ fst (z_pair P) <> snd (z_pair P)).
    { destruct Hsp as [->|[_ ->]]; cbn [fst snd]; auto. }
    destruct HF as (G1 & G2 & Gd). destruct (Hcell _ _ G1 G2 Gd) as (p & q & M & Hp & Hq & Hpq & HV & HM). exists p, q. repeat (split; [assumption|]).
    rewrite <- surjective_pairing in HV. rewrite HV in He. injection He as <-. unfold panel_shows in Hsh. destruct (Nat.odd j); destruct Hsh as (E1 & E2 & E3); cbn [fst snd] in *; rewrite E1, E2, E3; split; [reflexivity| |reflexivity|]; (split; [reflexivity|]).
    - exact HM.
    - apply matrix_transpose in HM. exact HM.
  Qed.

  (** ** C79: labels of all panels but the last one *)
  Theorem C79_labels_partial (s : mstate C V G) n kind z j P : plot_zenplot s n kind = Ok z -> nth_error (z_panels z) j = Some P ->
    let '(xf, yf) := if Nat.odd j then (snd (z_pair P), fst (z_pair P)) else z_pair P in
    (if Nat.odd j then z_ylabel P = Some yf else z_title P = Some xf)
    /\ (S j < length (z_panels z) -> (forall l, z_title P = Some l -> l = xf) /\ (forall l, z_ylabel P = Some l -> l = yf)
         (* the missing label is on the next panel *)
         /\ forall P', nth_error (z_panels z) (S j) = Some P' -> (z_title P = Some xf /\ z_ylabel P = Some yf) \/ fst (z_pair P') = snd (z_pair P)).
  Proof.
    intros Hz HP. assert (Hc : exists c, m_calc s = Some c) by (unfold Zenplot.plot_zenplot in Hz; destruct (m_ovo s); [|discriminate]; destruct (m_calc s); [eauto|discriminate]).
    destruct Hc as (c & Ec). destruct (zen_panels N HN s n kind z c Hz Ec) as (_ & _ & HZ). destruct (HZ j P HP) as (_ & _ & _ & _ & _ & Hf & Hnext). clear HZ.
    unfold first_label, second_label in *. destruct (z_pair P) as [a b]. cbn [fst snd] in *. destruct (Nat.odd j); (split; [exact Hf|]); intros Hl;
      destruct (nth_error (z_panels z) (S j)) as [P'|] eqn:EP; [|apply nth_error_None in EP; lia| |apply nth_error_None in EP; lia];
      (split; [intros l El|split; [intros l El|intros P'' [= <-]]]); destruct (Hnext P' eq_refl) as [Hn|[Hn He]]; try congruence; auto.
  Qed.

  (** ** C78: profiles *)
  Theorem C78_single k s a s' g Xs f p kind : wf_frame (a_X a) -> fit k s a = (s', Ok tt) -> m_X s' = Some Xs -> explains O N a g Xs -> nth_error (f_cols Xs) p = Some f ->
    plot_profile s' f None kind = Ok (PLine f (np_unique O (col_at p (f_rows Xs))) (map (PD1 (np_mean N) g (f_rows Xs) p) (np_unique O (col_at p (f_rows Xs))))).
  Proof.
    intros HX H HXs Hex Hp. destruct (fit_cells k s a s' g Xs HX H HXs Hex) as (c & Ec & _ & _ & Hsg). destruct (Hsg f p Hp) as [E (vs & Ea)].
    unfold plot_profile. rewrite Ec. unfold get_pd_single, dict_get in *. rewrite Ea in *. cbn [bind fst snd] in *. injection E as ->. reflexivity.
  Qed.
  Theorem C78_pair k s a s' g Xs f1 f2 kind : wf_frame (a_X a) -> fit k s a = (s', Ok tt) -> m_X s' = Some Xs -> explains O N a g Xs ->
    In f1 (fitted_features a) -> In f2 (fitted_features a) -> f1 <> f2 ->
    kind = "colormesh" \/ (kind = "contour" /\ forall f p, f = f1 \/ f = f2 -> nth_error (f_cols Xs) p = Some f -> 2 <= length (np_unique O (col_at p (f_rows Xs)))) ->
    exists xf yf p q M, plot_profile s' f1 (Some f2) kind = Ok (PMesh xf yf (np_unique O (col_at q (f_rows Xs))) (np_unique O (col_at p (f_rows Xs))) M)
      /\ ((xf = f1 /\ yf = f2) \/ (xf = f2 /\ yf = f1)) /\ nth_error (f_cols Xs) p = Some yf /\ nth_error (f_cols Xs) q = Some xf /\ p <> q
      /\ matrix_shows (fun w v x => drawn N k g (f_rows Xs) p q v w x) (np_unique O (col_at q (f_rows Xs))) (np_unique O (col_at p (f_rows Xs))) M
      /\ plot_profile s' f2 (Some f1) kind = plot_profile s' f1 (Some f2) kind.
  Proof.
    intros HX H HXs Hex F1 F2 Hd Hkind. destruct (fit_cells k s a s' g Xs HX H HXs Hex) as (c & Ec & Hone & Hcell & _).
    destruct (fit_calc k s a s' g Xs HX H HXs Hex) as (HwX & Hk & m & P & b & _ & _ & _ & _ & c' & _ & _ & _ & _ & _ & Ec' & Hr & _). assert (c' = c) by congruence. subst c'.
    destruct (reachable_shaped O N HO m Xs P b c HwX Hr) as ((_ & Hsh & _) & HXc & _). rewrite HXc in Hsh.
    destruct (Hcell f1 f2 F1 F2 Hd) as (i1 & i2 & _ & Hp1 & Hp2 & _). assert (Hc1 : In f1 (f_cols Xs)) by (eapply nth_error_In, Hp1). assert (Hc2 : In f2 (f_cols Xs)) by (eapply nth_error_In, Hp2).
    destruct (pair_key_swap O N c Xs f1 f2 HwX Hsh Hc1 Hc2 Hd) as [Hsw Hkey].
    assert (HK : get_pair_key c (f1, f2) = (f1, f2) \/ get_pair_key c (f1, f2) = (f2, f1)) by (unfold get_pair_key; destruct (assoc _ _ _); auto).
    assert (Hgo : forall yf xf, get_pair_key c (f1, f2) = (yf, xf) -> In yf (fitted_features a) -> In xf (fitted_features a) -> yf <> xf -> (yf = f1 \/ yf = f2) -> (xf = f1 \/ xf = f2) ->
      exists p q M, plot_profile s' f1 (Some f2) kind = Ok (PMesh xf yf (np_unique O (col_at q (f_rows Xs))) (np_unique O (col_at p (f_rows Xs))) M)
        /\ nth_error (f_cols Xs) p = Some yf /\ nth_error (f_cols Xs) q = Some xf /\ p <> q
        /\ matrix_shows (fun w v x => drawn N k g (f_rows Xs) p q v w x) (np_unique O (col_at q (f_rows Xs))) (np_unique O (col_at p (f_rows Xs))) M).
    { intros yf xf Ek G1 G2 Gd Ey Ex. destruct (Hcell yf xf G1 G2 Gd) as (p & q & M & Hp & Hq & Hpq & HV & HM). exists p, q, M.
      assert (Ek' : get_pair_key c (yf, xf) = (yf, xf)).
      { rewrite <- Ek. destruct Ey as [->| ->], Ex as [->| ->]; try congruence. }
      unfold get_pd_pairs_values in HV. rewrite Ek' in HV. cbn [fst] in HV. rewrite String.eqb_refl in HV. unfold plot_profile. rewrite Ec, Ek.
      destruct (dict_get pair_eqb (yf, xf) (c_pairs c)) as [e|]; [|discriminate]. cbn [bind] in HV. injection HV as ->. cbn [bind fst snd].
      split; [|auto]. rewrite drawable_ok; [destruct Hkind as [->|[-> _]]; reflexivity|]. intros Hk'. destruct Hkind as [->|[_ Hk2]]; [discriminate|]. split; [apply (Hk2 yf p)|apply (Hk2 xf q)]; auto. }
    assert (Hsym : plot_profile s' f2 (Some f1) kind = plot_profile s' f1 (Some f2) kind) by (unfold plot_profile; rewrite Ec, Hsw; reflexivity).
    destruct HK as [HK|HK]; destruct (Hgo _ _ HK) as (p & q & M & A & B & D & E & F); auto; [exists f2, f1, p, q, M|exists f1, f2, p, q, M]; split; auto 10.
  Qed.
End Fitted.

(** ** Concrete cases *)
Definition zX : frame Z := {| f_cols := ["a"; "b"; "c"]; f_index := [0;1;2;3]%Z; f_num := ["a"; "b"; "c"];
                              f_rows := [[0;0;0];[0;1;2];[1;0;1];[1;1;3]]%Z |}.
Definition zg (r : list Z) : ext Q := match r with [x; y; z] => Fin (inject_Z (10 * (1 + x) * (1 + z) + y * (1 + z))) | _ => NaN end.
Definition zP : nat -> list (list Z) -> result (list (ext Q)) := fun _ rows => Ok (map zg rows).
Definition zg2 (r : list Z) : ext Q := match r with [x; y; z] => Fin (inject_Z (x * z)) | _ => NaN end.
Definition zP2 : nat -> list (list Z) -> result (list (ext Q)) := fun _ rows => Ok (map zg2 rows).
Example zX_wf : wf_frame zX. Proof. repeat constructor; cbn; intuition congruence. Qed.
Example zP_explains X fs ova : explains Zcell xQ (mkargs zP X fs ova None) zg X. Proof. split; [intros n rows ys E; injection E as <-; reflexivity|exact I]. Qed.
Example zP2_explains X fs ova : explains Zcell xQ (mkargs zP2 X fs ova None) zg2 X. Proof. split; [intros n rows ys E; injection E as <-; reflexivity|exact I]. Qed.
Definition zS := fst (fitQ Greenwell init0 (mkargs zP zX None false None)).
Definition zS2 := fst (fitQ (Friedman true) init0 (mkargs zP2 zX None false None)).

(* three pairs: two panels can be drawn, three cannot; the second panel leaves from the second
   feature of the first one, through a row listed the other way round *)
Example C60_example :
  snd (fitQ Greenwell init0 (mkargs zP zX None false None)) = Ok tt
  /\ option_map (map fst) (m_ovo zS) = Some [("a", "c"); ("b", "c"); ("a", "b")]
  /\ (exists z, plot_zenplot xQ zS 2 "colormesh" = Ok z /\ map z_pair (z_panels z) = [("a", "c"); ("c", "b")])
  /\ plot_zenplot xQ zS 3 "colormesh" = Err IndexError.
Proof. split; [vm_compute; reflexivity|]. split; [vm_compute; reflexivity|]. split; [eexists; split; vm_compute; reflexivity|vm_compute; reflexivity]. Qed.

Example C61_example : exists z, plot_zenplot xQ zS 2 "contour" = Ok z /\ (z_min z, z_max z) = (Fin (1 # 1), Fin (82 # 1))
  /\ (forall P x, In P (z_panels z) -> In x (concat (z_mesh P)) -> n_isnan xQ x = false).
Proof.
  eexists. split; [vm_compute; reflexivity|]. split; [vm_compute; reflexivity|]. intros P x HP Hx. cbn [z_panels] in HP.
  destruct HP as [<-|[<-|[]]]; cbn in Hx; repeat (destruct Hx as [<-|Hx]; [reflexivity|]); destruct Hx.
Qed.

(* the second panel of this plot: c along y, b along x *)
Example C77_example : exists z P, wf_frame (a_X (mkargs zP zX None false None)) /\ explains Zcell xQ (mkargs zP zX None false None) zg zX
  /\ fitQ Greenwell init0 (mkargs zP zX None false None) = (zS, Ok tt) /\ m_X zS = Some zX /\ plot_zenplot xQ zS 2 "colormesh" = Ok z /\ nth_error (z_panels z) 1 = Some P
  /\ z_pair P = ("c", "b") /\ (z_row P, z_col P) = (0, 1) /\ z_xs P = [0; 1]%Z /\ nth_error (z_mesh P) 3 = Some [Fin (60 # 1); Fin (64 # 1)].
Proof.
  do 2 eexists. split; [exact zX_wf|]. split; [apply zP_explains|]. split; [vm_compute; reflexivity|]. split; [vm_compute; reflexivity|]. split; [vm_compute; reflexivity|].
  split; [reflexivity|]. split; [reflexivity|]. split; [reflexivity|]. split; reflexivity.
Qed.

(** C84: undefined cells of one pair hide the values seen before *)
Theorem C84_friedman_refuted :
  exists (a : fargs Z (ext Q)) g s' z P x, wf_frame (a_X a) /\ explains Zcell xQ a g (a_X a) /\ fitQ (Friedman true) init0 a = (s', Ok tt) /\ m_X s' = Some (a_X a)
    /\ plot_zenplot xQ s' 1 "colormesh" = Ok z /\ In P (z_panels z) /\ In x (concat (z_mesh P)) /\ n_isnan xQ x = false /\ n_ltb xQ (z_max z) x = true.
Proof.
  exists (mkargs zP2 zX None false None), zg2, zS2. eexists. eexists. exists (Fin (3 # 1)).
  split; [exact zX_wf|]. split; [apply zP2_explains|]. split; [vm_compute; reflexivity|]. split; [vm_compute; reflexivity|]. split; [vm_compute; reflexivity|].
  split; [left; reflexivity|]. split; [vm_compute; tauto|]. split; reflexivity.
Qed.

(** C81: the lower end is 1 although every value of the candidates is above 10 *)
Theorem C81_tight_refuted :
  exists (a : fargs Z (ext Q)) g s' z c t, wf_frame (a_X a) /\ explains Zcell xQ a g (a_X a) /\ fitQ Greenwell init0 a = (s', Ok tt) /\ m_X s' = Some (a_X a)
    /\ plot_zenplot xQ s' 2 "colormesh" = Ok z /\ m_calc s' = Some c /\ m_ovo s' = Some t /\ z_min z = Fin (1 # 1)
    /\ (exists r e x, In r t /\ holds c (fst r) e /\ In x (concat (snd e)))
    /\ forall r e x, In r t -> holds c (fst r) e -> In x (concat (snd e)) -> n_ltb xQ (Fin (10 # 1)) x = true.
Proof.
  exists (mkargs zP zX None false None), zg, zS. do 3 eexists.
  split; [exact zX_wf|]. split; [apply zP_explains|]. split; [vm_compute; reflexivity|]. split; [vm_compute; reflexivity|]. split; [vm_compute; reflexivity|].
  split; [vm_compute; reflexivity|]. split; [vm_compute; reflexivity|]. split; [reflexivity|]. split.
  - eexists _, _, (Fin (21 # 2)). split; [left; reflexivity|]. split; [left; vm_compute; reflexivity|]. vm_compute. tauto.
  - intros r e x Hr He Hx. apply holds_key in He. destruct Hr as [<-|[<-|[<-|[]]]]; vm_compute in He; match type of He with Ok ?y = Ok _ => assert (Ee : e = y) by congruence; clear He; subst e end; vm_compute in Hx;
      repeat (destruct Hx as [<-|Hx]; [reflexivity|]); destruct Hx.
Qed.

(** C79: the x axis of the last panel carries feature b and the label a *)
Theorem C79_last_label_refuted :
  exists (a : fargs Z (ext Q)) g s' z P, wf_frame (a_X a) /\ explains Zcell xQ a g (a_X a) /\ fitQ Greenwell init0 a = (s', Ok tt) /\ m_X s' = Some (a_X a)
    /\ plot_zenplot xQ s' 2 "colormesh" = Ok z /\ nth_error (z_panels z) 1 = Some P /\ z_pair P = ("c", "b") /\ z_ylabel P = Some "c" /\ z_title P = Some "a".
Proof.
  exists (mkargs zP zX None false None), zg, zS. do 2 eexists.
  split; [exact zX_wf|]. split; [apply zP_explains|]. split; [vm_compute; reflexivity|]. split; [vm_compute; reflexivity|]. split; [vm_compute; reflexivity|].
  split; [reflexivity|]. repeat (split; [reflexivity|]). reflexivity.
Qed.

(** C78: after Friedman's method the profile of a pair has undefined cells *)
Theorem C78_friedman_refuted :
  exists (a : fargs Z (ext Q)) g s' xl yl xs ys M v w, wf_frame (a_X a) /\ explains Zcell xQ a g (a_X a) /\ fitQ (Friedman true) init0 a = (s', Ok tt) /\ m_X s' = Some (a_X a)
    /\ plot_profile s' "a" (Some "c") "colormesh" = Ok (PMesh xl yl xs ys M)
    /\ nth_error ys 1 = Some v /\ nth_error xs 0 = Some w /\ (exists row, nth_error M 1 = Some row /\ nth_error row 0 = Some NaN)
    /\ n_isnan xQ (PD2 (np_mean xQ) g (f_rows (a_X a)) 0 2 v w) = false.
Proof.
  exists (mkargs zP2 zX None false None), zg2, zS2. do 7 eexists.
  split; [exact zX_wf|]. split; [apply zP2_explains|]. split; [vm_compute; reflexivity|]. split; [vm_compute; reflexivity|]. split; [vm_compute; reflexivity|].
  split; [reflexivity|]. split; [reflexivity|]. split; [eexists; split; reflexivity|]. vm_compute. reflexivity.
Qed.
(** and a pair that was not fitted is drawn without any value *)
Theorem C78_outside_refuted :
  exists (a : fargs Z (ext Q)) g s' xl yl xs ys M, wf_frame (a_X a) /\ explains Zcell xQ a g (a_X a) /\ fitQ Greenwell init0 a = (s', Ok tt) /\ m_X s' = Some (a_X a)
    /\ plot_profile s' "a" (Some "c") "colormesh" = Ok (PMesh xl yl xs ys M) /\ length M = 2 /\ forall row x, In row M -> In x row -> x = NaN.
Proof.
  exists (mkargs zP zX (Some ["a"; "b"]) false None), zg, (fst (fitQ Greenwell init0 (mkargs zP zX (Some ["a"; "b"]) false None))). do 5 eexists.
  split; [exact zX_wf|]. split; [apply zP_explains|]. split; [vm_compute; reflexivity|]. split; [vm_compute; reflexivity|]. split; [vm_compute; reflexivity|].
  split; [reflexivity|]. intros row x Hr Hx. repeat (destruct Hr as [<-|Hr]; [repeat (destruct Hx as [<-|Hx]; [reflexivity|]); destruct Hx|]). destruct Hr.
Qed.
Example C78_example :
  plot_profile zS "c" (Some "b") "contour" = plot_profile zS "b" (Some "c") "contour"
  /\ plot_profile zS "c" (Some "b") "contour" = Ok (PMesh "c" "b" [0; 1; 2; 3]%Z [0; 1]%Z [[Fin (15 # 1); Fin (30 # 1); Fin (45 # 1); Fin (60 # 1)]; [Fin (16 # 1); Fin (32 # 1); Fin (48 # 1); Fin (64 # 1)]])
  /\ plot_profile zS "b" None "colormesh" = Ok (PLine "b" [0; 1]%Z [Fin (40 # 1); Fin (85 # 2)]).
Proof. split; [vm_compute; reflexivity|]. split; vm_compute; reflexivity. Qed.

(** ** C80: before fit *)
Theorem C80_before_fit_partial {C V G} (N : num_ops V) (g0 : G) f1 f2 kind n :
  plot_profile (m_init g0 : mstate C V G) f1 f2 kind = Err AttributeError /\ plot_zenplot N (m_init g0 : mstate C V G) n kind = Err AttributeError.
Proof. split; reflexivity. Qed.
Theorem C80_before_fit_refuted :
  plot_profile (init0 : mstate Z (ext Q) nat) "a" None "colormesh" <> Err MethodNotFitted /\ plot_zenplot xQ (init0 : mstate Z (ext Q) nat) 7 "colormesh" <> Err MethodNotFitted.
Proof. split; discriminate. Qed.

Print Assumptions C60_fitted.
Print Assumptions C77_panels.
Print Assumptions C79_labels_partial.
Print Assumptions C78_single.
Print Assumptions C78_pair.
Print Assumptions C84_friedman_refuted.
Print Assumptions C81_tight_refuted.
Print Assumptions C79_last_label_refuted.
Print Assumptions C78_friedman_refuted.
Print Assumptions C78_outside_refuted.
Print Assumptions C80_before_fit_partial.
Print Assumptions C80_before_fit_refuted.

Print Assumptions C60_default_length.
