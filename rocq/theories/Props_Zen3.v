(** C84: the colour range of a zen plot of a fitted method. *)
From Verif Require Import Py Num NumR Sorting Frame Rng PdCalc PdSpec PdFacts PdProofs PdTheorems PdMethods MethodSpec
  PdMethodFacts PdMethodRun PdMethodReal Zenplot Props_Pd Props_Methods Props_Methods2 Props_Visual3 Props_Zen Props_Zen2.
From Coq Require Import QArith Reals.
Open Scope string_scope.
Open Scope nat_scope.
Open Scope list_scope.

Section Zen3.
  Context {C V G : Type} (O : cell_ops C) (N : num_ops V) (HO : cell_ok O) (HN : num_ord_ok N) (H0 : n_isnan N (n_ofZ N 0) = false) (H1 : n_isnan N (n_ofZ N 1) = false)
          (R : rng_ops G) (HR : rng_ok R) (srt : sorter) (Hs : sorter_ok srt).
  Notation fit := (PdMethods.fit O N R srt).

  Lemma matrix_In {A B} (Q : A -> B -> V -> Prop) xs ys M x : matrix_shows Q xs ys M -> In x (concat M) -> exists a b, In a xs /\ In b ys /\ Q a b x.
  Proof.
    intros H. induction H as [|y row ys M Hr H IH]; cbn [concat]; [intros []|]. rewrite in_app_iff. intros [Hx|Hx].
    - clear -Hr Hx. induction Hr as [|a v xs row Hv Hr IH]; [destruct Hx|]. destruct Hx as [->|Hx]; [exists a, y; cbn; auto|]. destruct (IH Hx) as (a' & b & Ha & Hb & HQ). exists a', b. cbn in *. auto.
    - destruct (IH Hx) as (a & b & Ha & Hb & HQ). exists a, b. cbn. auto.
  Qed.

  (** after Greenwell's method with defined predictions every value that is drawn lies in the
      range, and so does every value of the other candidates *)
  Theorem C84_greenwell_partial s a s' g Xs k kind z c t : wf_frame (a_X a) -> fit Greenwell s a = (s', Ok tt) -> m_X s' = Some Xs -> explains O N a g Xs ->
    (forall p q v w, p <> q -> In v (col_at p (f_rows Xs)) -> In w (col_at q (f_rows Xs)) -> n_isnan N (PD2 (np_mean N) g (f_rows Xs) p q v w) = false) ->
    plot_zenplot N s' k kind = Ok z -> m_calc s' = Some c -> m_ovo s' = Some t ->
    (forall r e x, In r (firstn (k + 1) t) -> holds c (fst r) e -> In x (concat (snd e)) -> within N (z_min z) (z_max z) x)
    /\ (forall P x, In P (z_panels z) -> In x (concat (z_mesh P)) -> within N (z_min z) (z_max z) x).
  Proof.
    intros HX H HXs Hex Hg Hz Ec Et. destruct (fit_cells O N HO HN R HR srt Greenwell s a s' g Xs HX H HXs Hex) as (c' & Ec' & Hone & Hcell & _). assert (c' = c) by congruence. subst c'.
    apply (C61_range N HN s' k kind z c t Hz Ec Et Hone H0 H1). intros r e x Hr He Hx.
    assert (Hrt : In r t) by (rewrite <- (firstn_skipn (k + 1) t); apply in_or_app; left; exact Hr).
    destruct (table_pairs O N HO HN H0 R HR srt Hs Greenwell s a s' g Xs t r HX H HXs Hex Et Hrt) as (F1 & F2 & Hne & _). destruct r as [[f1 f2] v]. cbn [fst snd] in *.
    assert (Hkey : forall u w, In u (fitted_features a) -> In w (fitted_features a) -> u <> w -> assoc pair_eqb (u, w) (c_pairs c) = Some e -> n_isnan N x = false).
    { intros u w Fu Fw Huw E. destruct (Hcell u w Fu Fw Huw) as (p & q & M & _ & _ & Hpq & EV & HM). unfold get_pd_pairs_values, get_pair_key in EV. rewrite E in EV.
      unfold dict_get in EV. rewrite E in EV. cbn [bind fst] in EV. rewrite String.eqb_refl in EV. injection EV as ->. cbn [snd] in Hx.
      destruct (matrix_In _ _ _ _ _ HM Hx) as (wv & vv & Hw & Hv & [[->|[D _]] _]); [|congruence]. apply (np_unique_sub O HO) in Hw. apply (np_unique_sub O HO) in Hv. apply Hg; assumption. }
    destruct He as [E|[_ E]]; cbn [fst snd] in E; [apply (Hkey f1 f2)|apply (Hkey f2 f1)]; auto.
  Qed.
End Zen3.

(** the fit of C60_example: three features, two panels *)
Example C84_example : exists z c t, wf_frame (a_X (mkargs zP zX None false None)) /\ explains Zcell xQ (mkargs zP zX None false None) zg zX
  /\ fitQ Greenwell init0 (mkargs zP zX None false None) = (zS, Ok tt) /\ m_X zS = Some zX /\ plot_zenplot xQ zS 2 "colormesh" = Ok z /\ m_calc zS = Some c /\ m_ovo zS = Some t
  /\ length (z_panels z) = 2
  /\ (forall p q v w, p <> q -> In v (col_at p (f_rows zX)) -> In w (col_at q (f_rows zX)) -> n_isnan xQ (PD2 (np_mean xQ) zg (f_rows zX) p q v w) = false).
Proof.
  do 3 eexists. split; [exact zX_wf|]. split; [apply zP_explains|]. split; [vm_compute; reflexivity|]. split; [vm_compute; reflexivity|]. split; [vm_compute; reflexivity|].
  split; [vm_compute; reflexivity|]. split; [vm_compute; reflexivity|]. split; [reflexivity|]. intros p q v w _ Hv Hw. unfold PD2.
  assert (L : forall p v, In v (col_at p (f_rows zX)) -> p < 3).
  { intros p' v' H. apply col_at_In in H as (r & Hr & H). assert (length r = 3) by (cbn in Hr; intuition (subst; reflexivity)). assert (p' < length r) by (apply nth_error_Some; congruence). lia. }
  apply L in Hv. apply L in Hw.
  assert (H : forall r, length r = 3 -> exists y, zg (with_value q w (with_value p v r)) = Fin y).
  { intros r Hr. assert (E1 : length (with_value p v r) = 3) by (rewrite with_value_length; lia). assert (E2 : length (with_value q w (with_value p v r)) = 3) by (rewrite with_value_length; lia). destruct (with_value q w (with_value p v r)) as [|x1 [|x2 [|x3 [|]]]]; try discriminate. eexists. reflexivity. }
  cbn [map f_rows zX]. repeat match goal with |- context [zg (with_value q w (with_value p v ?r))] => let y := fresh in let E := fresh in destruct (H r eq_refl) as (y & E); rewrite E; clear E end.
  reflexivity.
Qed.
Print Assumptions C84_greenwell_partial.
