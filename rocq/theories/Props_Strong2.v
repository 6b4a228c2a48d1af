(** Further exact statements: C50, C54, C78, C89 and the bound C96 on the additivity index. *)
From Verif Require Import Py Num NumR Float FloatRound Sorting Frame Rng PdCalc PdSpec MethodSpec PdFacts PdProofs PdTheorems PdErrors PdApi PdMethods PdMethodFacts PdMethodRun
  CondDepth SplitScore SplitFacts Comparator Additivity Zenplot ZenFacts Props_Pd Props_Methods Props_Methods2 Props_Split Props_Split2 Props_Compare Props_Standalone Props_Additivity Props_Float Props_Zen Props_Zen2.
From Coq Require Import ZArith QArith SpecFloat.
Open Scope string_scope.
Open Scope nat_scope.
Open Scope list_scope.
Notation pair_eqb := Py.pair_eqb.
Notation assoc := Py.assoc.

(** ** C96: in double arithmetic the additivity index is never above 1 *)
Section Bound.
  Context {C G : Type} (O : cell_ops C) (R : rng_ops G) (sum : list F -> F) (Hsum : forall l, added l (sum l)).
  Notation N := (fl64 sum).

  Lemma squares_nonneg l : fge0 (sum (map (sqr N) l)).
  Proof. apply (added_nonneg _ _ (Hsum _)). apply Forall_forall. intros x Hx. apply in_map_iff in Hx as (y & <- & _). apply sq_nonneg. Qed.
  Lemma series_squares_nonneg l : fge0 (series_sum N (map (sqr N) l)).
  Proof. apply (added_nonneg _ _ (Hsum _)). apply Forall_forall. intros x Hx. apply filter_In in Hx as [Hx _]. apply in_map_iff in Hx as (y & <- & _). apply sq_nonneg. Qed.

  (** whatever the model, the data, the sample and the calculator handed in *)
  Theorem C96_at_most_one s a s' v : add_fit O N R s a = (s', Ok v) -> SFltb f_one v = false /\ ad_index s' = Some v.
  Proof.
    unfold add_fit. intros H. destruct (sample_if_not_none _ _ _ _) as [[Xs rng']|e]; [|discriminate]. destruct (pick_calc _ _ _ _ _ _ _) as [c|e]; [|discriminate].
    destruct (calculate_pd_single _ _ _ _) as [c1 [u|e]]; [|discriminate]. destruct (callable _ _ _) as [preds|e]; [|discriminate].
    destruct (mapM _ _) as [pds|e]; cbn [bind] in H; [|discriminate]. destruct (length preds =? length (f_rows Xs)); [|discriminate].
    unfold additivity_of in H. injection H as <- <-. split; [|reflexivity].
    apply fsub_one_le, fdiv_nonneg; [apply squares_nonneg|apply series_squares_nonneg].
  Qed.
End Bound.

(** a model with an interaction: the index is a number strictly between 0 and 1 *)
Definition flI : nat -> list (list Z) -> result (list F) := fun _ rows => Ok (map (fun r => f_ofZ (nth 0 r 0 + nth 1 r 0 + nth 0 r 0 * nth 1 r 0)%Z) rows).
Definition addI : aargs Z F :=
  {| aa_model := {| md_id := 0; md_proba1 := None; md_predict := Some flI |}; aa_X := {| f_cols := ["a"; "b"]; f_index := [0;1;2;3]%Z; f_num := ["a"; "b"]; f_rows := [[0;0];[0;1];[1;0];[1;1]]%Z |};
     aa_n := None; aa_predict := None; aa_batch := 100; aa_calc := None |}.
Example C96_example : exists s' v, add_fit Zcell (fl64 seq_sum) rotR addS addI = (s', Ok v) /\ SFltb f_zero v = true /\ SFltb v f_one = true.
Proof.
  eexists _, _. split; [rewrite (surjective_pairing (add_fit Zcell (fl64 seq_sum) rotR addS addI)) at 1; f_equal; vm_compute; reflexivity|]. vm_compute. auto.
Qed.

(** ** C89: trees handed in decide alone *)
Section Given.
  Context {V : Type} (N : num_ops V) (srt : sorter).
  (** whichever model or handler is passed beside them, the trees handed in are used as if they
      were those of the handler *)
  Theorem C89_given_trees_partial arg h fs metric rows : h_trees h = rows ->
    importance_call N srt arg fs metric (Some rows) = importance_call N srt (Handler h) fs metric None.
  Proof. intros <-. reflexivity. Qed.
End Given.
Example C89_given_example : exists part, importance_call xQ isort (Handler {| h_package := Xgboost; h_trees := [] |}) (Some ["a"]) (Some "sum_gain") (Some (h_trees ex_h)) = Ok part /\ part = [("a", q 7)].
Proof. eexists. split; vm_compute; reflexivity. Qed.

(** ** C50, C54: other correlation methods, and the labels of the summary *)
Section Compared.
  Context {V : Type} (N : num_ops V).
  Theorem C50_unknown_method (m1 m2 : mview V) t1 t2 c : mv_compare m1 = Ok t1 -> mv_compare m2 = Ok t2 -> t1 <> [] -> t2 <> [] -> ~ In c ["pearson"; "kendall"; "spearman"] ->
    correlation N m1 m2 c = Err ValueError.
  Proof.
    intros E1 E2 H1 H2 Hc. unfold correlation, encoded. rewrite E1, E2. cbn [bind]. destruct t1; [congruence|]. destruct t2; [congruence|]. cbn [bind].
    destruct (String.eqb_spec c "pearson") as [->|_]; [cbn in Hc; tauto|]. destruct (String.eqb_spec c "kendall") as [->|_]; [cbn in Hc; tauto|].
    destruct (String.eqb_spec c "spearman") as [->|_]; [cbn in Hc; tauto|]. reflexivity.
  Qed.
  Theorem C54_summary_labels df (m1 m2 : mview V) t1 df' p : mv_compare m1 = Ok t1 -> summary N df m1 m2 = (df', Ok p) ->
    map fst (cp_labels p) = map (fun r => String.append (fst (fst r)) (String.append "-" (snd (fst r)))) (firstn 3 t1)
    /\ map snd (cp_labels p) = firstn 3 (cp_points p) /\ length (cp_points p) = length t1.
  Proof.
    intros E1 H. unfold summary in H. rewrite E1 in H. destruct (mv_compare m2) as [t2|] eqn:E2; [|discriminate]. destruct (correlations N m1 m2) as [c|]; [|discriminate]. injection H as _ H.
    assert (H1 : t1 <> []) by (intros ->; unfold comparison_plot in H; rewrite E1 in H; discriminate).
    assert (H2 : t2 <> []) by (intros ->; unfold comparison_plot in H; rewrite E1, E2 in H; cbn [bind] in H; destruct t1; discriminate).
    pose proof (C54_points N (Some c) m1 m2 t1 t2 3 E1 E2 H1 H2 true) as Hp. rewrite H in Hp. destruct Hp as (Hf & Hs & Hl & _).
    split; [exact Hl|]. split; [exact Hs|]. clear -Hf. induction Hf; cbn; congruence.
  Qed.
End Compared.

(** ** C78: what is refused *)
Section Profiles.
  Context {C V G : Type} (O : cell_ops C) (N : num_ops V) (HO : cell_ok O) (HN : num_ord_ok N) (R : rng_ops G) (HR : rng_ok R) (srt : sorter).
  Notation fit := (PdMethods.fit O N R srt).

  Lemma fitted_pairs k s a s' g Xs : wf_frame (a_X a) -> fit k s a = (s', Ok tt) -> m_X s' = Some Xs -> explains O N a g Xs ->
    wf_frame Xs /\ exists c, m_calc s' = Some c /\ psh O (c_pairs c) = pshape O N Xs /\ ssh O (c_single c) = sshape O N Xs.
  Proof.
    intros HX H HXs Hex. destruct (fit_calc O N HO HN R HR srt k s a s' g Xs HX H HXs Hex) as (HwX & _ & m & P & b & _ & _ & _ & _ & c & _ & _ & _ & _ & _ & Ec & Hr & _).
    split; [exact HwX|]. exists c. split; [exact Ec|]. destruct (reachable_shaped O N HO m Xs P b c HwX Hr) as ((Hss & Hsh & _) & HXc & _). rewrite HXc in Hsh, Hss. auto.
  Qed.

  (** a pair of two different columns: the outcome depends on the kind of the plot and the number
      of values only; any other pair is unknown *)
  Theorem C78_refused k s a s' g Xs f1 f2 kind : wf_frame (a_X a) -> fit k s a = (s', Ok tt) -> m_X s' = Some Xs -> explains O N a g Xs ->
    (~ In f1 (f_cols Xs) -> plot_profile s' f1 None kind = Err KeyError)
    /\ (~ In f1 (f_cols Xs) \/ ~ In f2 (f_cols Xs) \/ f1 = f2 -> plot_profile s' f1 (Some f2) kind = Err KeyError)
    /\ (forall p q, nth_error (f_cols Xs) p = Some f1 -> nth_error (f_cols Xs) q = Some f2 -> f1 <> f2 ->
         (kind = "contour" -> length (np_unique O (col_at p (f_rows Xs))) < 2 \/ length (np_unique O (col_at q (f_rows Xs))) < 2 -> plot_profile s' f1 (Some f2) kind = Err TypeError)
         /\ (kind <> "contour" -> kind <> "colormesh" -> plot_profile s' f1 (Some f2) kind = Err UnboundLocalError)
         /\ (kind = "colormesh" \/ (kind = "contour" /\ 2 <= length (np_unique O (col_at p (f_rows Xs))) /\ 2 <= length (np_unique O (col_at q (f_rows Xs)))) ->
             exists m, plot_profile s' f1 (Some f2) kind = Ok m)).
  Proof.
    intros HX H HXs Hex. destruct (fitted_pairs k s a s' g Xs HX H HXs Hex) as (HwX & c & Ec & Hsh & Hss). unfold plot_profile. rewrite Ec. split; [|split].
    - intros Hb. unfold dict_get. destruct (assoc String.eqb f1 (c_single c)) as [e|] eqn:Ea; [|reflexivity].
      destruct (sshape_assoc O N Xs _ f1 Hss) as [_ A]. destruct (A _ Ea). contradiction.
    - intros Hbad. unfold dict_get. destruct (assoc pair_eqb (get_pair_key c (f1, f2)) (c_pairs c)) as [e|] eqn:Ea; [|reflexivity]. exfalso.
      destruct (pshape_assoc O N Xs _ (get_pair_key c (f1, f2)) Hsh) as [_ A]. destruct (A _ Ea) as (Hi & _).
      assert (Hk : get_pair_key c (f1, f2) = (f1, f2) \/ get_pair_key c (f1, f2) = (f2, f1)).
      { clear. unfold get_pair_key. destruct (assoc pair_eqb (f1, f2) (c_pairs c)); [left|right]; reflexivity. }
      destruct Hk as [Hk|Hk]; rewrite Hk in Hi; pose proof (combinations2_irrefl _ _ _ (proj1 HwX) Hi) as Hd; apply combinations2_In in Hi as [I1 I2]; cbn [fst snd] in *;
        destruct Hbad as [Hb|[Hb|Hb]]; solve [contradiction|congruence].
    - intros p q Hp Hq Hd. pose proof (nth_error_In _ _ Hp) as I1. pose proof (nth_error_In _ _ Hq) as I2.
      destruct (pair_key_swap O N c Xs f1 f2 HwX Hsh I1 I2 Hd) as [_ Hkey].
      destruct (pshape_assoc O N Xs _ (get_pair_key c (f1, f2)) Hsh) as [A B]. destruct (A Hkey) as (M & Ea). unfold dict_get. rewrite Ea. cbn [bind fst snd].
      set (n1 := length (np_unique O (col_at p (f_rows Xs)))). set (n2 := length (np_unique O (col_at q (f_rows Xs)))).
      assert (Hl : let k0 := get_pair_key c (f1, f2) in (length (grid O Xs (fst k0)) = n1 /\ length (grid O Xs (snd k0)) = n2) \/ (length (grid O Xs (fst k0)) = n2 /\ length (grid O Xs (snd k0)) = n1)).
      { unfold get_pair_key. destruct (assoc pair_eqb (f1, f2) (c_pairs c)); cbn [fst snd]; rewrite (grid_of O Xs HwX p f1 Hp), (grid_of O Xs HwX q f2 Hq); auto. }
      cbn zeta in Hl. set (k0 := get_pair_key c (f1, f2)) in *. unfold drawable, known_kind.
      split; [|split].
      + intros -> Hs. cbn [String.eqb Ascii.eqb Bool.eqb andb orb]. assert (Hb : (2 <=? length (grid O Xs (fst k0))) && (2 <=? length (grid O Xs (snd k0))) = false).
        { apply andb_false_iff. rewrite !Nat.leb_gt. fold n1 n2 in Hs. lia. }
        rewrite Hb. reflexivity.
      + intros H1 H2. apply String.eqb_neq in H1, H2. rewrite H1, H2. reflexivity.
      + intros [->|(-> & L1 & L2)]; cbn [String.eqb Ascii.eqb Bool.eqb andb orb bind]; [eauto|]. fold n1 in L1. fold n2 in L2.
        assert (Hb : (2 <=? length (grid O Xs (fst k0))) && (2 <=? length (grid O Xs (snd k0))) = true).
        { apply andb_true_iff. rewrite !Nat.leb_le. lia. }
        rewrite Hb. cbn [negb bind]. eauto.
  Qed.
End Profiles.
Example C78_refused_example : plot_profile zS "a" (Some "zz") "contour" = Err KeyError /\ plot_profile zS "a" (Some "b") "surface" = Err UnboundLocalError
  /\ (exists m, plot_profile zS "a" (Some "b") "contour" = Ok m)
  /\ (let X1 := {| f_cols := ["a"; "b"]; f_index := [0;1]%Z; f_num := ["a"; "b"]; f_rows := [[0;5];[1;5]]%Z |} in
      let s1 := fst (fitQ (Friedman true) init0 (mkargs zP X1 None false None)) in
      snd (fitQ (Friedman true) init0 (mkargs zP X1 None false None)) = Ok tt /\ plot_profile s1 "b" (Some "a") "contour" = Err TypeError
      /\ exists m, plot_profile s1 "b" (Some "a") "colormesh" = Ok m).
Proof. vm_compute. repeat split; eexists; reflexivity. Qed.

Print Assumptions C96_at_most_one.
Print Assumptions C89_given_trees_partial.
Print Assumptions C50_unknown_method.
Print Assumptions C54_summary_labels.
Print Assumptions C78_refused.
