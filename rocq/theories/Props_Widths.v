(** C102: the widths of the edges of the interaction graph in double arithmetic. *)
From Verif Require Import Py Num NumR Float FloatRound FloatMono FloatOps Sorting Frame CondDepth Visual VisualFacts Props_Visual4.
From Coq Require Import ZArith SpecFloat.
Open Scope string_scope.
Open Scope nat_scope.
Open Scope list_scope.

(** ** Specification *)
(** [z] is one of the values of the table *)
Definition entry {V} (t : list (string * string * V)) (z : V) : Prop := exists p, In (p, z) t.
(** the value is counted: not below (above) the threshold *)
Definition counts (asc : bool) (threshold z : F) : bool := negb (if asc then SFltb threshold z else SFltb z threshold).
Definition counted (asc : bool) (threshold z : F) : F := if counts asc threshold z then z else f_zero.

Section Widths.
  Context (sum : list F -> F) (srt : sorter).
  Notation N := (fl64 sum).

  Lemma ltb_fle x y : f_isnan x = false -> f_isnan y = false -> SFltb x y = false -> fle y x.
  Proof. intros Hx Hy H. repeat split; assumption. Qed.
  Lemma ltb_fle' x y : f_isnan x = false -> f_isnan y = false -> SFltb x y = true -> fle x y.
  Proof.
    intros Hx Hy H. destruct (fle_total x y Hx Hy) as [L|L]; [exact L|]. destruct L as (_ & _ & L). congruence.
  Qed.

  Lemma fold_max l x : Forall (fun y => f_isnan y = false) (x :: l) ->
    In (fold_left (vmax2 N) l x) (x :: l) /\ forall y, In y (x :: l) -> fle y (fold_left (vmax2 N) l x).
  Proof.
    revert x. induction l as [|z l IH]; intros x H; inversion H as [|? ? Hx Hl]; subst; cbn [fold_left].
    - split; [left; reflexivity|]. intros y [<-|[]]. apply fle_refl, Hx.
    - inversion Hl as [|? ? Hz Hl']; subst. unfold vmax2 at 2 4. cbn [n_isnan n_ltb fl64]. rewrite Hx, Hz. destruct (SFltb x z) eqn:E.
      + destruct (IH z) as [A B]; [constructor; assumption|]. split; [right; exact A|]. intros y [<-|Hy]; [|apply B, Hy]. eapply fle_trans; [apply ltb_fle'; eassumption|apply B; left; reflexivity].
      + destruct (IH x) as [A B]; [constructor; assumption|]. split; [destruct A as [A|A]; [left; exact A|right; right; exact A]|].
        intros y [<-|[<-|Hy]]; [apply B; left; reflexivity| |apply B; right; exact Hy]. eapply fle_trans; [apply (ltb_fle x z); eassumption|apply B; left; reflexivity].
  Qed.
  Lemma fold_min l x : Forall (fun y => f_isnan y = false) (x :: l) ->
    In (fold_left (vmin2 N) l x) (x :: l) /\ forall y, In y (x :: l) -> fle (fold_left (vmin2 N) l x) y.
  Proof.
    revert x. induction l as [|z l IH]; intros x H; inversion H as [|? ? Hx Hl]; subst; cbn [fold_left].
    - split; [left; reflexivity|]. intros y [<-|[]]. apply fle_refl, Hx.
    - inversion Hl as [|? ? Hz Hl']; subst. unfold vmin2 at 2 4. cbn [n_isnan n_ltb fl64]. rewrite Hx, Hz. destruct (SFltb z x) eqn:E.
      + destruct (IH z) as [A B]; [constructor; assumption|]. split; [right; exact A|]. intros y [<-|Hy]; [|apply B, Hy]. eapply fle_trans; [apply B; left; reflexivity|apply ltb_fle'; assumption].
      + destruct (IH x) as [A B]; [constructor; assumption|]. split; [destruct A as [A|A]; [left; exact A|right; right; exact A]|].
        intros y [<-|[<-|Hy]]; [apply B; left; reflexivity| |apply B; right; exact Hy]. eapply fle_trans; [apply B; left; reflexivity|apply (ltb_fle z x); assumption].
  Qed.
  Lemma extremes l x : In x l -> f_isnan x = false ->
    (In (series_max N l) l /\ f_isnan (series_max N l) = false /\ forall y, In y l -> f_isnan y = false -> fle y (series_max N l))
    /\ (In (series_min N l) l /\ f_isnan (series_min N l) = false /\ forall y, In y l -> f_isnan y = false -> fle (series_min N l) y).
  Proof.
    intros Hin Hx. unfold series_max, series_min. cbn [n_isnan fl64].
    assert (Hf : forall y, In y (filter (fun x => negb (f_isnan x)) l) <-> In y l /\ f_isnan y = false) by (intros y; rewrite filter_In, negb_true_iff; tauto).
    destruct (filter (fun x => negb (f_isnan x)) l) as [|z k]; [exfalso; apply (proj2 (Hf x)); auto|].
    assert (Hall : Forall (fun y => f_isnan y = false) (z :: k)) by (apply Forall_forall; intros y Hy; apply Hf, Hy).
    destruct (fold_max k z Hall) as [A1 A2]. destruct (fold_min k z Hall) as [B1 B2].
    split; (split; [apply Hf; assumption|split; [apply Hf; assumption|]]); intros y Hy Hn; [apply A2|apply B2]; apply Hf; auto.
  Qed.

  Definition scaled (asc : bool) (thr m M z : F) : F := fdiv (fsub (counted asc thr z) m) (fsub M m).
  Definition flipped (asc : bool) (s : F) : F := if asc then (if SFltb f_zero s then fsub f_one s else s) else s.

  Lemma widths_are asc thr w t : exists m M, m = series_min N (map (fun r => counted asc thr (snd r)) t) /\ M = series_max N (map (fun r => counted asc thr (snd r)) t)
    /\ edge_widths N asc w (filter_insignificant N asc thr t) = map (fun r => (fst r, fmul (flipped asc (scaled asc thr m M (snd r))) w)) t.
  Proof.
    eexists. eexists. split; [reflexivity|]. split; [reflexivity|].
    assert (Hc : filter_insignificant N asc thr t = map (fun r => (fst r, counted asc thr (snd r))) t).
    { unfold filter_insignificant, on_values. apply map_ext. intros [p z]. unfold value, counted, counts. cbn [fst snd n_ltb fl64]. destruct asc; [destruct (SFltb thr z)|destruct (SFltb z thr)]; reflexivity. }
    unfold edge_widths, map_to_width, scale_to_unit. rewrite Hc. unfold reverse_scale, on_values. unfold value. rewrite !map_map. cbn [fst snd].
    destruct asc; rewrite !map_map; apply map_ext; intros [p z]; reflexivity.
  Qed.

  Section Facts.
    Context (asc : bool) (thr : F) (t : list (string * string * F)).
    Hypothesis (Hval : forall z, entry t z -> f_isnan z = false -> finite z /\ fge0 z).
    Notation vals := (map (fun r : string * string * F => counted asc thr (snd r)) t).

    Lemma counted_ok z : entry t z -> f_isnan z = false -> finite (counted asc thr z) /\ fge0 (counted asc thr z).
    Proof. intros H Hn. unfold counted. destruct (counts asc thr z); [apply Hval; assumption|split; [exact I|reflexivity]]. Qed.
    Lemma counted_nan z : f_isnan z = true -> counted asc thr z = S754_nan.
    Proof. destruct z; try discriminate. intros _. unfold counted, counts. destruct asc; [destruct thr as [[]|[]| |[] ? ?]|]; reflexivity. Qed.
    Lemma vals_ok y : In y vals -> f_isnan y = false -> finite y /\ fge0 y.
    Proof.
      intros H Hn. apply in_map_iff in H as ([p z] & <- & H). cbn [snd] in *. apply counted_ok; [exists p; exact H|]. destruct (f_isnan z) eqn:E; [|reflexivity]. rewrite (counted_nan z E) in Hn. discriminate.
    Qed.
    Lemma entry_vals z : entry t z -> In (counted asc thr z) vals.
    Proof. intros (p & H). apply in_map_iff. exists (p, z). auto. Qed.

    Context (x y : F) (Hx : entry t x) (Hy : entry t y) (Hnx : f_isnan x = false) (Hny : f_isnan y = false) (Hlt : SFltb (counted asc thr x) (counted asc thr y) = true).
    Notation m := (series_min N vals).
    Notation M := (series_max N vals).

    Lemma range_ok : finite m /\ fge0 m /\ finite M /\ fge0 M /\ (forall z, entry t z -> f_isnan z = false -> fle m (counted asc thr z) /\ fle (counted asc thr z) M)
      /\ (exists mm me, fsub M m = S754_finite false mm me) /\ finite (fsub M m).
    Proof.
      destruct (counted_ok x Hx Hnx) as [Fx Gx]. destruct (counted_ok y Hy Hny) as [Fy Gy].
      destruct (extremes vals _ (entry_vals x Hx) (finite_num _ Fx)) as [(HM1 & HM2 & HM3) (Hm1 & Hm2 & Hm3)].
      destruct (vals_ok _ HM1 HM2) as [FM GM]. destruct (vals_ok _ Hm1 Hm2) as [Fm Gm].
      split; [exact Fm|]. split; [exact Gm|]. split; [exact FM|]. split; [exact GM|].
      assert (Hb : forall z, entry t z -> f_isnan z = false -> fle m (counted asc thr z) /\ fle (counted asc thr z) M).
      { intros z Hz Hn. destruct (counted_ok z Hz Hn) as [Fz _]. split; [apply Hm3|apply HM3]; auto using entry_vals, finite_num. }
      split; [exact Hb|].
      assert (L : fle m M) by (eapply fle_trans; apply (Hb x Hx Hnx)).
      assert (Nl : ~ fle M m).
      { intros L'. assert (L2 : fle (counted asc thr y) (counted asc thr x)) by (eapply fle_trans; [apply (Hb y Hy Hny)|]; eapply fle_trans; [exact L'|]; apply (Hb x Hx Hnx)).
        destruct L2 as (_ & _ & L2). congruence. }
      assert (Ls : fle (fsub M m) M).
      { pose proof (sub_mono_r f_zero m M I Fm FM (fge0_fle m (finite_num _ Fm) Gm)) as L0. replace (fsub M f_zero) with M in L0; [exact L0|].
        destruct M as [s|s| |s a b]; try contradiction; [destruct s; [discriminate|]|]; reflexivity. }
      pose proof (sub_pos m M Fm FM L Nl) as (mm & me & [E|E]).
      - split; [eauto|]. rewrite E. pose proof (sub_double M m FM Fm) as D. rewrite E in D. exact D.
      - exfalso. rewrite E in Ls. destruct Ls as (_ & _ & Ls). destruct M as [[]|[]| |[] a b]; try contradiction; discriminate.
    Qed.

    Lemma scaled_ok z : entry t z -> f_isnan z = false -> finite (scaled asc thr m M z) /\ fge0 (scaled asc thr m M z) /\ fle (scaled asc thr m M z) f_one
      /\ finite (fsub (counted asc thr z) m) /\ fge0 (fsub (counted asc thr z) m).
    Proof.
      intros Hz Hn. destruct range_ok as (Fm & Gm & FM & GM & Hb & (mm & me & ED) & FD). destruct (counted_ok z Hz Hn) as [Fz Gz]. destruct (Hb z Hz Hn) as [L1 L2].
      pose proof (sub_mono _ _ m Fm Fz Fm L1) as S1. pose proof (sub_mono _ _ m Fz FM Fm L2) as S2.
      assert (Hsm : fsub m m = f_zero) by (apply fsub_self; destruct S1 as (S1 & _); exact S1). rewrite Hsm in S1.
      assert (Fs : finite (fsub (counted asc thr z) m)) by (apply (double_between _ f_zero (fsub M m)); auto; [apply sub_double; assumption|exact I]).
      assert (Gs : fge0 (fsub (counted asc thr z) m)) by (apply sub_ge0; assumption).
      unfold scaled. rewrite ED in *.
      assert (L1' : fle (fdiv (fsub (counted asc thr z) m) (S754_finite false mm me)) f_one) by (apply div_le_one; eauto).
      assert (G1 : fge0 (fdiv (fsub (counted asc thr z) m) (S754_finite false mm me))) by (apply fdiv_nonneg; [exact Gs|reflexivity]).
      split; [|repeat split; try assumption; apply L1'].
      apply (double_between _ f_zero f_one); auto using div_double, one_finite; [exact I|]. apply fge0_fle; [destruct L1' as (A & _); exact A|exact G1].
    Qed.

    Lemma flipped_ok z : entry t z -> f_isnan z = false -> finite (flipped asc (scaled asc thr m M z)) /\ fge0 (flipped asc (scaled asc thr m M z)) /\ fle (flipped asc (scaled asc thr m M z)) f_one.
    Proof.
      intros Hz Hn. destruct (scaled_ok z Hz Hn) as (Fs & Gs & Ls & _). unfold flipped. destruct asc; [|auto]. destruct (SFltb f_zero _) eqn:E; [|auto].
      set (s := scaled true thr _ _ z) in *. assert (G1 : fge0 (fsub f_one s)) by (apply sub_ge0; auto using one_finite; reflexivity).
      assert (L1 : fle (fsub f_one s) f_one).
      { pose proof (sub_mono_r f_zero s f_one I Fs one_finite (fge0_fle s (finite_num _ Fs) Gs)) as L0. exact L0. }
      split; [|auto]. apply (double_between _ f_zero f_one); auto using sub_double, one_finite; [exact I|]. apply fge0_fle; [destruct L1 as (A & _); exact A|exact G1].
    Qed.
  End Facts.

  Notation graph := (plot_graph N srt).
  Lemma graph_widths cfg t fi title asc directed k ti d edges nodes labels : graph cfg t fi title asc directed k = Ok (PGraph ti d edges nodes labels) -> one_edge_each directed t ->
    edges = edge_widths N asc (pop (k_width k) (g_width cfg)) (filter_insignificant N asc (pop (k_threshold k) (g_threshold cfg)) t).
  Proof.
    intros E Hone. set (w := pop (k_width k) (g_width cfg)) in *. set (thr := pop (k_threshold k) (g_threshold cfg)) in *.
    assert (He : edges = edgelist directed (edge_widths N asc w (filter_insignificant N asc thr t))).
    { unfold plot_graph in E. fold w thr in E. destruct fi as [fi|]; [|injection E as _ _ <- _ _; reflexivity].
      destruct (negb _); [discriminate|]. destruct (directed && _); [discriminate|]. injection E as _ _ <- _ _. reflexivity. }
    rewrite He. apply edgelist_id. apply (one_edge_map directed t); [|exact Hone].
    destruct (widths_are asc thr w t) as (m & M & _ & _ & ->). rewrite map_map. reflexivity.
  Qed.

  Lemma fle_leb x y : fle x y -> SFleb x y = true.
  Proof.
    intros (Nx & Ny & L). unfold SFltb, SFleb in *. rewrite SFcompare_rank in *. rewrite Nx, Ny in *. cbn [orb] in *.
    destruct (lexcmp (rank x) (rank y)) eqn:C; try reflexivity. exfalso.
    destruct (lexlt_total (rank x) (rank y)) as [B|[B|B]]; [apply lexcmp_lt in B; congruence|apply lexcmp_eq in B; congruence|]. apply lexcmp_lt in B. rewrite B in L. discriminate.
  Qed.

  (** ** C102: the values are doubles, not negative, or missing; two of them differ after those
      beyond the threshold are replaced by 0 *)
  Theorem C102_range cfg t fi title asc directed k ti d edges nodes labels thr w x y :
    graph cfg t fi title asc directed k = Ok (PGraph ti d edges nodes labels) ->
    pop (k_threshold k) (g_threshold cfg) = thr -> pop (k_width k) (g_width cfg) = w -> one_edge_each directed t -> finite w -> fge0 w ->
    (forall z, entry t z -> f_isnan z = false -> finite z /\ fge0 z) ->
    entry t x -> entry t y -> f_isnan x = false -> f_isnan y = false -> SFltb (counted asc thr x) (counted asc thr y) = true ->
    exists width : F -> F, edges = map (fun r => (fst r, width (snd r))) t
      /\ forall z, entry t z -> if f_isnan z then width z = S754_nan else SFleb f_zero (width z) = true /\ SFleb (width z) w = true.
  Proof.
    intros E Et Ew Hone Fw Gw Hval Hx Hy Hnx Hny Hlt. pose proof (graph_widths _ _ _ _ _ _ _ _ _ _ _ _ E Hone) as He. rewrite Et, Ew in He.
    destruct (widths_are asc thr w t) as (m & M & Em & EM & EW). rewrite EW in He. exists (fun z => fmul (flipped asc (scaled asc thr m M z)) w). split; [exact He|]. intros z Hz. destruct (f_isnan z) eqn:Hn.
    - unfold scaled. rewrite (counted_nan asc thr z Hn). unfold flipped. destruct asc; reflexivity.
    - destruct (flipped_ok asc thr t Hval x y Hx Hy Hnx Hny Hlt z Hz Hn) as (Ff & Gf & Lf). rewrite <- Em, <- EM in *.
      pose proof (mul_mono _ _ w Ff one_finite Fw Gf eq_refl Gw Lf) as L. rewrite (mul_one w Fw) in L. pose proof L as (Nn & Nw & L').
      split; [apply nonneg_ge0; [|exact Nn]|].
      + clear - Gf Gw Ff Fw. destruct (flipped _ _) as [s|s| |s a b], w as [s'|s'| |s' a' b']; try contradiction; cbn in Gf, Gw; subst; try reflexivity. apply round_aux_nonneg.
      + apply fle_leb, L.
  Qed.

  (** where larger values are stronger *)
  Theorem C102_order cfg t fi title directed k ti d edges nodes labels thr w x y :
    graph cfg t fi title false directed k = Ok (PGraph ti d edges nodes labels) ->
    pop (k_threshold k) (g_threshold cfg) = thr -> pop (k_width k) (g_width cfg) = w -> one_edge_each directed t -> finite w -> fge0 w ->
    (forall z, entry t z -> f_isnan z = false -> finite z /\ fge0 z) ->
    entry t x -> entry t y -> f_isnan x = false -> f_isnan y = false -> SFltb (counted false thr x) (counted false thr y) = true ->
    exists width : F -> F, edges = map (fun r => (fst r, width (snd r))) t
      (* the range is used *)
      /\ (exists z, entry t z /\ f_isnan z = false /\ width z = w) /\ (exists z, entry t z /\ f_isnan z = false /\ SFeqb (width z) f_zero = true)
      (* a stronger interaction never gets a thinner edge *)
      /\ (forall a b, entry t a -> entry t b -> SFleb a b = true -> SFleb (width a) (width b) = true)
      (* irrelevant ones get the thinnest *)
      /\ (forall a, entry t a -> SFltb a thr = true -> SFeqb (width a) f_zero = true).
  Proof.
    intros E Et Ew Hone Fw Gw Hval Hx Hy Hnx Hny Hlt. pose proof (graph_widths _ _ _ _ _ _ _ _ _ _ _ _ E Hone) as He. rewrite Et, Ew in He.
    destruct (widths_are false thr w t) as (m & M & Em & EM & EW). rewrite EW in He. unfold flipped in He.
    pose proof (range_ok false thr t Hval x y Hx Hy Hnx Hny Hlt) as (Fm & Gm & FM & GM & Hb & (mm & me & ED) & FD).
    pose proof (scaled_ok false thr t Hval x y Hx Hy Hnx Hny Hlt) as Hs. rewrite <- Em, <- EM in *.
    destruct (extremes (map (fun r => counted false thr (snd r)) t) _ (entry_vals false thr t x Hx) (finite_num _ (proj1 (counted_ok false thr t Hval x Hx Hnx)))) as [(HM & NM & _) (Hm & Nm & _)].
    rewrite <- Em, <- EM in *.
    assert (Hmono : forall a b, entry t a -> entry t b -> f_isnan a = false -> f_isnan b = false -> fle (counted false thr a) (counted false thr b) ->
              fle (fmul (scaled false thr m M a) w) (fmul (scaled false thr m M b) w)).
    { intros a b Ha Hb' Na Nb L. destruct (Hs a Ha Na) as (Fa & Ga & _ & Fa' & Ga'). destruct (Hs b Hb' Nb) as (Fb & Gb & _ & Fb' & Gb').
      apply mul_mono; try assumption. unfold scaled. rewrite ED. apply div_mono; try assumption. apply sub_mono; try assumption; apply (counted_ok false thr t Hval); assumption. }
    assert (Hzero : forall a, entry t a -> f_isnan a = false -> counted false thr a = m -> SFeqb (fmul (scaled false thr m M a) w) f_zero = true).
    { intros a Ha Na Ea. unfold scaled. rewrite Ea, ED. assert (Hmm : fsub m m = f_zero).
      { apply fsub_self. destruct (sub_rank m m (-1074) Fm Fm (finite_above m Fm) (finite_above m Fm)) as [_ R]. exact R. }
      rewrite Hmm. clear - Fw. destruct w as [[]|s| |[] a b]; try contradiction; reflexivity. }
    exists (fun z => fmul (scaled false thr m M z) w). split; [exact He|]. split; [|split; [|split]].
    - rewrite EM in HM at 1. apply in_map_iff in HM as ([p z] & Ez & Hz). cbn [snd] in Ez. rewrite <- EM in Ez. exists z. split; [exists p; exact Hz|].
      assert (Nz : f_isnan z = false). { destruct (f_isnan z) eqn:Nz; [|reflexivity]. rewrite (counted_nan false thr z Nz) in Ez. rewrite <- Ez in NM. discriminate. }
      split; [exact Nz|]. unfold scaled. rewrite Ez. destruct (fdiv_self (fsub M m)) as [->|Hbad]; [apply mul_one, Fw|]. exfalso.
      assert (entry t z) as Hz' by (exists p; exact Hz). destruct (Hs z Hz' Nz) as (Fz & _). unfold scaled in Fz. rewrite Ez, Hbad in Fz. exact Fz.
    - rewrite Em in Hm at 1. apply in_map_iff in Hm as ([p z] & Ez & Hz). cbn [snd] in Ez. rewrite <- Em in Ez. exists z. split; [exists p; exact Hz|].
      assert (Nz : f_isnan z = false). { destruct (f_isnan z) eqn:Nz; [|reflexivity]. rewrite (counted_nan false thr z Nz) in Ez. rewrite <- Ez in Nm. discriminate. }
      split; [exact Nz|]. apply Hzero; [exists p; exact Hz|exact Nz|exact Ez].
    - intros a b Ha Hb' L. assert (Na : f_isnan a = false) by (destruct a; try reflexivity; destruct b; discriminate). assert (Nb : f_isnan b = false) by (destruct b; try reflexivity; destruct a as [s|[]| |[] ? ?]; discriminate).
      apply fle_leb, Hmono; auto. destruct (Hval b Hb' Nb) as [Fb Gb]. unfold counted, counts.
      assert (Lab : fle a b). { destruct (fle_total a b Na Nb) as [A|A]; [exact A|]. apply fle_rank in A; auto. apply fle_rank; auto. unfold SFleb in L. rewrite SFcompare_rank, Na, Nb in L. cbn [orb] in L.
        intros B. destruct (lexcmp (rank a) (rank b)) eqn:C; try discriminate; [apply lexcmp_eq in C; rewrite C in B; exact (lexlt_irrefl _ B)|apply lexcmp_lt in C; exact (A C)]. }
      destruct (SFltb a thr) eqn:A1; destruct (SFltb b thr) eqn:A2; cbn [negb]; [apply fle_refl; reflexivity|apply fge0_fle; assumption| |exact Lab].
      exfalso. apply SFltb_rank in A2 as (_ & Nt & A2). assert (A3 : SFltb a thr = true); [|congruence]. apply SFltb_rank. repeat split; auto.
      apply fle_rank in Lab; auto. destruct (lexlt_total (rank a) (rank b)) as [B|[B|B]]; [eapply lexlt_trans; eassumption|rewrite B; exact A2|tauto].
    - intros a Ha L. assert (Na : f_isnan a = false) by (apply SFltb_rank in L; tauto). assert (Ec : counted false thr a = f_zero) by (unfold counted, counts; rewrite L; reflexivity).
      destruct (Hb a Ha Na) as [L1 _]. rewrite Ec in L1. apply Hzero; auto. rewrite Ec.
      assert (R : rank m = rank f_zero) by (apply fle_antisym; [exact L1|apply fge0_fle; auto using finite_num]). apply rank_zero in R as (s & R); [|apply finite_num, Fm]. rewrite R in Gm |- *. cbn in Gm. subst s. reflexivity.
  Qed.
End Widths.

(** ** A table with an irrelevant and a missing value *)
Definition tenths (z : Z) : F := fdiv (f_ofZ z) (f_ofZ 10).
Definition ex_table : list (string * string * F) := [(("a", "b"), tenths 7); (("a", "c"), tenths 3); (("b", "c"), fdiv (tenths 1) (f_ofZ 10)); (("a", "d"), S754_nan)].
Example C102_example : exists edges labels,
  plot_graph (fl64 seq_sum) isort (graph_config_of (fl64 seq_sum) HStatistic) ex_table None "default" false false no_kwargs = Ok (PGraph "Interaction graph" false edges None labels)
  /\ one_edge_each false ex_table /\ (forall z, entry ex_table z -> f_isnan z = false -> finite z /\ fge0 z)
  /\ SFltb (counted false (g_threshold (graph_config_of (fl64 seq_sum) HStatistic)) (tenths 3)) (counted false (g_threshold (graph_config_of (fl64 seq_sum) HStatistic)) (tenths 7)) = true
  /\ finite (g_width (graph_config_of (fl64 seq_sum) HStatistic)) /\ fge0 (g_width (graph_config_of (fl64 seq_sum) HStatistic))
  /\ map snd edges = [f_ofZ 20; fmul (fdiv (tenths 3) (tenths 7)) (f_ofZ 20); f_zero; S754_nan].
Proof.
  eexists. eexists. split; [vm_compute; reflexivity|]. split; [|split; [|split; [vm_compute; reflexivity|split; [vm_compute; reflexivity|split; [vm_compute; reflexivity|vm_compute; reflexivity]]]]].
  - repeat constructor; intros [H|[_ H]]; discriminate.
  - intros z (p & [H|[H|[H|[H|[]]]]]) Hn; apply (f_equal snd) in H; cbn [snd] in H; subst z; [split; vm_compute; reflexivity|split; vm_compute; reflexivity|split; vm_compute; reflexivity|discriminate].
Qed.
Print Assumptions C102_range.
Print Assumptions C102_order.
