(** Laws of the three tables of the calculator and of the modified copies of X. *)
From Verif Require Import Py Num Frame PdCalc EngineFacts PdSpec.

(** ** Dicts with a shape *)
Section DictShape.
  Context {K A H : Type} (eqb : K -> K -> bool) (h : A -> H).
  Hypothesis eqb_eq : forall a b, eqb a b = true <-> a = b.

  Definition dshape (d : list (K * A)) : list (K * H) := map (fun e => (fst e, h (snd e))) d.

  Lemma assoc_dict_set_same k (a : A) d : assoc eqb k (dict_set eqb k a d) = Some a.
  Proof.
    assert (Hr : eqb k k = true) by (apply eqb_eq; reflexivity).
    induction d as [|[q b] t IH]; cbn; [rewrite Hr; reflexivity|].
    destruct (eqb k q) eqn:E; cbn; rewrite E; [reflexivity|exact IH].
  Qed.
  Lemma assoc_dict_set_other k k2 (a : A) d : k2 <> k -> assoc eqb k2 (dict_set eqb k a d) = assoc eqb k2 d.
  Proof.
    intros Hne. induction d as [|[q b] t IH]; cbn.
    - destruct (eqb k2 k) eqn:E; [apply eqb_eq in E; contradiction|reflexivity].
    - destruct (eqb k q) eqn:E; cbn.
      + apply eqb_eq in E as <-. destruct (eqb k2 k) eqn:E2; [apply eqb_eq in E2; contradiction|reflexivity].
      + destruct (eqb k2 q); [reflexivity|exact IH].
  Qed.
  Lemma dshape_dict_set k a b d : assoc eqb k d = Some b -> h a = h b -> dshape (dict_set eqb k a d) = dshape d.
  Proof.
    intros Hb Ha; induction d as [|[q c] t IH]; cbn in *; [discriminate|].
    destruct (eqb k q) eqn:E; cbn.
    - injection Hb as ->. rewrite Ha; reflexivity.
    - f_equal. apply IH, Hb.
  Qed.
  Lemma dshape_assoc k (d : list (K * A)) (keys : list K) (s : K -> H) : dshape d = map (fun k => (k, s k)) keys ->
    (In k keys -> exists a, assoc eqb k d = Some a /\ h a = s k)
    /\ (forall a, assoc eqb k d = Some a -> In k keys /\ h a = s k).
  Proof.
    revert keys; induction d as [|[q c] t IH]; intros [|q' keys] Hd; cbn in *; try discriminate; [split; [intros []|discriminate]|].
    injection Hd as Hq Hc Hd. subst q'. destruct (eqb k q) eqn:E.
    - apply eqb_eq in E as ->. split; [intros _; eauto|intros a Ha; injection Ha as <-; auto].
    - destruct (IH keys Hd) as [I1 I2]. split; [|intros a Ha; apply I2 in Ha as [? ?]; auto].
      intros [->|Hin]; [|auto]. assert (eqb k k = true) by (apply eqb_eq; reflexivity); congruence.
  Qed.
  Lemma dict_get_assoc k (d : list (K * A)) a : dict_get eqb k d = Ok a <-> assoc eqb k d = Some a.
  Proof. unfold dict_get; destruct (assoc eqb k d); split; intros; congruence. Qed.
  Lemma dict_get_err k (d : list (K * A)) e : dict_get eqb k d = Err e -> e = KeyError /\ assoc eqb k d = None.
  Proof. unfold dict_get; destruct (assoc eqb k d); intros; split; congruence. Qed.
  Lemma dshape_keys (d : list (K * A)) keys (s : K -> H) : dshape d = map (fun k => (k, s k)) keys -> map fst d = keys.
  Proof.
    intros Hd. transitivity (map fst (dshape d)).
    - unfold dshape; rewrite map_map; reflexivity.
    - rewrite Hd, map_map; cbn; apply map_id.
  Qed.
End DictShape.

Lemma String_eqb_eq' a b : String.eqb a b = true <-> a = b.
Proof. apply String.eqb_eq. Qed.

Lemma array_set_inv {A} i (v : A) a a' : array_set i v a = Ok a' -> i < length a /\ a' = set_nth i v a.
Proof. unfold array_set; destruct (Nat.ltb_spec i (length a)); intros H'; [injection H' as <-; auto|discriminate]. Qed.
Lemma array_set_ok {A} i (v : A) a : i < length a -> array_set i v a = Ok (set_nth i v a).
Proof. unfold array_set; intros; destruct (Nat.ltb_spec i (length a)); [reflexivity|lia]. Qed.

Lemma get_nth_inv {A} i (l : list A) x : get_nth i l = Ok x <-> nth_error l i = Some x.
Proof. unfold get_nth; destruct (nth_error l i); split; intros; congruence. Qed.

Ltac bsplit H := match type of H with
  | bind ?r _ = Ok _ => let x := fresh "x" in let E := fresh "E" in destruct r as [x|] eqn:E; cbn [bind] in H; [|discriminate H] end.

Lemma nth_error_set_nth {A} i j (v : A) l : i < length l ->
  nth_error (set_nth i v l) j = if j =? i then Some v else nth_error l j.
Proof.
  intros Hi; destruct (Nat.eqb_spec j i) as [->|Hne]; [apply set_nth_same, Hi|apply set_nth_other; congruence].
Qed.

Lemma map_length_set_nth {A} i (v v0 : list A) m : nth_error m i = Some v0 -> length v = length v0 ->
  map (@length A) (set_nth i v m) = map (@length A) m.
Proof.
  revert i; induction m as [|r t IH]; intros [|i] Hn Hl; cbn in *; try discriminate.
  - injection Hn as ->. rewrite Hl; reflexivity.
  - f_equal; apply IH; auto.
Qed.

Section Tables.
  Context {C V : Type} (O : cell_ops C) (N : num_ops V).
  Hypothesis HO : cell_ok O.
  Notation stab := (list (string * (list C * list V))).
  Notation ptab := (list ((string * string) * (list C * list C * list (list V)))).
  Notation mtab := (list (string * list V)).

  (** *** Cells *)
  Definition sget (t : stab) (k : skey) : option V :=
    match assoc String.eqb (fst k) t with
    | Some e => match get_index O (fst e) (snd k) with Ok i => nth_error (snd e) i | Err _ => None end
    | None => None
    end.
  Definition pget (t : ptab) (k : pkey) : option V :=
    match assoc pair_eqb (fst (fst k)) t with
    | Some e => match get_index O (fst (fst e)) (snd (fst k)), get_index O (snd (fst e)) (snd k) with
                | Ok i, Ok j => match nth_error (snd e) i with Some r => nth_error r j | None => None end
                | _, _ => None
                end
    | None => None
    end.
  Definition mget (t : mtab) (k : mkey) : option V :=
    match assoc String.eqb (fst k) t with Some a => nth_error a (snd k) | None => None end.

  (** values stored at the positions of NaN grid values (they can never be written) *)
  Definition nanvals (fv : list C) (pv : list V) : list (option V) :=
    map (fun p => if c_isnan O (fst p) then Some (snd p) else None) (combine fv pv).
  Definition ssh (t : stab) := dshape (fun e => (fst e, length (snd e), nanvals (fst e) (snd e))) t.
  Definition nanvals2 (fv gv : list C) (m : list (list V)) : list (list V + list (option V)) :=
    map (fun p => if c_isnan O (fst p) then inl (snd p) else inr (nanvals gv (snd p))) (combine fv m).
  Definition psh (t : ptab) :=
    dshape (fun e => (fst e, map (@length V) (snd e), nanvals2 (fst (fst e)) (snd (fst e)) (snd e))) t.
  Definition msh (t : mtab) := dshape (@length V) t.

  Lemma skey_eqb_eq (a b : skey) : skey_eqb O a b = true -> a = b.
  Proof.
    destruct a as [f v], b as [f' v']; unfold skey_eqb; cbn. rewrite andb_true_iff, String.eqb_eq.
    intros [-> H]; apply (ce_eq O HO) in H as ->; reflexivity.
  Qed.
  Lemma pkey_eqb_eq (a b : pkey) : pkey_eqb O a b = true -> a = b.
  Proof.
    destruct a as [[p v] w], b as [[p' v'] w']; unfold pkey_eqb; cbn. rewrite !andb_true_iff, pair_eqb_eq.
    intros [[-> H1] H2]; apply (ce_eq O HO) in H1 as ->, H2 as ->; reflexivity.
  Qed.
  Lemma mkey_eqb_eq (a b : mkey) : mkey_eqb a b = true -> a = b.
  Proof.
    destruct a as [f v], b as [f' v']; unfold mkey_eqb; cbn. rewrite andb_true_iff, String.eqb_eq, Nat.eqb_eq.
    intros [-> ->]; reflexivity.
  Qed.

  Lemma isnan_eqb v : c_isnan O v = false -> c_eqb O v v = true.
  Proof. unfold c_isnan; destruct (c_eqb O v v); cbn; congruence. Qed.

  (** inversion of a successful write *)
  Lemma set_single_inv k (x : V) t t' : set_single O k x t = Ok t' ->
    exists e i, assoc String.eqb (fst k) t = Some e /\ get_index O (fst e) (snd k) = Ok i /\ i < length (snd e)
    /\ t' = dict_set String.eqb (fst k) (fst e, set_nth i x (snd e)) t.
  Proof.
    unfold set_single; intros H. bsplit H. apply dict_get_assoc in E. bsplit H. bsplit H.
    injection H as <-. apply array_set_inv in E1 as [Hi ->]. eauto 10.
  Qed.
  Lemma set_pairs_inv k (x : V) t t' : set_pairs O k x t = Ok t' ->
    exists e i j r, assoc pair_eqb (fst (fst k)) t = Some e /\ get_index O (fst (fst e)) (snd (fst k)) = Ok i
    /\ get_index O (snd (fst e)) (snd k) = Ok j /\ nth_error (snd e) i = Some r /\ j < length r
    /\ t' = dict_set pair_eqb (fst (fst k)) (fst e, set_nth i (set_nth j x r) (snd e)) t.
  Proof.
    destruct k as [[p v] w]; unfold set_pairs; intros H. cbn [fst snd].
    bsplit H. apply dict_get_assoc in E. bsplit H. bsplit H. bsplit H. bsplit H. bsplit H.
    injection H as <-. apply get_nth_inv in E2. apply array_set_inv in E3 as [Hj ->]. apply array_set_inv in E4 as [Hi ->].
    exists x0, x1, x2, x3. auto 10.
  Qed.
  Lemma set_minus_inv k (x : V) (t t' : mtab) : set_minus k x t = Ok t' ->
    exists a, assoc String.eqb (fst k) t = Some a /\ snd k < length a
    /\ t' = dict_set String.eqb (fst k) (set_nth (snd k) x a) t.
  Proof.
    unfold set_minus; intros H. bsplit H. apply dict_get_assoc in E. bsplit H.
    injection H as <-. apply array_set_inv in E0 as [Hi ->]. eauto.
  Qed.

  Lemma single_refl k (x : V) t t' : set_single O k x t = Ok t' -> skey_eqb O k k = true.
  Proof.
    intros H; apply set_single_inv in H as (e & i & _ & Hi & _). apply (get_index_spec O HO) in Hi as [_ Hn].
    unfold skey_eqb; rewrite String.eqb_refl, isnan_eqb by exact Hn; reflexivity.
  Qed.
  Lemma nanvals_set fv pv i v (x : V) : nth_error fv i = Some v -> c_isnan O v = false ->
    nanvals fv (set_nth i x pv) = nanvals fv pv.
  Proof.
    unfold nanvals; revert pv i; induction fv as [|w fv IH]; intros [|y pv] [|i] Hi Hv; cbn in *; try reflexivity; try discriminate.
    - injection Hi as ->. rewrite Hv; reflexivity.
    - f_equal; apply IH; assumption.
  Qed.
  Lemma single_sh k (x : V) t t' : set_single O k x t = Ok t' -> ssh t' = ssh t.
  Proof.
    intros H; apply set_single_inv in H as (e & i & He & Hv & Hi & ->).
    apply (get_index_spec O HO) in Hv as [Hv Hn].
    eapply dshape_dict_set; [exact He|]. cbn [fst snd].
    rewrite set_nth_length, (nanvals_set _ _ _ _ _ Hv Hn); reflexivity.
  Qed.
  Lemma single_same k (x : V) t t' : set_single O k x t = Ok t' -> sget t' k = Some x.
  Proof.
    intros H; apply set_single_inv in H as (e & i & He & Hi & Hlt & ->). unfold sget.
    rewrite assoc_dict_set_same by apply String_eqb_eq'. cbn. rewrite Hi. apply set_nth_same, Hlt.
  Qed.
  Lemma single_other k (x : V) t t' k' : set_single O k x t = Ok t' -> k' <> k -> sget t' k' = sget t k'.
  Proof.
    intros H Hne; apply set_single_inv in H as (e & i & He & Hi & Hlt & ->). unfold sget.
    destruct k as [f v], k' as [f' v']; cbn [fst snd] in *.
    destruct (String.eqb_spec f' f) as [->|Hf].
    - rewrite assoc_dict_set_same, He by apply String_eqb_eq'. cbn.
      destruct (get_index O (fst e) v') as [i'|] eqn:Hi'; [|reflexivity].
      apply set_nth_other. intros ->. apply Hne. f_equal. apply (get_index_inj O HO) with (fst e) i'; assumption.
    - rewrite assoc_dict_set_other by (apply String_eqb_eq' || exact Hf). reflexivity.
  Qed.

  Lemma pairs_refl k (x : V) t t' : set_pairs O k x t = Ok t' -> pkey_eqb O k k = true.
  Proof.
    intros H; apply set_pairs_inv in H as (e & i & j & r & _ & Hi & Hj & _).
    apply (get_index_spec O HO) in Hi as [_ Hn], Hj as [_ Hn'].
    unfold pkey_eqb; rewrite pair_eqb_refl, !isnan_eqb by assumption; reflexivity.
  Qed.
  Lemma nanvals2_set fv gv m i j v w r (x : V) : nth_error fv i = Some v -> c_isnan O v = false ->
    nth_error gv j = Some w -> c_isnan O w = false -> nth_error m i = Some r ->
    nanvals2 fv gv (set_nth i (set_nth j x r) m) = nanvals2 fv gv m.
  Proof.
    unfold nanvals2; intros Hi Hv Hj Hw; revert m i Hi; induction fv as [|a fv IH]; intros [|y m] [|i] Hi Hr; cbn in *; try reflexivity; try discriminate.
    - injection Hi as ->. injection Hr as ->. rewrite Hv. rewrite (nanvals_set _ _ _ _ _ Hj Hw); reflexivity.
    - f_equal; apply IH; assumption.
  Qed.
  Lemma pairs_sh k (x : V) t t' : set_pairs O k x t = Ok t' -> psh t' = psh t.
  Proof.
    intros H; apply set_pairs_inv in H as (e & i & j & r & He & Hi & Hj & Hr & Hlt & ->).
    apply (get_index_spec O HO) in Hi as [Hi Hni], Hj as [Hj Hnj].
    eapply dshape_dict_set; [exact He|]. cbn [fst snd]. rewrite (nanvals2_set _ _ _ _ _ _ _ _ _ Hi Hni Hj Hnj Hr).
    f_equal. f_equal. eapply map_length_set_nth; [exact Hr|apply set_nth_length].
  Qed.
  Lemma pairs_same k (x : V) t t' : set_pairs O k x t = Ok t' -> pget t' k = Some x.
  Proof.
    intros H; apply set_pairs_inv in H as (e & i & j & r & He & Hi & Hj & Hr & Hlt & ->). unfold pget.
    rewrite assoc_dict_set_same by apply pair_eqb_eq. cbn. rewrite Hi, Hj.
    rewrite set_nth_same by (apply nth_error_Some; congruence). apply set_nth_same, Hlt.
  Qed.
  Lemma pairs_other k (x : V) t t' k' : set_pairs O k x t = Ok t' -> k' <> k -> pget t' k' = pget t k'.
  Proof.
    intros H Hne; apply set_pairs_inv in H as (e & i & j & r & He & Hi & Hj & Hr & Hlt & ->). unfold pget.
    destruct k as [[p v] w], k' as [[p' v'] w']; cbn [fst snd] in *.
    destruct (pair_eqb p' p) eqn:Hp.
    - apply pair_eqb_eq in Hp as ->. rewrite assoc_dict_set_same, He by apply pair_eqb_eq. cbn.
      destruct (get_index O (fst (fst e)) v') as [i'|] eqn:Hi'; [|reflexivity].
      destruct (get_index O (snd (fst e)) w') as [j'|] eqn:Hj'; [|reflexivity].
      assert (Hil : i < length (snd e)) by (apply nth_error_Some; congruence).
      rewrite nth_error_set_nth by exact Hil.
      destruct (Nat.eqb_spec i' i) as [->|Hii]; [|reflexivity]. rewrite Hr.
      apply set_nth_other. intros ->. apply Hne. f_equal; [f_equal|].
      + apply (get_index_inj O HO) with (fst (fst e)) i; assumption.
      + apply (get_index_inj O HO) with (snd (fst e)) j'; assumption.
    - rewrite assoc_dict_set_other; [reflexivity|apply pair_eqb_eq|].
      intros ->; rewrite pair_eqb_refl in Hp; discriminate.
  Qed.

  Lemma minus_refl k (x : V) (t t' : mtab) : set_minus k x t = Ok t' -> mkey_eqb k k = true.
  Proof. intros _. unfold mkey_eqb. rewrite String.eqb_refl, Nat.eqb_refl; reflexivity. Qed.
  Lemma minus_sh k (x : V) t t' : set_minus k x t = Ok t' -> msh t' = msh t.
  Proof.
    intros H; apply set_minus_inv in H as (a & He & Hi & ->).
    eapply dshape_dict_set; [exact He|]. apply set_nth_length.
  Qed.
  Lemma minus_same k (x : V) t t' : set_minus k x t = Ok t' -> mget t' k = Some x.
  Proof.
    intros H; apply set_minus_inv in H as (a & He & Hi & ->). unfold mget.
    rewrite assoc_dict_set_same by apply String_eqb_eq'. apply set_nth_same, Hi.
  Qed.
  Lemma minus_other k (x : V) t t' k' : set_minus k x t = Ok t' -> k' <> k -> mget t' k' = mget t k'.
  Proof.
    intros H Hne; apply set_minus_inv in H as (a & He & Hi & ->). unfold mget.
    destruct k as [f i], k' as [f' i']; cbn [fst snd] in *.
    destruct (String.eqb_spec f' f) as [->|Hf].
    - rewrite assoc_dict_set_same, He by apply String_eqb_eq'. apply set_nth_other. congruence.
    - rewrite assoc_dict_set_other by (apply String_eqb_eq' || exact Hf). reflexivity.
  Qed.

  Lemma single_laws : tlaws (skey_eqb O) (set_single (V := V) O) (sget) (ssh).
  Proof.
    constructor; [apply skey_eqb_eq|apply single_refl|apply single_sh|apply single_same|apply single_other].
  Qed.
  Lemma pairs_laws : tlaws (pkey_eqb O) (set_pairs (V := V) O) (pget) (psh).
  Proof.
    constructor; [apply pkey_eqb_eq|apply pairs_refl|apply pairs_sh|apply pairs_same|apply pairs_other].
  Qed.
  Lemma minus_laws : tlaws mkey_eqb (set_minus (V := V)) (mget) (msh).
  Proof.
    constructor; [apply mkey_eqb_eq|apply minus_refl|apply minus_sh|apply minus_same|apply minus_other].
  Qed.

  (** errors of a write *)
  Lemma set_single_err k (x : V) t e : set_single O k x t = Err e ->
    (e = KeyError /\ assoc String.eqb (fst k) t = None) \/
    (e = IndexError /\ sget t k = None).
  Proof.
    unfold set_single, sget. destruct (dict_get _ _ _) as [a|e0] eqn:E; cbn [bind].
    - apply dict_get_assoc in E. rewrite E. destruct (get_index O (fst a) (snd k)) as [i|e1] eqn:Ei; cbn [bind].
      + unfold array_set. destruct (Nat.ltb_spec i (length (snd a))) as [Hlt|Hge]; cbn [bind]; [discriminate|].
        intros H; right; split; [congruence|]. apply nth_error_None, Hge.
      + intros H; right; split; [|reflexivity]. injection H as <-. eapply get_index_err; exact Ei.
    - apply dict_get_err in E as [-> E]. intros H; left; split; congruence.
  Qed.
  Lemma set_pairs_err k (x : V) t e : set_pairs O k x t = Err e ->
    (e = KeyError /\ assoc pair_eqb (fst (fst k)) t = None) \/ (e = IndexError /\ pget t k = None).
  Proof.
    destruct k as [[p v] w]. unfold set_pairs, pget; cbn [fst snd].
    destruct (dict_get _ _ _) as [a|e0] eqn:E; cbn [bind].
    - apply dict_get_assoc in E. rewrite E.
      destruct (get_index O (fst (fst a)) v) as [i|e1] eqn:Ei; cbn [bind];
        [|intros H; right; split; [injection H as <-; eapply get_index_err; exact Ei|reflexivity]].
      destruct (get_index O (snd (fst a)) w) as [j|e1] eqn:Ej; cbn [bind];
        [|intros H; right; split; [injection H as <-; eapply get_index_err; exact Ej|reflexivity]].
      unfold get_nth. destruct (nth_error (snd a) i) as [r|] eqn:Er; cbn [bind]; [|intros H; right; split; congruence].
      unfold array_set. destruct (Nat.ltb_spec j (length r)) as [Hlt|Hge]; cbn [bind].
      + destruct (Nat.ltb_spec i (length (snd a))) as [Hlt2|Hge2]; cbn [bind]; [discriminate|].
        apply nth_error_None in Hge2; congruence.
      + intros H; right; split; [congruence|]. apply nth_error_None, Hge.
    - apply dict_get_err in E as [-> E]. intros H; left; split; congruence.
  Qed.
  Lemma set_minus_err k (x : V) (t : mtab) e : set_minus k x t = Err e ->
    (e = KeyError /\ assoc String.eqb (fst k) t = None) \/ (e = IndexError /\ mget t k = None).
  Proof.
    unfold set_minus, mget. destruct (dict_get _ _ _) as [a|e0] eqn:E; cbn [bind].
    - apply dict_get_assoc in E. rewrite E. unfold array_set.
      destruct (Nat.ltb_spec (snd k) (length a)) as [Hlt|Hge]; cbn [bind]; [discriminate|].
      intros H; right; split; [congruence|]. apply nth_error_None, Hge.
    - apply dict_get_err in E as [-> E]. intros H; left; split; congruence.
  Qed.

  (** *** Modified copies of X *)
  Variable X : frame C.
  Hypothesis HX : wf_frame X.

  Lemma row_length r : In r (f_rows X) -> length r = length (f_cols X).
  Proof. destruct HX as (_ & H & _). rewrite Forall_forall in H; apply H. Qed.

  Lemma job_single_length k : length (job_single X k) = length (f_rows X).
  Proof. unfold job_single, assign_rows; apply map_length. Qed.
  Lemma job_pairs_length k : length (job_pairs X k) = length (f_rows X).
  Proof. destruct k as [[p v] w]; unfold job_pairs, assign_rows; apply map_length. Qed.
  Lemma job_minus_length k : snd k < length (f_rows X) -> length (job_minus X k) = length (f_rows X).
  Proof.
    intros H; unfold job_minus. apply nth_error_Some in H. destruct (nth_error _ _); [|congruence].
    unfold assign_rows; apply map_length.
  Qed.

  Lemma nth_col_lt p f : nth_error (f_cols X) p = Some f -> p < length (f_cols X).
  Proof. intros H; apply nth_error_Some; congruence. Qed.

  Lemma col_pos_of p f : nth_error (f_cols X) p = Some f -> col_pos (f_cols X) f = Some p.
  Proof. destruct HX as (Hnd & _). apply col_pos_NoDup, Hnd. Qed.

  Lemma job_single_spec g f p v : nth_error (f_cols X) p = Some f ->
    np_mean N (map g (job_single X (f, v))) = PD1 (np_mean N) g (f_rows X) p v.
  Proof.
    intros Hp; unfold job_single, assign_rows, PD1. f_equal. rewrite map_map. apply map_ext_in; intros r Hr.
    unfold assign_row; cbn. rewrite (col_pos_of p f Hp). rewrite set_nth_with_value; [reflexivity|].
    rewrite row_length by exact Hr. eapply nth_col_lt; exact Hp.
  Qed.

  Lemma job_pairs_spec g f1 f2 p q v w : nth_error (f_cols X) p = Some f1 -> nth_error (f_cols X) q = Some f2 ->
    np_mean N (map g (job_pairs X ((f1, f2), v, w))) = PD2 (np_mean N) g (f_rows X) p q v w.
  Proof.
    intros Hp Hq; unfold job_pairs, assign_rows, PD2. f_equal. rewrite map_map. apply map_ext_in; intros r Hr.
    unfold assign_row; cbn. rewrite (col_pos_of p f1 Hp), (col_pos_of q f2 Hq).
    pose proof (row_length r Hr) as Hl. pose proof (nth_col_lt _ _ Hp). pose proof (nth_col_lt _ _ Hq).
    rewrite (set_nth_with_value p), set_nth_with_value; [reflexivity| |lia].
    rewrite with_value_length; lia.
  Qed.

  (** assigning every column but the p-th from [row] replaces all other cells *)
  Lemma assign_row_nth cols chg (r : list C) i :
    NoDup (map fst chg) ->
    (forall c v, In (c, v) chg -> exists j, col_pos cols c = Some j /\ j < length r) ->
    nth_error (assign_row cols chg r) i =
      match find (fun p => match col_pos cols (fst p) with Some j => j =? i | None => false end) chg with
      | Some p => Some (snd p)
      | None => nth_error r i
      end.
  Proof.
    unfold assign_row. revert r; induction chg as [|[c v] t IH]; cbn [fold_left find]; intros r Hnd Hin; [reflexivity|].
    destruct (Hin c v (or_introl eq_refl)) as (j & Hj & Hlt). cbn [fst snd]. rewrite Hj.
    inversion Hnd as [|? ? Hni Hnd']; subst.
    rewrite IH; [|exact Hnd'|].
    - destruct (find _ t) as [[c' v']|] eqn:Ef.
      + destruct (Nat.eqb_spec j i) as [->|Hne]; [|reflexivity].
        apply find_some in Ef as [Hint Ec]. cbn in Ec. destruct (col_pos cols c') as [j'|] eqn:Hj'; [|discriminate].
        apply Nat.eqb_eq in Ec as ->. apply col_pos_nth in Hj, Hj'. assert (c = c') by congruence; subst c'.
        exfalso; apply Hni. apply (in_map fst) in Hint; exact Hint.
      + rewrite nth_error_set_nth by exact Hlt. rewrite (Nat.eqb_sym i j). destruct (j =? i); reflexivity.
    - intros c' v' H'. rewrite set_nth_length. apply (Hin c' v'); right; exact H'.
  Qed.

  Lemma combine_In_nth {A B} (l : list A) (m : list B) a b :
    In (a, b) (combine l m) <-> exists j, nth_error l j = Some a /\ nth_error m j = Some b.
  Proof.
    revert m; induction l as [|x l IH]; intros [|y m]; cbn.
    - split; [intros []|intros ([|j] & Hj & _); discriminate].
    - split; [intros []|intros ([|j] & Hj & _); discriminate].
    - split; [intros []|intros ([|j] & _ & Hj); discriminate].
    - rewrite IH. split.
      + intros [H|(j & H1 & H2)]; [injection H as -> ->; exists 0; auto|exists (S j); auto].
      + intros ([|j] & H1 & H2); cbn in *; [left; congruence|right; eauto].
  Qed.

  Lemma NoDup_map_fst_filter {A B} (f : A * B -> bool) l : NoDup (map fst l) -> NoDup (map fst (filter f l)).
  Proof.
    induction l as [|x t IH]; cbn; intros H; [constructor|]. inversion H as [|? ? Hni Hnd]; subst.
    destruct (f x); cbn; [|auto]. constructor; [|auto]. intros Hin; apply Hni.
    apply in_map_iff in Hin as (y & Hy & Hin). apply filter_In in Hin as [Hin _]. apply in_map_iff; eauto.
  Qed.

  Lemma map_fst_combine {A B} (l : list A) (m : list B) : length l = length m -> map fst (combine l m) = l.
  Proof. revert m; induction l as [|x l IH]; intros [|y m] H; cbn in *; try discriminate; [reflexivity|]. f_equal; auto. Qed.

  Lemma assign_minus_row f p row r v :
    nth_error (f_cols X) p = Some f -> In row (f_rows X) -> In r (f_rows X) -> nth_error r p = Some v ->
    assign_row (f_cols X) (filter (fun p => negb (String.eqb (fst p) f)) (combine (f_cols X) row)) r = with_value p v row.
  Proof.
    intros Hp Hrow Hr Hv. pose proof (row_length _ Hrow) as Hlrow. pose proof (row_length _ Hr) as Hlr.
    pose proof (nth_col_lt _ _ Hp) as Hplt. destruct HX as (Hnd & _).
    apply nth_error_ext; intros i. rewrite assign_row_nth.
    - rewrite with_value_nth by lia.
      destruct (find _ _) as [[c w]|] eqn:Ef.
      + apply find_some in Ef as [Hin Ec]. apply filter_In in Hin as [Hin Hc]. cbn in *.
        destruct (col_pos (f_cols X) c) as [j|] eqn:Hj; [|discriminate]. apply Nat.eqb_eq in Ec as ->.
        apply combine_In_nth in Hin as (j & Hj1 & Hj2). apply (col_pos_NoDup _ _ _ Hnd) in Hj1.
        assert (j = i) by congruence; subst j.
        destruct (Nat.eqb_spec i p) as [->|Hne]; [|congruence].
        apply col_pos_nth in Hj. assert (c = f) by congruence; subst. rewrite String.eqb_refl in Hc; discriminate.
      + destruct (Nat.eqb_spec i p) as [->|Hne]; [exact Hv|].
        destruct (nth_error (f_cols X) i) as [c|] eqn:Hc.
        * destruct (nth_error row i) as [w|] eqn:Hw; [|apply nth_error_None in Hw; apply nth_col_lt in Hc; lia].
          exfalso. assert (Hin : In (c, w) (filter (fun p => negb (String.eqb (fst p) f)) (combine (f_cols X) row))).
          { apply filter_In; split; [apply combine_In_nth; eauto|]. cbn. apply negb_true_iff, String.eqb_neq.
            intros ->. apply Hne. apply (NoDup_nth_error (f_cols X)); [exact Hnd|eapply nth_col_lt; exact Hc|congruence]. }
          pose proof (find_none _ _ Ef _ Hin) as Hf. cbn in Hf.
          rewrite (col_pos_NoDup _ _ i Hnd Hc), Nat.eqb_refl in Hf; discriminate.
        * apply nth_error_None in Hc. transitivity (@None C); [|symmetry]; apply nth_error_None; lia.
    - apply NoDup_map_fst_filter. rewrite map_fst_combine by lia. exact Hnd.
    - intros c w Hin. apply filter_In in Hin as [Hin _]. apply combine_In_nth in Hin as (j & Hj1 & Hj2).
      exists j; split; [apply (col_pos_NoDup _ _ _ Hnd Hj1)|]. apply nth_col_lt in Hj1; lia.
  Qed.

  Lemma map_flat_map_some {A B D} (f : A -> option B) (h : B -> D) (k : A -> D) l :
    (forall a, In a l -> exists b, f a = Some b /\ k a = h b) ->
    map k l = flat_map (fun a => match f a with Some b => [h b] | None => [] end) l.
  Proof.
    induction l as [|a t IH]; cbn; intros H; [reflexivity|].
    destruct (H a (or_introl eq_refl)) as (b & Hb & Hk). rewrite Hb, Hk, IH by auto. reflexivity.
  Qed.

  Lemma job_minus_spec g f p i row : nth_error (f_cols X) p = Some f -> nth_error (f_rows X) i = Some row ->
    np_mean N (map g (job_minus X (f, i))) = PDminus (np_mean N) g (f_rows X) p row.
  Proof.
    intros Hp Hi; unfold job_minus, PDminus; cbn [fst snd]. rewrite Hi. f_equal.
    unfold assign_rows. rewrite map_map. apply map_flat_map_some with (f := fun r => nth_error r p) (h := fun v => g (with_value p v row)).
    intros r Hr. destruct (nth_error r p) as [v|] eqn:Hv.
    - exists v; split; [reflexivity|]. f_equal. apply assign_minus_row; auto. eapply nth_error_In; exact Hi.
    - apply nth_error_None in Hv. rewrite row_length in Hv by exact Hr. apply nth_col_lt in Hp; lia.
  Qed.

  (** grids *)
  Lemma grid_of p f : nth_error (f_cols X) p = Some f -> grid O X f = np_unique O (col_at p (f_rows X)).
  Proof. intros Hp; unfold grid, column. rewrite (col_pos_of p f Hp). reflexivity. Qed.

  Lemma grid_nonempty_rows f v : In v (grid O X f) -> 0 < length (f_rows X).
  Proof.
    unfold grid, column. destruct (col_pos (f_cols X) f) as [p|]; [|intros []].
    intros H; apply (np_unique_sub O HO) in H. apply col_at_In in H as (r & Hr & _).
    destruct (f_rows X); [destruct Hr|cbn; lia].
  Qed.
End Tables.
