(** C140: renaming the features and recoding their values, in the permutation based methods and
    in the forest method.  Unlike C130 the statements are equalities between whole runs: tables,
    generator, requests and errors, for every arithmetic and every model. *)
From Verif Require Import Py Num NumR Sorting Frame Rng PdCalc PdMethods Perm CondDepth ForestFacts Props_Recode Props_Forest.
From Coq Require Import QArith.
Open Scope string_scope.
Open Scope nat_scope.
Open Scope list_scope.

(** ** Specification *)

(** a row with the value of each column written in another way *)
Fixpoint recode {C D} (code : nat -> C -> D) (r : list C) : list D := match r with [] => [] | x :: t => code 0 x :: recode (fun p => code (S p)) t end.
(** the data with other names and other values *)
Definition recode_frame {C D} (name : string -> string) (code : nat -> C -> D) (X : frame C) : frame D :=
  {| f_cols := map name (f_cols X); f_index := f_index X; f_num := map name (f_num X); f_rows := map (recode code) (f_rows X) |}.
(** what the method object holds, with the new names and values *)
Definition recode_state {C D V G} (name : string -> string) (code : nat -> C -> D) (s : sstate C V G) : sstate D V G :=
  {| sj_rng := sj_rng s; sj_X := option_map (recode_frame name code) (sj_X s); sj_y := sj_y s; sj_features := option_map (map name) (sj_features s);
     sj_pairs := option_map (map (fun p => (name (fst p), name (snd p)))) (sj_pairs s); sj_ovo := option_map (map (renamed name)) (sj_ovo s); sj_fi := option_map (map (renamed1 name)) (sj_fi s) |}.
(** two models that answer alike, each reading its own data *)
Definition same_answers {C D V} (code : nat -> C -> D) (P1 : option (nat -> list (list C) -> result (list V))) (P2 : option (nat -> list (list D) -> result (list V))) : Prop :=
  match P1, P2 with
  | None, None => True
  | Some p1, Some p2 => forall i rows, p2 i (map (recode code) rows) = p1 i rows
  | _, _ => False
  end.
(** different features keep different names *)
Definition apart (name : string -> string) (l : list string) : Prop := forall f f', In f l -> In f' l -> name f = name f' -> f = f'.
(** sorting looks at the compared keys only *)
Definition keys_only (srt : sorter) : Prop := forall (A B : Type) (f : A -> B) (le1 : A -> A -> bool) (le2 : B -> B -> bool) l,
  (forall x y, In x l -> In y l -> le2 (f x) (f y) = le1 x y) -> srt B le2 (map f l) = map f (srt A le1 l).

(** ** Lists *)
Lemma insert_by_map {A B} (f : A -> B) le1 le2 x l : (forall y, In y l -> le2 (f x) (f y) = le1 x y) -> insert_by le2 (f x) (map f l) = map f (insert_by le1 x l).
Proof.
  induction l as [|y l IH]; intros H; [reflexivity|]. cbn. rewrite (H y) by (left; reflexivity). destruct (le1 x y); [reflexivity|]. cbn. f_equal. apply IH. intros z Hz. apply H. right. exact Hz.
Qed.
Lemma insert_by_In {A} le (x : A) l y : In y (insert_by le x l) -> y = x \/ In y l.
Proof. induction l as [|z l IH]; cbn; [intros [->|[]]; auto|]. destruct (le x z); cbn; [intros [->|H]; auto|]. intros [->|H]; [auto|]. destruct (IH H); auto. Qed.
Lemma isort_In {A} le (l : list A) y : In y (isort A le l) -> In y l.
Proof. induction l as [|x l IH]; cbn; [auto|]. intros H. destruct (insert_by_In _ _ _ _ H) as [->|H']; auto. Qed.
Lemma isort_keys_only : keys_only isort.
Proof.
  intros A B f le1 le2 l H. induction l as [|x l IH]; [reflexivity|]. change (insert_by le2 (f x) (isort B le2 (map f l)) = map f (insert_by le1 x (isort A le1 l))). rewrite IH by (intros; apply H; right; assumption).
  apply insert_by_map. intros y Hy. apply H; [left; reflexivity|right]. exact (isort_In _ _ _ Hy).
Qed.
Lemma recode_nth {C D} (code : nat -> C -> D) r p : nth_error (recode code r) p = option_map (code p) (nth_error r p).
Proof. revert code p. induction r as [|x r IH]; intros code [|p]; cbn; try reflexivity. apply (IH (fun p => code (S p))). Qed.
Lemma recode_set {C D} (code : nat -> C -> D) k v r : recode code (set_nth k v r) = set_nth k (code k v) (recode code r).
Proof. revert code k. induction r as [|x r IH]; intros code [|k]; cbn; try reflexivity. f_equal. apply (IH (fun p => code (S p))). Qed.
Lemma recode_col {C D} (code : nat -> C -> D) k rows : col_at k (map (recode code) rows) = map (code k) (col_at k rows).
Proof. unfold col_at. induction rows as [|r rows IH]; [reflexivity|]. cbn. rewrite IH, map_app, recode_nth. destruct (nth_error r k); reflexivity. Qed.
Lemma picks_map {A B} (f : A -> B) l p : picks (map f l) p = map f (picks l p).
Proof. unfold picks. induction p as [|i p IH]; [reflexivity|]. cbn. rewrite IH, map_app, nth_error_map. destruct (nth_error l i); reflexivity. Qed.
Lemma restore_recode {C D} (code : nat -> C -> D) k rows vs : map (fun rv => set_nth k (snd rv) (fst rv)) (combine (map (recode code) rows) (map (code k) vs)) = map (recode code) (map (fun rv => set_nth k (snd rv) (fst rv)) (combine rows vs)).
Proof. revert vs. induction rows as [|r rows IH]; intros [|v vs]; cbn; try reflexivity. rewrite IH, recode_set. reflexivity. Qed.
Lemma permute_recode {C D} (code : nat -> C -> D) k p rows : permute_at k p (map (recode code) rows) = map (recode code) (permute_at k p rows).
Proof. unfold permute_at. rewrite recode_col, picks_map. apply restore_recode. Qed.
Lemma apart_eqb name l f f' : apart name l -> In f l -> In f' l -> String.eqb (name f) (name f') = String.eqb f f'.
Proof. intros H I1 I2. destruct (String.eqb_spec f f') as [->|N]; [apply String.eqb_refl|]. apply String.eqb_neq. intros E. apply N, H; assumption. Qed.

Lemma col_pos_map name cols f : apart name (f :: cols) -> col_pos (map name cols) (name f) = col_pos cols f.
Proof.
  induction cols as [|c cols IH]; intros H; [reflexivity|]. cbn. rewrite (apart_eqb name (f :: c :: cols)); [|exact H|left; reflexivity|right; left; reflexivity]. destruct (String.eqb f c); [reflexivity|].
  rewrite IH; [reflexivity|]. intros a b [<-|Ha] [<-|Hb]; apply H; cbn; auto.
Qed.
Lemma apart_sub name l l' : (forall f, In f l' -> In f l) -> apart name l -> apart name l'.
Proof. intros Hs H a b Ha Hb. apply H; auto. Qed.
Lemma filter_map_comm {A B} (f : A -> B) (p : A -> bool) (q : B -> bool) l : (forall x, In x l -> q (f x) = p x) -> filter q (map f l) = map f (filter p l).
Proof. induction l as [|x l IH]; intros H; [reflexivity|]. cbn. rewrite H by (left; reflexivity). rewrite IH by (intros; apply H; right; assumption). destruct (p x); reflexivity. Qed.
Lemma dedup_sub l x : In x (dedup l) -> In x l.
Proof. revert x. induction l as [|y l IH]; cbn; [auto|]. intros x [->|H]; [auto|]. apply filter_In in H as [H _]. auto. Qed.
Lemma dedup_map name l : apart name l -> dedup (map name l) = map name (dedup l).
Proof.
  induction l as [|x l IH]; intros H; [reflexivity|]. cbn. rewrite IH by (eapply apart_sub; [|exact H]; intros; right; assumption). f_equal.
  apply filter_map_comm. intros y Hy. apply dedup_sub in Hy. rewrite (apart_eqb name (x :: l)); [reflexivity|exact H|left; reflexivity|right; exact Hy].
Qed.
Lemma sort_values_map {V A B} (N : num_ops V) srt (Hk : keys_only srt) asc (f : A -> B) (k1 : A -> V) (k2 : B -> V) l : (forall x, k2 (f x) = k1 x) -> sort_values N srt asc k2 (map f l) = map f (sort_values N srt asc k1 l).
Proof. intros H. apply Hk. intros x y _ _. rewrite !H. reflexivity. Qed.

(** ** Runs *)
Section Runs.
  Context {C D V G : Type} (N : num_ops V) (Rg : rng_ops G) (srt : sorter) (Hk : keys_only srt) (name : string -> string) (code : nat -> C -> D).
  Definition mapr {A B} (f : A -> B) (r : result A) : result B := match r with Ok a => Ok (f a) | Err e => Err e end.
  Definition recode_st (s : pst C G) : pst D G := {| p_log := map (map (recode code)) (p_log s); p_rng := p_rng s |}.
  (** the second action does what the first does, on the recoded data *)
  Definition sim {A B} (f : A -> B) (m1 : act A) (m2 : act B) : Prop := forall s, m2 (recode_st s) = (recode_st (fst (m1 s)), mapr f (snd (m1 s))).
  Lemma sim_ret {A B} (f : A -> B) a b : b = f a -> sim f (ret a) (ret b).
  Proof. intros -> s. reflexivity. Qed.
  Lemma sim_lift {A B} (f : A -> B) r1 r2 : r2 = mapr f r1 -> sim f (lift r1) (lift r2).
  Proof. intros -> s. reflexivity. Qed.
  Lemma sim_raise {A B} (f : A -> B) e : sim f (raise e) (raise e).
  Proof. intros s. reflexivity. Qed.
  Lemma sim_andthen {A B A' B'} (f : A -> B) (f' : A' -> B') m1 m2 k1 k2 : sim f m1 m2 -> (forall a, sim f' (k1 a) (k2 (f a))) -> sim f' (andthen m1 k1) (andthen m2 k2).
  Proof. intros Hm Hc s. unfold andthen. rewrite (Hm s). destruct (m1 s) as [s' [a|e]]; cbn [fst snd mapr]; [apply Hc|reflexivity]. Qed.
  Lemma sim_traverse {A B A' B'} (g : A -> A') (f : B -> B') h1 h2 l : (forall x, In x l -> sim f (h1 x) (h2 (g x))) -> sim (map f) (traverse h1 l) (traverse h2 (map g l)).
  Proof.
    induction l as [|x l IH]; intros H; [apply sim_ret; reflexivity|]. cbn [traverse map]. apply (sim_andthen f); [apply H; left; reflexivity|]. intros y.
    apply (sim_andthen (map f)); [apply IH; intros; apply H; right; assumption|]. intros ys. apply sim_ret. reflexivity.
  Qed.
  Lemma sim_traverse_id {A B} (h1 h2 : A -> act B) l : (forall x, In x l -> sim (fun v => v) (h1 x) (h2 x)) -> sim (fun v => v) (traverse h1 l) (traverse h2 l).
  Proof. intros H s. rewrite <- (map_id l) at 1. rewrite (sim_traverse (fun x => x) (fun v => v) h1 h2 l H s). f_equal. destruct (snd (traverse h1 l s)); cbn; [rewrite map_id|]; reflexivity. Qed.
  Lemma sim_draw n : sim (fun p => p) (draw Rg n) (draw Rg n).
  Proof. intros s. unfold draw. cbn [recode_st p_rng p_log]. destruct (r_perm Rg (p_rng s) n). reflexivity. Qed.

  Context (P1 : option (nat -> list (list C) -> result (list V))) (P2 : option (nat -> list (list D) -> result (list V))) (HP : same_answers code P1 P2) (m : metric V) (y : target V).
  Lemma sim_ask rows : sim (fun p => p) (ask P1 rows) (ask P2 (map (recode code) rows)).
  Proof.
    intros s. unfold ask. destruct P1 as [p1|], P2 as [p2|]; cbn in HP; try contradiction; [|reflexivity]. cbn [recode_st p_log p_rng fst snd]. rewrite map_length, HP. unfold recode_st. cbn [p_log p_rng]. rewrite map_app. f_equal. destruct (p1 _ rows); reflexivity.
  Qed.
  Lemma sim_score rows : sim (fun v => v) (score P1 m y rows) (score P2 m y (map (recode code) rows)).
  Proof. unfold score. eapply sim_andthen; [apply sim_ask|]. intros a. apply sim_lift. destruct (mt_calc m y a); reflexivity. Qed.
  Context (X : frame C).
  Notation X' := (recode_frame name code X).
  Lemma sim_corrupt f w : apart name (f :: f_cols X) -> sim (fun vw => (fst vw, map (recode code) (snd vw))) (corrupt Rg P1 m X y f w) (corrupt Rg P2 m X' y (name f) (map (recode code) w)).
  Proof.
    intros Ha. unfold corrupt. cbn [recode_frame f_cols]. rewrite (col_pos_map name _ _ Ha). apply (sim_andthen (fun k : nat => k)); [destruct (col_pos (f_cols X) f); [apply sim_ret|apply sim_raise]; reflexivity|].
    intros k. rewrite map_length. eapply sim_andthen; [apply sim_draw|]. intros p. cbv zeta. rewrite permute_recode. eapply sim_andthen; [apply sim_score|]. intros v. apply sim_ret. cbn [fst snd recode_frame f_rows]. rewrite recode_col, restore_recode. reflexivity.
  Qed.
  Lemma sim_corrupt_loop fs w : apart name (fs ++ f_cols X) -> sim (map (renamed1 name)) (corrupt_loop Rg P1 m X y fs w) (corrupt_loop Rg P2 m X' y (map name fs) (map (recode code) w)).
  Proof.
    revert w. induction fs as [|f fs IH]; intros w Ha; [apply sim_ret; reflexivity|]. cbn [corrupt_loop map]. eapply sim_andthen; [apply sim_corrupt; eapply apart_sub; [|exact Ha]; intros x [<-|Hx]; [left; reflexivity|cbn; right; apply in_or_app; right; exact Hx]|].
    intros [v w']. cbn [fst snd]. eapply sim_andthen; [apply IH; eapply apart_sub; [|exact Ha]; intros x Hx; right; exact Hx|]. intros l. apply sim_ret. reflexivity.
  Qed.
  Lemma corrupt_loop_names fs w s s' l : corrupt_loop Rg P1 m X y fs w s = (s', Ok l) -> map fst l = fs.
  Proof.
    revert w s s' l. induction fs as [|f fs IH]; intros w s s' l; cbn [corrupt_loop]; unfold ret, andthen; [intros H; injection H as _ <-; reflexivity|].
    destruct (corrupt Rg P1 m X y f w s) as [s1 [[v w']|e]]; [|discriminate]. cbn [snd fst]. destruct (corrupt_loop Rg P1 m X y fs w' s1) as [s2 [l2|e]] eqn:E; [|discriminate]. intros H. injection H as _ <-. cbn. f_equal. eapply IH, E.
  Qed.

  Lemma sim_importance n_repeat fs : apart name (fs ++ f_cols X) ->
    sim (map (renamed1 name)) (permutation_importance N Rg srt P1 m X y n_repeat (Some fs)) (permutation_importance N Rg srt P2 m X' y n_repeat (Some (map name fs))).
  Proof.
    intros Ha. unfold permutation_importance. cbn [recode_frame f_rows]. eapply sim_andthen; [apply sim_score|]. intros base.
    assert (Hc : forall x, In x (concat (repeat fs n_repeat)) -> In x fs) by (intros x Hx; apply in_concat in Hx as (l & Hl & Hx); apply repeat_spec in Hl as ->; exact Hx).
    assert (Ec : concat (repeat (map name fs) n_repeat) = map name (concat (repeat fs n_repeat))).
    { clear. induction n_repeat as [|n IH]; [reflexivity|]. cbn. rewrite map_app, IH. reflexivity. }
    rewrite Ec.
    assert (L : forall w, sim (map (renamed1 name)) (corrupt_loop Rg P1 m X y (concat (repeat fs n_repeat)) w) (corrupt_loop Rg P2 m X' y (map name (concat (repeat fs n_repeat))) (map (recode code) w))).
    { intros w. apply sim_corrupt_loop. eapply apart_sub; [|exact Ha]. intros x Hx. apply in_app_or in Hx as [Hx|Hx]; apply in_or_app; auto. }
    intros s. unfold andthen. rewrite (L (f_rows X) s). destruct (corrupt_loop Rg P1 m X y (concat (repeat fs n_repeat)) (f_rows X) s) as [s' [scores|e]] eqn:E; cbn [fst snd mapr]; [|reflexivity].
    apply corrupt_loop_names in E. rewrite (dedup_map name fs) by (eapply apart_sub; [|exact Ha]; intros x Hx; apply in_or_app; auto).
    set (row1 := fun f => (f, neg_if_class N m (n_sub N (np_mean N (map snd (filter (fun e => String.eqb f (fst e)) scores))) base))). rewrite map_map.
    rewrite (map_ext_in _ (fun f => renamed1 name (row1 f)) (dedup fs)).
    2:{ intros f Hf. apply dedup_sub in Hf.
        assert (Ef : filter (fun e => String.eqb (name f) (fst e)) (map (renamed1 name) scores) = map (renamed1 name) (filter (fun e => String.eqb f (fst e)) scores)).
        { apply filter_map_comm. intros [g v] Hg. cbn [fst renamed1]. apply (apart_eqb name fs); [eapply apart_sub; [|exact Ha]; intros x Hx; apply in_or_app; auto|exact Hf|].
          apply Hc. rewrite <- E. apply (in_map fst) in Hg. exact Hg. }
        unfold row1. rewrite Ef, map_map. reflexivity. }
    rewrite <- (map_map row1 (renamed1 name)). destruct (map row1 (dedup fs)) as [|r rs]; [reflexivity|]. change (map (renamed1 name) (r :: rs)) with (renamed1 name r :: map (renamed1 name) rs) at 1. cbv iota beta.
    change (renamed1 name r :: map (renamed1 name) rs) with (map (renamed1 name) (r :: rs)). rewrite (sort_values_map N srt Hk false (renamed1 name) (fun r => snd r)) by (intros [? ?]; reflexivity). reflexivity.
  Qed.

  Lemma permute_cols_recode p fs rows : apart name (fs ++ f_cols X) -> permute_cols (f_cols X') p (map (recode code) rows) (map name fs) = mapr (map (recode code)) (permute_cols (f_cols X) p rows fs).
  Proof.
    unfold permute_cols. intros Ha. change (Ok (map (recode code) rows)) with (mapr (map (recode code)) (Ok rows)). generalize (Ok rows). revert Ha. induction fs as [|f fs IH]; intros Ha acc; [reflexivity|]. cbn [map fold_left].
    rewrite <- IH by (eapply apart_sub; [|exact Ha]; intros x Hx; right; exact Hx). f_equal. destruct acc as [rs|e]; [|reflexivity]. cbn. unfold permute_col. cbn [recode_frame f_cols]. rewrite col_pos_map by (eapply apart_sub; [|exact Ha]; intros x [<-|Hx]; [left; reflexivity|cbn; right; apply in_or_app; right; exact Hx]).
    destruct (col_pos (f_cols X) f); [|reflexivity]. cbn. rewrite permute_recode. reflexivity.
  Qed.
  Lemma sim_permute_score fs ref : apart name (fs ++ f_cols X) -> sim (fun v => v) (permute_score N Rg P1 m X y fs ref) (permute_score N Rg P2 m X' y (map name fs) ref).
  Proof.
    intros Ha. unfold permute_score. cbn [recode_frame f_rows]. rewrite map_length. eapply sim_andthen; [apply sim_draw|]. intros p. eapply sim_andthen; [apply sim_lift, permute_cols_recode, Ha|]. intros rows. eapply sim_andthen; [apply sim_score|]. intros v. apply sim_ret. reflexivity.
  Qed.
  Lemma sim_inter f1 f2 ref : apart name ([f1; f2] ++ f_cols X) -> sim (fun v => v) (inter N Rg P1 m X y f1 f2 ref) (inter N Rg P2 m X' y (name f1) (name f2) ref).
  Proof.
    intros Ha. unfold inter. eapply sim_andthen; [apply (sim_permute_score [f1]); eapply apart_sub; [|exact Ha]; cbn; tauto|]. intros s1. eapply sim_andthen; [apply (sim_permute_score [f2]); eapply apart_sub; [|exact Ha]; cbn; tauto|]. intros s2.
    eapply sim_andthen; [apply (sim_permute_score [f1; f2]); exact Ha|]. intros s12. apply sim_ret. reflexivity.
  Qed.
  Lemma sim_ovo pairs n_repeat fs : (forall p, In p pairs -> In (fst p) fs /\ In (snd p) fs) -> apart name (fs ++ f_cols X) ->
    sim (map (renamed name)) (perf_based_ovo N Rg srt P1 m X y pairs n_repeat) (perf_based_ovo N Rg srt P2 m X' y (map (fun p => (name (fst p), name (snd p))) pairs) n_repeat).
  Proof.
    intros Hp Ha. unfold perf_based_ovo. cbn [recode_frame f_rows]. eapply sim_andthen; [apply sim_score|]. intros ref. apply (sim_andthen (map (renamed name))).
    - apply sim_traverse. intros [f1 f2] Hin. destruct (Hp _ Hin) as [I1 I2]. cbn [fst snd] in *. apply (sim_andthen (fun v : list V => v)).
      + apply sim_traverse_id.
        intros i _. eapply sim_andthen; [apply sim_inter; eapply apart_sub; [|exact Ha]; intros x [<-|[<-|Hx]]; apply in_or_app; auto|]. intros v. apply sim_ret. reflexivity.
      + intros l. apply sim_ret. reflexivity.
    - intros rows. apply sim_ret. apply (sort_values_map N srt Hk). intros [[? ?] ?]. reflexivity.
  Qed.
End Runs.

(** permutation importance, called with any state of the requests [log] and of the generator *)
Theorem C140_importance {C D V G} (N : num_ops V) (Rg : rng_ops G) srt name (code : nat -> C -> D) P1 P2 m X (y : target V) n_repeat fs log g : keys_only srt -> same_answers code P1 P2 -> apart name (fs ++ f_cols X) ->
  let '(s', r) := permutation_importance N Rg srt P1 m X y n_repeat (Some fs) {| p_log := log; p_rng := g |} in
  permutation_importance N Rg srt P2 m (recode_frame name code X) y n_repeat (Some (map name fs)) {| p_log := map (map (recode code)) log; p_rng := g |}
  = ({| p_log := map (map (recode code)) (p_log s'); p_rng := p_rng s' |}, match r with Ok t => Ok (map (renamed1 name) t) | Err e => Err e end).
Proof.
  intros Hk HP Ha. pose proof (sim_importance N Rg srt Hk name code P1 P2 HP m y X n_repeat fs Ha {| p_log := log; p_rng := g |}) as E.
  destruct (permutation_importance N Rg srt P1 m X y n_repeat (Some fs) {| p_log := log; p_rng := g |}) as [s' r]. exact E.
Qed.

(** ** The method *)
Definition recode_args {C D V} (name : string -> string) (code : nat -> C -> D) (md2 : model D V) (a : sargs C V) : sargs D V :=
  {| sa_model := md2; sa_X := recode_frame name code (sa_X a); sa_y := sa_y a; sa_n := sa_n a; sa_repeat := sa_repeat a; sa_features := option_map (map name) (sa_features a) |}.
Lemma take_recode {C D} name (code : nat -> C -> D) X ps : frame_take (recode_frame name code X) ps = recode_frame name code (frame_take X ps).
Proof. unfold frame_take, recode_frame. cbn. rewrite picks_map. reflexivity. Qed.
Lemma sample_recode {C D G} (Rg : rng_ops G) name (code : nat -> C -> D) g X n :
  sample_if_not_none Rg g (recode_frame name code X) n = mapr (fun s => (recode_frame name code (fst s), snd s)) (sample_if_not_none Rg g X n).
Proof. destruct n as [k|]; [|reflexivity]. cbn. rewrite map_length. destruct (k <=? length (f_rows X)); [|reflexivity]. destruct (r_sample Rg g (length (f_rows X)) k) as [ps g']. cbn. rewrite <- take_recode. reflexivity. Qed.
Lemma sample_both_recode {C D V G} (Rg : rng_ops G) name (code : nat -> C -> D) g X (y : target V) n :
  sample_both Rg g (recode_frame name code X) y n = mapr (fun s => (recode_frame name code (fst (fst s)), snd (fst s), snd s)) (sample_both Rg g X y n).
Proof.
  unfold sample_both. destruct n as [k|]; [|reflexivity]. rewrite sample_recode. destruct (sample_if_not_none Rg g X (Some k)) as [[Xs g']|e]; [|reflexivity]. cbn [mapr bind fst snd]. cbn [recode_frame f_index].
  destruct (t_series y); [destruct (series_take _ _ _)|destruct (np_take _ _)]; reflexivity.
Qed.

Lemma sample_both_cols {C V G} (Rg : rng_ops G) g (X : frame C) (y : target V) n Xs ys g1 : sample_both Rg g X y n = Ok (Xs, ys, g1) -> f_cols Xs = f_cols X.
Proof.
  unfold sample_both. destruct n as [k|]; [|intros E; injection E as <- _ _; reflexivity]. unfold sample_if_not_none. destruct (k <=? length (f_rows X)); [|discriminate]. destruct (r_sample Rg g (length (f_rows X)) k) as [ps g']. cbn [bind].
  destruct (t_series y); [destruct (series_take _ _ _)|destruct (np_take _ _)]; cbn [bind]; intros E; try discriminate; injection E as <- _ _; reflexivity.
Qed.
Theorem C140_performance {C D V G} (N : num_ops V) (Rg : rng_ops G) srt name (code : nat -> C -> D) m e (s : sstate C V G) a md2 : keys_only srt ->
  same_answers code (md_predict (sa_model a)) (md_predict md2) -> apart name (f_cols (sa_X a) ++ match sa_features a with Some l => l | None => [] end) ->
  sj_fit N Rg srt m e (recode_state name code s) (recode_args name code md2 a)
  = let '(s', r, log) := sj_fit N Rg srt m e s a in (recode_state name code s', r, map (map (recode code)) log).
Proof.
  intros Hk HP Ha. unfold sj_fit. cbn [recode_args recode_state sa_model sa_X sa_y sa_n sa_repeat sa_features sj_rng sj_X sj_y sj_features sj_pairs sj_ovo sj_fi]. rewrite sample_both_recode, sample_recode.
  assert (Hcols : forall Xs ys g1, sample_both Rg (sj_rng s) (sa_X a) (sa_y a) (sa_n a) = Ok (Xs, ys, g1) -> f_cols Xs = f_cols (sa_X a)).
  { intros Xs ys g1 E. exact (sample_both_cols Rg _ _ _ _ _ _ _ E). }
  destruct (sample_both Rg (sj_rng s) (sa_X a) (sa_y a) (sa_n a)) as [[[Xs ys] g1]|er].
  2:{ cbn [mapr]. destruct (sample_if_not_none Rg (sj_rng s) (sa_X a) (sa_n a)) as [[? ?]|]; reflexivity. }
  specialize (Hcols Xs ys g1 eq_refl). cbn [mapr fst snd].
  set (fs := match sa_features a with None => f_cols (sa_X a) | Some l => l end).
  replace (match option_map (map name) (sa_features a) with None => f_cols (recode_frame name code (sa_X a)) | Some l => l end) with (map name fs) by (unfold fs; destruct (sa_features a); reflexivity).
  assert (Hfs : apart name (fs ++ f_cols Xs)).
  { rewrite Hcols. eapply apart_sub; [|exact Ha]. intros x Hx. unfold fs in Hx. destruct (sa_features a); apply in_app_or in Hx as [Hx|Hx]; apply in_or_app; auto. }
  rewrite combinations2_map.
  pose proof (sim_ovo N Rg srt Hk name code _ _ HP m ys Xs (combinations2 fs) (sa_repeat a) fs (combinations2_In fs) Hfs {| p_log := []; p_rng := g1 |}) as E1. unfold recode_st in E1 at 1. cbn [p_log p_rng map] in E1. rewrite E1. clear E1.
  destruct (perf_based_ovo N Rg srt (md_predict (sa_model a)) m Xs ys (combinations2 fs) (sa_repeat a) {| p_log := []; p_rng := g1 |}) as [s1 [t|er]]; cbn [fst snd mapr recode_st p_log p_rng]; [|reflexivity].
  pose proof (sim_importance N Rg srt Hk name code _ _ HP m ys Xs (sa_repeat a) fs Hfs {| p_log := p_log s1; p_rng := e |}) as E2. unfold recode_st in E2 at 1. cbn [p_log p_rng] in E2. rewrite E2. clear E2.
  destruct (permutation_importance N Rg srt (md_predict (sa_model a)) m Xs ys (sa_repeat a) (Some fs) {| p_log := p_log s1; p_rng := e |}) as [s2 [fi|er]]; reflexivity.
Qed.

(** ** The forest method *)
Definition rename_row {V} (name : string -> string) (r : cmd_row V) : cmd_row V := {| cr_root := name (cr_root r); cr_var := name (cr_var r); cr_value := cr_value r; cr_occ := cr_occ r |}.
Definition rename_forest (name : string -> string) (m : forest) : forest := {| fo_names := option_map (map name) (fo_names m); fo_trees := fo_trees m |}.
Definition rename_cstate {V} (name : string -> string) (s : cstate V) : cstate V :=
  {| cs_features := option_map (map name) (cs_features s); cs_raw := cs_raw s; cs_ovo := option_map (map (rename_row name)) (cs_ovo s); cs_fi := option_map (map (renamed1 name)) (cs_fi s) |}.

Lemma dedup_by_sub {A} eqb (l : list A) x : In x (dedup_by eqb l) -> In x l.
Proof. revert x. induction l as [|y l IH]; cbn; [auto|]. intros x [->|H]; [auto|]. apply filter_In in H as [H _]. auto. Qed.
Lemma nth_map_in name (l : list string) i : i < length l -> nth i (map name l) EmptyString = name (nth i l EmptyString).
Proof. intros H. rewrite (nth_indep (map name l) EmptyString (name EmptyString)) by (rewrite map_length; exact H). apply map_nth. Qed.
Lemma mapM_map {A B D} (g : B -> D) (f1 : A -> result B) (f2 : A -> result D) l : (forall x, f2 x = mapr g (f1 x)) -> mapM f2 l = mapr (map g) (mapM f1 l).
Proof. intros H. induction l as [|x l IH]; [reflexivity|]. cbn. rewrite H, IH. destruct (f1 x); [|reflexivity]. cbn. destruct (mapM f1 l); reflexivity. Qed.
Lemma raw_keys trees n raw infos : calculate_cmd trees n = Ok (raw, infos) -> forall k, In k (map fst raw) -> fst k < n /\ snd k < n.
Proof.
  unfold calculate_cmd. destruct (mapM bfs trees) as [is|]; [|discriminate]. cbn [bind]. intros E k Hk. assert (Er : raw = concat (map (fun i => conditional_minimal_depth (snd i) (fst i) n) is)) by (destruct is; [discriminate|injection E as <- _; reflexivity]). subst raw.
  apply in_map_iff in Hk as (r & <- & Hr). apply in_concat in Hr as (l & Hl & Hr). apply in_map_iff in Hl as (i & <- & _). apply in_map_iff in Hr as ([a b] & <- & Hp). apply in_prod_iff in Hp as [Ha Hb]. cbn [fst snd]. apply in_seq in Ha, Hb. lia.
Qed.

Theorem C140_forest {V} (N : num_ops V) srt name (s : cstate V) m : keys_only srt -> sorter_ok srt -> num_ord_ok N -> (forall names, fo_names m = Some names -> apart name names) ->
  cmd_fit N srt (rename_cstate name s) (rename_forest name m) = (rename_cstate name (fst (cmd_fit N srt s m)), snd (cmd_fit N srt s m)).
Proof.
  intros Hk Hs HN Ha. unfold cmd_fit. destruct m as [[names|] trees]; cbn [rename_forest fo_names fo_trees option_map]; [|reflexivity]. specialize (Ha names eq_refl). rewrite map_length.
  destruct (calculate_cmd trees (length names)) as [[raw infos]|e] eqn:E; [|reflexivity].
  assert (S : summarise N srt raw (map name names) = map (rename_row name) (summarise N srt raw names)).
  { unfold summarise. set (key := dedup_by nat2_eqb (map fst raw)). set (grp := fun (cols : list string) k => {| cr_root := nth (fst k) cols EmptyString; cr_var := nth (snd k) cols EmptyString; cr_value := mean_defined N (map fst (map snd (filter (fun r : raw_row => nat2_eqb (fst r) k) raw))); cr_occ := length (filter snd (map snd (filter (fun r : raw_row => nat2_eqb (fst r) k) raw))) |}).
    change (filter (fun r => negb (String.eqb (cr_var r) (cr_root r))) (srt _ (cmd_le N) (map (grp (map name names)) key)) = map (rename_row name) (filter (fun r => negb (String.eqb (cr_var r) (cr_root r))) (srt _ (cmd_le N) (map (grp names) key)))).
    assert (B : forall k, In k key -> fst k < length names /\ snd k < length names) by (intros k Hin; apply dedup_by_sub in Hin; eapply raw_keys; [exact E|exact Hin]).
    rewrite (map_ext_in (grp (map name names)) (fun k => rename_row name (grp names k)) key) by (intros k Hin; destruct (B k Hin); unfold grp, rename_row; cbn [cr_root cr_var cr_value cr_occ]; rewrite !nth_map_in by assumption; reflexivity).
    rewrite <- (map_map (grp names) (rename_row name)). rewrite (Hk _ _ (rename_row name) (cmd_le N) (cmd_le N)) by (intros; reflexivity).
    apply filter_map_comm. intros r Hr. cbn [rename_row cr_var cr_root]. f_equal.
    assert (Hr' : In r (map (grp names) key)) by (apply (Permutation_in _ (proj1 (Hs _ (cmd_le N) (cmd_le_pre N HN) (map (grp names) key)))), Hr).
    apply in_map_iff in Hr' as (k & <- & Hin). destruct (B k Hin). apply (apart_eqb name names); [exact Ha|apply nth_In; assumption..]. }
  rewrite S.
  assert (I : minimal_depth_importance N srt (map name names) (Some infos) = mapr (map (renamed1 name)) (minimal_depth_importance N srt names (Some infos))).
  { unfold minimal_depth_importance. cbv zeta. set (entries := flat_map _ infos).
    rewrite (mapM_map (renamed1 name) (fun f => match nth_error names (Z.to_nat f) with None => Err KeyError | Some c => Ok (c, np_mean N (map (fun e => n_ofZ N (Z.of_nat (snd e))) (filter (fun e => Z.eqb (fst e) f) entries))) end)).
    2:{ intros f. rewrite nth_error_map. destruct (nth_error names (Z.to_nat f)); reflexivity. }
    destruct (mapM _ (dedup_by Z.eqb (map fst entries))) as [[|r rows]|e]; [reflexivity| |reflexivity]. cbn [mapr bind]. change (map (renamed1 name) (r :: rows)) with (renamed1 name r :: map (renamed1 name) rows) at 1. cbv iota beta.
    change (renamed1 name r :: map (renamed1 name) rows) with (map (renamed1 name) (r :: rows)). rewrite (sort_values_map N srt Hk true (renamed1 name) (fun r => snd r)) by (intros [? ?]; reflexivity). reflexivity. }
  rewrite I. destruct (minimal_depth_importance N srt names (Some infos)); reflexivity.
Qed.

(** ** Concrete runs: the two names exchanged, one column negated and the other in another unit *)
Definition v_gen : rng_ops nat := {|
  r_seed := fun z => Z.to_nat z;
  r_perm := fun g n => (match n with 0 => [] | _ => skipn (g mod n) (seq 0 n) ++ firstn (g mod n) (seq 0 n) end, S g);
  r_sample := fun g n k => (firstn k (seq 0 n), S g) |}.
Definition swap_ab (f : string) : string := if String.eqb f "a" then "b" else if String.eqb f "b" then "a" else f.
Definition units (p : nat) (z : Z) : Z := match p with O => (- z)%Z | S O => (10 * z)%Z | _ => z end.
Definition v_col (p : nat) (r : list Z) : Z := match nth_error r p with Some z => z | None => 0%Z end.
Definition v_model : model Z (ext Q) := {| md_id := 0; md_proba1 := None; md_predict := Some (fun _ rows => Ok (map (fun r => Fin (inject_Z (v_col 0 r * v_col 1 r + v_col 0 r)%Z)) rows)) |}.
Definition v_model2 : model Z (ext Q) := {| md_id := 1; md_proba1 := None; md_predict := Some (fun _ rows => Ok (map (fun r => Fin (inject_Z (- v_col 0 r * (v_col 1 r / 10) - v_col 0 r)%Z)) rows)) |}.
Definition v_args : sargs Z (ext Q) :=
  {| sa_model := v_model; sa_X := {| f_cols := ["a"; "b"]; f_index := [0; 1; 2]%Z; f_num := ["a"]; f_rows := [[0; 1]; [1; 1]; [2; 4]]%Z |};
     sa_y := {| t_series := false; t_index := []; t_vals := [Fin 0; Fin 2; Fin 9]%Q |}; sa_n := None; sa_repeat := 2; sa_features := None |}.
Lemma v_answers : same_answers units (md_predict v_model) (md_predict v_model2).
Proof.
  intros i rows. f_equal. rewrite map_map. apply map_ext. intros r. f_equal. f_equal. unfold v_col. rewrite !recode_nth. destruct (nth_error r 0) as [x|], (nth_error r 1) as [z|]; cbn [option_map units]; rewrite ?(Z.mul_comm 10), ?Z.div_mul, ?Zdiv_0_l by discriminate; lia.
Qed.
Example C140_performance_example : let '(s, r, log) := sj_fit xQ v_gen isort (MSE xQ) 5 (sj_init 1) v_args in
  let '(s2, r2, log2) := sj_fit xQ v_gen isort (MSE xQ) 5 (sj_init 1) (recode_args swap_ab units v_model2 v_args) in
  r = Ok tt /\ r2 = Ok tt /\ sj_fi s <> None /\ sj_fi s2 = option_map (map (renamed1 swap_ab)) (sj_fi s) /\ sj_ovo s2 = option_map (map (renamed swap_ab)) (sj_ovo s) /\ length log = 12 /\ log2 = map (map (recode units)) log.
Proof.
  pose proof (C140_performance xQ v_gen isort swap_ab units (MSE xQ) 5 (sj_init 1) v_args v_model2 isort_keys_only v_answers) as H.
  assert (Hr : (let '(s, r, log) := sj_fit xQ v_gen isort (MSE xQ) 5 (sj_init 1) v_args in (r, match sj_fi s with None => false | Some _ => true end, length log)) = (Ok tt, true, 12)) by (vm_compute; reflexivity).
  change (recode_state swap_ab units (sj_init 1)) with (@sj_init Z (ext Q) nat 1) in H.
  destruct (sj_fit xQ v_gen isort (MSE xQ) 5 (sj_init 1) v_args) as [[s r] log]. rewrite H; [|intros f f' [<-|[<-|[]]] [<-|[<-|[]]]; cbn; congruence]. injection Hr as -> Hf Hl.
  repeat split; [destruct (sj_fi s); [discriminate|discriminate Hf]|exact Hl].
Qed.
Example C140_forest_example : cs_fi (fst (cmd_fit xQ isort cs_init (rename_forest swap_ab {| fo_names := Some ["a"; "b"; "z"; "w"]; fo_trees := [ex_arrays; ex_arrays_bf] |}))) = Some [("b", Fin 0%Q); ("a", Fin 1%Q); ("w", Fin 2%Q); ("z", Fin 3%Q)]
  /\ apart swap_ab ["a"; "b"; "z"; "w"].
Proof. split; [vm_compute; reflexivity|]. intros f f' Hf Hf'. cbn in Hf, Hf'. repeat (destruct Hf as [<-|Hf]; [repeat (destruct Hf' as [<-|Hf']; [cbn; congruence|]); contradiction|]). contradiction. Qed.

Print Assumptions C140_importance.
Print Assumptions C140_performance.
Print Assumptions C140_forest.
