(** Properties C01-C11 of the partial dependence calculator.  The statements use only the API
    functions of the model (PdCalc.v) and the specification (PdSpec.v). *)
From Verif Require Import Py Num Frame PdCalc PdSpec PdProofs PdTheorems PdErrors PdApi.
From Coq Require Import QArith.
Open Scope string_scope.
Open Scope nat_scope.
Open Scope list_scope.

(** A concrete calculator: two features, three rows (column "b" has three values), the model
    multiplies them; the first prediction request fails in [exPf]. *)
Definition exX : frame Z := {| f_cols := ["a"; "b"]; f_index := [0;1;2]%Z; f_num := ["a"; "b"];
                               f_rows := [[1;10];[2;20];[1;30]]%Z |}.
Definition exg (r : list Z) : ext Q := match r with [x; y] => Fin (inject_Z (x * y)) | _ => NaN end.
Definition exP : nat -> list (list Z) -> result (list (ext Q)) := fun _ rows => Ok (map exg rows).
Definition exPf : nat -> list (list Z) -> result (list (ext Q)) := fun n rows => if n =? 0 then Err PredictError else Ok (map exg rows).

Example exX_wf : wf_frame exX.
Proof. repeat constructor; cbn; intuition congruence. Qed.
Example exP_rowwise : rowwise exP exg.
Proof. intros n rows ys H; injection H as <-; reflexivity. Qed.
Example exPf_rowwise : rowwise exPf exg.
Proof. intros [|n] rows ys H; cbn in H; [discriminate|injection H as <-; reflexivity]. Qed.
Example xQ_nan : n_isnan xQ (n_nan xQ) = true.
Proof. reflexivity. Qed.

(** ** C01 *)
Theorem C01_single_exact {C V} (O : cell_ops C) (N : num_ops V) (HO : cell_ok O) (Hnan : n_isnan N (n_nan N) = true)
  m X P b c g fs c' p f :
  wf_frame X -> rowwise P g -> reachable O N m X P b c ->
  calculate_pd_single O N c fs = (c', Ok tt) -> In f (feats X fs) -> nth_error (f_cols X) p = Some f ->
  (forall vs, (forall v, In v vs -> In v (col_at p (f_rows X))) ->
     get_pd_single O c' f (Some vs) = Ok (map (PD1 (np_mean N) g (f_rows X) p) vs))
  /\ get_pd_single O c' f None = Ok (map (PD1 (np_mean N) g (f_rows X) p) (np_unique O (col_at p (f_rows X)))).
Proof. exact (pd_single_exact O N HO Hnan m X P b c g fs c' p f). Qed.
Print Assumptions C01_single_exact.

Theorem C01_single_always_sound {C V} (O : cell_ops C) (N : num_ops V) (HO : cell_ok O) (Hnan : n_isnan N (n_nan N) = true)
  m X P b c g p f :
  wf_frame X -> rowwise P g -> reachable O N m X P b c -> nth_error (f_cols X) p = Some f ->
  (forall vs xs, get_pd_single O c f (Some vs) = Ok xs ->
     Forall2 (fun v x => n_isnan N x = true \/ x = PD1 (np_mean N) g (f_rows X) p v) vs xs)
  /\ (forall xs, get_pd_single O c f None = Ok xs ->
     Forall2 (fun v x => n_isnan N x = true \/ x = PD1 (np_mean N) g (f_rows X) p v) (np_unique O (col_at p (f_rows X))) xs).
Proof.
  intros HX Hg Hr Hp; split; intros; [eapply (pd_single_sound O N HO Hnan)|eapply (pd_single_all_sound O N HO Hnan)]; eassumption.
Qed.
Print Assumptions C01_single_always_sound.

(* after a failed first call, the second one computes PD values 10/3*... of the product model *)
Example C01_example :
  let c := run Zcell xQ (calc_init Zcell xQ 0 exX exPf 3) [OpSingle None] in
  snd (step Zcell xQ (calc_init Zcell xQ 0 exX exPf 3) (OpSingle None)) = Err PredictError
  /\ snd (calculate_pd_single Zcell xQ c None) = Ok tt
  /\ get_pd_single Zcell (fst (calculate_pd_single Zcell xQ c None)) "a" None = Ok [Fin (20 # 1); Fin (40 # 1)]
  /\ get_pd_single Zcell (fst (calculate_pd_single Zcell xQ c None)) "b" (Some [30; 10]%Z) = Ok [Fin (40 # 1); Fin (40 # 3)].
Proof. vm_compute; auto. Qed.

(** ** C02 *)
Theorem C02_pairs_exact {C V} (O : cell_ops C) (N : num_ops V) (HO : cell_ok O) (Hnan : n_isnan N (n_nan N) = true)
  m X P b c g ps (a : bool) c' p q f1 f2 :
  wf_frame X -> rowwise P g -> reachable O N m X P b c ->
  calculate_pd_pairs O N c ps a = (c', Ok tt) -> requested X ps f1 f2 ->
  nth_error (f_cols X) p = Some f1 -> nth_error (f_cols X) q = Some f2 -> p <> q ->
  forall vals,
  (forall v w, In (v, w) vals ->
     if a then In v (col_at p (f_rows X)) /\ In w (col_at q (f_rows X))
     else exists r, In r (f_rows X) /\ nth_error r p = Some v /\ nth_error r q = Some w) ->
  get_pd_pairs O c' f1 f2 vals = Ok (map (fun v => PD2 (np_mean N) g (f_rows X) p q (fst v) (snd v)) vals).
Proof. exact (pd_pairs_exact O N HO Hnan m X P b c g ps a c' p q f1 f2). Qed.
Print Assumptions C02_pairs_exact.

Theorem C02_pairs_always_sound {C V} (O : cell_ops C) (N : num_ops V) (HO : cell_ok O) (Hnan : n_isnan N (n_nan N) = true)
  m X P b c g p q f1 f2 vals xs :
  wf_frame X -> rowwise P g -> reachable O N m X P b c ->
  nth_error (f_cols X) p = Some f1 -> nth_error (f_cols X) q = Some f2 -> p <> q ->
  get_pd_pairs O c f1 f2 vals = Ok xs ->
  Forall2 (fun v x => n_isnan N x = true \/ x = PD2 (np_mean N) g (f_rows X) p q (fst v) (snd v)) vals xs.
Proof. exact (pd_pairs_sound O N HO Hnan m X P b c g p q f1 f2 vals xs). Qed.
Print Assumptions C02_pairs_always_sound.

Example C02_example :
  let c := calc_init Zcell xQ 0 exX exP 3 in
  snd (calculate_pd_pairs Zcell xQ c (Some [("b","a")]) true) = Ok tt
  /\ get_pd_pairs Zcell (fst (calculate_pd_pairs Zcell xQ c (Some [("b","a")]) true)) "b" "a" [(30,2);(10,1)]%Z
     = Ok [Fin (60 # 1); Fin (10 # 1)]
  /\ snd (calculate_pd_pairs Zcell xQ c None false) = Ok tt
  /\ get_pd_pairs Zcell (fst (calculate_pd_pairs Zcell xQ c None false)) "a" "b" [(2,20);(2,10)]%Z
     = Ok [Fin (40 # 1); NaN].
Proof. vm_compute; auto. Qed.

(** ** C03 *)
Theorem C03_minus_exact {C V} (O : cell_ops C) (N : num_ops V) (HO : cell_ok O) (Hnan : n_isnan N (n_nan N) = true)
  m X P b c g fs c' p f :
  wf_frame X -> rowwise P g -> reachable O N m X P b c ->
  calculate_pd_minus_single N c fs = (c', Ok tt) -> In f (feats X fs) -> nth_error (f_cols X) p = Some f ->
  get_pd_minus_single c' f = Ok (map (PDminus (np_mean N) g (f_rows X) p) (f_rows X)).
Proof. exact (pd_minus_exact O N HO Hnan m X P b c g fs c' p f). Qed.
Print Assumptions C03_minus_exact.

Theorem C03_minus_always_sound {C V} (O : cell_ops C) (N : num_ops V) (HO : cell_ok O) (Hnan : n_isnan N (n_nan N) = true)
  m X P b c g p f xs :
  wf_frame X -> rowwise P g -> reachable O N m X P b c ->
  nth_error (f_cols X) p = Some f -> get_pd_minus_single c f = Ok xs ->
  Forall2 (fun row x => n_isnan N x = true \/ x = PDminus (np_mean N) g (f_rows X) p row) (f_rows X) xs.
Proof. exact (pd_minus_sound O N HO Hnan m X P b c g p f xs). Qed.
Print Assumptions C03_minus_always_sound.

Example C03_example :
  let c := calc_init Zcell xQ 0 exX exP 3 in
  snd (calculate_pd_minus_single xQ c None) = Ok tt
  /\ get_pd_minus_single (fst (calculate_pd_minus_single xQ c None)) "b" = Ok [Fin (20 # 1); Fin (40 # 1); Fin (20 # 1)].
Proof. vm_compute; auto. Qed.

(** ** C04 *)
Theorem C04_single_history_independent {C V} (O : cell_ops C) (N : num_ops V) (HO : cell_ok O) (Hnan : n_isnan N (n_nan N) = true)
  m1 m2 X P1 P2 b1 b2 c1 c2 g fs1 fs2 d1 d2 f :
  wf_frame X -> rowwise P1 g -> rowwise P2 g ->
  reachable O N m1 X P1 b1 c1 -> reachable O N m2 X P2 b2 c2 ->
  calculate_pd_single O N c1 fs1 = (d1, Ok tt) -> calculate_pd_single O N c2 fs2 = (d2, Ok tt) ->
  In f (feats X fs1) -> In f (feats X fs2) ->
  get_pd_single O d1 f None = get_pd_single O d2 f None
  /\ forall vs, get_pd_single O d1 f (Some vs) = get_pd_single O d2 f (Some vs).
Proof. exact (single_agree O N HO Hnan m1 m2 X P1 P2 b1 b2 c1 c2 g fs1 fs2 d1 d2 f). Qed.
Print Assumptions C04_single_history_independent.

Theorem C04_minus_history_independent {C V} (O : cell_ops C) (N : num_ops V) (HO : cell_ok O) (Hnan : n_isnan N (n_nan N) = true)
  m1 m2 X P1 P2 b1 b2 c1 c2 g fs1 fs2 d1 d2 f :
  wf_frame X -> rowwise P1 g -> rowwise P2 g ->
  reachable O N m1 X P1 b1 c1 -> reachable O N m2 X P2 b2 c2 ->
  calculate_pd_minus_single N c1 fs1 = (d1, Ok tt) -> calculate_pd_minus_single N c2 fs2 = (d2, Ok tt) ->
  In f (feats X fs1) -> In f (feats X fs2) ->
  get_pd_minus_single d1 f = get_pd_minus_single d2 f.
Proof. exact (minus_agree O N HO Hnan m1 m2 X P1 P2 b1 b2 c1 c2 g fs1 fs2 d1 d2 f). Qed.
Print Assumptions C04_minus_history_independent.

Theorem C04_pairs_history_independent {C V} (O : cell_ops C) (N : num_ops V) (HO : cell_ok O) (Hnan : n_isnan N (n_nan N) = true)
  m1 m2 X P1 P2 b1 b2 c1 c2 g ps1 ps2 d1 d2 f1 f2 :
  wf_frame X -> rowwise P1 g -> rowwise P2 g ->
  reachable O N m1 X P1 b1 c1 -> reachable O N m2 X P2 b2 c2 ->
  calculate_pd_pairs O N c1 ps1 true = (d1, Ok tt) -> calculate_pd_pairs O N c2 ps2 true = (d2, Ok tt) ->
  In f1 (f_cols X) -> In f2 (f_cols X) -> f1 <> f2 ->
  requested X ps1 f1 f2 -> requested X ps2 f1 f2 ->
  get_pd_pairs_all d1 f1 f2 = get_pd_pairs_all d2 f1 f2
  /\ forall vals, get_pd_pairs O d1 f1 f2 vals = get_pd_pairs O d2 f1 f2 vals.
Proof. exact (pairs_agree O N HO Hnan m1 m2 X P1 P2 b1 b2 c1 c2 g ps1 ps2 d1 d2 f1 f2). Qed.
Print Assumptions C04_pairs_history_independent.

(* different batch sizes, one of the two calculators had a failed call and pair calculations before *)
Example C04_example :
  let c1 := calc_init Zcell xQ 0 exX exP 2000 in
  let c2 := run Zcell xQ (calc_init Zcell xQ 0 exX exPf 0) [OpSingle None; OpPairs None false] in
  snd (calculate_pd_pairs Zcell xQ c1 None true) = Ok tt /\ snd (calculate_pd_pairs Zcell xQ c2 (Some [("b","a")]) true) = Ok tt
  /\ get_pd_pairs_all (fst (calculate_pd_pairs Zcell xQ c1 None true)) "a" "b"
     = Ok [[Fin (10 # 1); Fin (20 # 1); Fin (30 # 1)]; [Fin (20 # 1); Fin (40 # 1); Fin (60 # 1)]]
  /\ get_pd_pairs_all (fst (calculate_pd_pairs Zcell xQ c2 (Some [("b","a")]) true)) "a" "b"
     = get_pd_pairs_all (fst (calculate_pd_pairs Zcell xQ c1 None true)) "a" "b".
Proof. vm_compute; auto. Qed.

(** ** C05 *)
Theorem C05_pairs_requests {C V} (O : cell_ops C) (N : num_ops V) (HO : cell_ok O) m X P b c ps a c' r :
  wf_frame X -> reachable O N m X P b c -> calculate_pd_pairs O N c ps a = (c', r) ->
  exists reqs, c_log c' = c_log c ++ reqs
  /\ (forall q, In q reqs -> (Z.of_nat (length q) <= Z.max 0 b + Z.of_nat (length (f_rows X)))%Z
        /\ 0 < length q /\ exists k, length q = k * length (f_rows X))
  /\ (forall q, In q (removelast reqs) -> (b < Z.of_nat (length q))%Z).
Proof.
  intros HX Hr H. destruct (pairs_requests O N HO m X P b c ps a c' r HX Hr H) as (reqs & Hl & Hf & Hb).
  exists reqs; split; [exact Hl|]. split; [|exact Hb]. intros q Hq. rewrite Forall_forall in Hf.
  destruct (Hf q Hq) as (H1 & H2 & H3). rewrite Nat.mul_1_l in H1. auto.
Qed.
Print Assumptions C05_pairs_requests.

Theorem C05_single_requests {C V} (O : cell_ops C) (N : num_ops V) (HO : cell_ok O) m X P b c fs c' r w :
  wf_frame X -> reachable O N m X P b c ->
  (forall f p, In f (feats X fs) -> nth_error (f_cols X) p = Some f -> length (np_unique O (col_at p (f_rows X))) <= w) ->
  calculate_pd_single O N c fs = (c', r) ->
  exists reqs, c_log c' = c_log c ++ reqs
  /\ (forall q, In q reqs -> (Z.of_nat (length q) <= Z.max 0 b + Z.of_nat (w * length (f_rows X)))%Z
        /\ 0 < length q /\ exists k, length q = k * length (f_rows X))
  /\ (forall q, In q (removelast reqs) -> (b < Z.of_nat (length q))%Z).
Proof.
  intros HX Hr Hw H. destruct (single_requests O N HO m X P b c fs c' r w HX Hr) as (reqs & Hl & Hf & Hb); [|exact H|].
  - intros f Hf. unfold grid, column. destruct (col_pos (f_cols X) f) as [p|] eqn:E; [|cbn; lia].
    apply col_pos_nth in E. eapply Hw; eauto.
  - exists reqs; split; [exact Hl|]. split; [|exact Hb]. intros q Hq. rewrite Forall_forall in Hf. apply (Hf q Hq).
Qed.
Print Assumptions C05_single_requests.

Theorem C05_minus_requests {C V} (O : cell_ops C) (N : num_ops V) (HO : cell_ok O) m X P b c fs c' r :
  wf_frame X -> reachable O N m X P b c -> calculate_pd_minus_single N c fs = (c', r) ->
  exists reqs, c_log c' = c_log c ++ reqs
  /\ (forall q, In q reqs -> (Z.of_nat (length q) <= Z.max 0 b + Z.of_nat (length (f_rows X) * length (f_rows X)))%Z
        /\ 0 < length q /\ exists k, length q = k * length (f_rows X))
  /\ (forall q, In q (removelast reqs) -> (b < Z.of_nat (length q))%Z).
Proof.
  intros HX Hr H. destruct (minus_requests O N HO m X P b c fs c' r HX Hr H) as (reqs & Hl & Hf & Hb).
  exists reqs; split; [exact Hl|]. split; [|exact Hb]. intros q Hq. rewrite Forall_forall in Hf. apply (Hf q Hq).
Qed.
Print Assumptions C05_minus_requests.

(* six cells of three rows each; batch size 7: two requests of nine rows *)
Example C05_example :
  map (@length _) (c_log (fst (calculate_pd_pairs Zcell xQ (calc_init Zcell xQ 0 exX exP 7) None true))) = [9; 9].
Proof. vm_compute; reflexivity. Qed.

(** ** C06 *)
Theorem C06_single_reuse {C V} (O : cell_ops C) (N : num_ops V) (c : calc C V) fs :
  (forall f, In f (feats (c_X c) fs) -> exists xs, get_pd_single O c f None = Ok xs /\ forall x, In x xs -> n_isnan N x = false) ->
  calculate_pd_single O N c fs = (c, Ok tt).
Proof. exact (single_reuse O N c fs). Qed.
Print Assumptions C06_single_reuse.

Theorem C06_minus_reuse {C V} (N : num_ops V) (c : calc C V) fs :
  (forall f, In f (feats (c_X c) fs) -> exists xs, get_pd_minus_single c f = Ok xs /\ forall x, In x xs -> n_isnan N x = false) ->
  calculate_pd_minus_single N c fs = (c, Ok tt).
Proof. exact (minus_reuse N c fs). Qed.
Print Assumptions C06_minus_reuse.

Theorem C06_pairs_reuse {C V} (O : cell_ops C) (N : num_ops V) (HO : cell_ok O) m X P b c ps (a : bool) :
  wf_frame X -> reachable O N m X P b c ->
  (forall f1 f2, In (f1, f2) (plist X ps) -> f1 <> f2 /\ exists p q,
     nth_error (f_cols X) p = Some f1 /\ nth_error (f_cols X) q = Some f2 /\
     forall v w, (if a then In v (col_at p (f_rows X)) /\ In w (col_at q (f_rows X))
                  else exists r, In r (f_rows X) /\ nth_error r p = Some v /\ nth_error r q = Some w) ->
       exists x, get_pd_pairs O c f1 f2 [(v, w)] = Ok [x] /\ n_isnan N x = false) ->
  calculate_pd_pairs O N c ps a = (c, Ok tt).
Proof. exact (pairs_reuse O N HO m X P b c ps a). Qed.
Print Assumptions C06_pairs_reuse.

Theorem C06_pairs_never_overwritten {C V} (O : cell_ops C) (N : num_ops V) (HO : cell_ok O) m X P b c ps a c' r f1 f2 v w x :
  wf_frame X -> reachable O N m X P b c ->
  calculate_pd_pairs O N c ps a = (c', r) -> In f1 (f_cols X) -> In f2 (f_cols X) -> f1 <> f2 ->
  get_pd_pairs O c f1 f2 [(v, w)] = Ok [x] -> n_isnan N x = false ->
  get_pd_pairs O c' f1 f2 [(v, w)] = Ok [x].
Proof. exact (pairs_keep O N HO m X P b c ps a c' r f1 f2 v w x). Qed.
Print Assumptions C06_pairs_never_overwritten.

Example C06_example :
  let c := run Zcell xQ (calc_init Zcell xQ 0 exX exP 7) [OpPairs None true; OpSingle None; OpMinus None] in
  length (c_log c) = 5
  /\ length (c_log (run Zcell xQ c [OpPairs None true; OpPairs (Some [("b","a")]) false; OpSingle (Some ["b"]); OpMinus None])) = 5.
Proof. vm_compute; auto. Qed.

(** ** C07 *)
Theorem C07_single_isolation {C V} (O : cell_ops C) (N : num_ops V) (HO : cell_ok O) m X P b c fs c' r :
  wf_frame X -> reachable O N m X P b c -> calculate_pd_single O N c fs = (c', r) ->
  c_pairs c' = c_pairs c /\ c_minus c' = c_minus c /\ c_X c' = c_X c
  /\ map (fun e => (fst e, fst (snd e))) (c_single c') = map (fun e => (fst e, fst (snd e))) (c_single c)
  /\ forall f vs, ~ In f (feats X fs) -> get_pd_single O c' f vs = get_pd_single O c f vs.
Proof. exact (single_isolation O N HO m X P b c fs c' r). Qed.
Print Assumptions C07_single_isolation.

Theorem C07_minus_isolation {C V} (O : cell_ops C) (N : num_ops V) (HO : cell_ok O) m X P b c fs c' r :
  wf_frame X -> reachable O N m X P b c -> calculate_pd_minus_single N c fs = (c', r) ->
  c_pairs c' = c_pairs c /\ c_single c' = c_single c /\ c_X c' = c_X c
  /\ map (fun e => (fst e, length (snd e))) (c_minus c') = map (fun e => (fst e, length (snd e))) (c_minus c)
  /\ forall f, ~ In f (feats X fs) -> get_pd_minus_single c' f = get_pd_minus_single c f.
Proof. exact (minus_isolation O N HO m X P b c fs c' r). Qed.
Print Assumptions C07_minus_isolation.

Theorem C07_pairs_isolation {C V} (O : cell_ops C) (N : num_ops V) (HO : cell_ok O) m X P b c ps a c' r :
  wf_frame X -> reachable O N m X P b c -> calculate_pd_pairs O N c ps a = (c', r) ->
  c_single c' = c_single c /\ c_minus c' = c_minus c /\ c_X c' = c_X c
  /\ map (fun e => (fst e, fst (snd e), map (@length V) (snd (snd e)))) (c_pairs c')
     = map (fun e => (fst e, fst (snd e), map (@length V) (snd (snd e)))) (c_pairs c)
  /\ forall f1 f2, ~ requested X ps f1 f2 ->
       get_pd_pairs_all c' f1 f2 = get_pd_pairs_all c f1 f2
       /\ forall vals, get_pd_pairs O c' f1 f2 vals = get_pd_pairs O c f1 f2 vals.
Proof. exact (pairs_isolation O N HO m X P b c ps a c' r). Qed.
Print Assumptions C07_pairs_isolation.

Theorem C07_grids {C V} (O : cell_ops C) (N : num_ops V) (HO : cell_ok O) m X P b c p f :
  wf_frame X -> reachable O N m X P b c -> nth_error (f_cols X) p = Some f ->
  (forall v, In v (col_at p (f_rows X)) -> c_isnan O v = false) ->
  exists grid pv, assoc String.eqb f (c_single c) = Some (grid, pv) /\ length pv = length grid
  /\ StronglySorted (fun a b => c_ltb O a b = true) grid
  /\ forall v, In v grid <-> In v (col_at p (f_rows X)).
Proof.
  intros HX Hr Hp Hn. destruct (grid_values O N HO m X P b c p f HX Hr Hp Hn) as (pv & H1 & H2 & H3 & H4). eauto 10.
Qed.
Print Assumptions C07_grids.

Example C07_example :
  let c := run Zcell xQ (calc_init Zcell xQ 0 exX exP 7) [OpSingle (Some ["a"])] in
  get_pd_single Zcell c "a" None = Ok [Fin (20 # 1); Fin (40 # 1)]
  /\ get_pd_single Zcell c "b" None = Ok [NaN; NaN; NaN].
Proof. vm_compute; auto. Qed.

(** ** C08: after any history, failed calls included, stored values are still right (that is
    [C01_single_always_sound] etc., whose histories contain failed calls); and repeating a
    failed call once the model works again gives exactly the right values. *)
Definition works_from {C V} (P : nat -> list (list C) -> result (list V)) (n0 : nat) : Prop :=
  forall n rows, n0 <= n -> exists ys, P n rows = Ok ys.

Theorem C08_single_retry {C V} (O : cell_ops C) (N : num_ops V) (HO : cell_ok O) (Hnan : n_isnan N (n_nan N) = true)
  m X P b c g fs :
  wf_frame X -> rowwise P g -> reachable O N m X P b c -> works_from P (length (c_log c)) ->
  (forall f, In f (feats X fs) -> exists p, nth_error (f_cols X) p = Some f /\ forall v, In v (col_at p (f_rows X)) -> c_isnan O v = false) ->
  exists c', calculate_pd_single O N c fs = (c', Ok tt)
  /\ forall f p, In f (feats X fs) -> nth_error (f_cols X) p = Some f ->
     get_pd_single O c' f None = Ok (map (PD1 (np_mean N) g (f_rows X) p) (np_unique O (col_at p (f_rows X)))).
Proof.
  intros HX Hg Hr Hw Hf. destruct (calculate_pd_single O N c fs) as [c' r] eqn:H. exists c'.
  assert (Hok : r = Ok tt).
  { destruct r as [[]|e]; [reflexivity|exfalso].
    destruct (single_outcome O N HO m X P b c fs c' (Err e) HX Hr H) as [He _].
    destruct (He e eq_refl) as [(n & rows & Hn & Hp)|[(-> & f & Hin & Hno)|(-> & f & v & Hin & Hv & Hvn)]].
    - destruct (Hw n rows Hn) as (ys & Hy); congruence.
    - destruct (Hf f Hin) as (p & Hp & _). apply Hno. eapply nth_error_In; exact Hp.
    - destruct (Hf f Hin) as (p & Hp & Hnn). rewrite (PdFacts.grid_of O X HX p f Hp) in Hv.
      apply (np_unique_sub O HO) in Hv. rewrite (Hnn v Hv) in Hvn; discriminate. }
  subst r. split; [reflexivity|]. intros f p Hin Hp.
  apply (pd_single_exact O N HO Hnan m X P b c g fs c' p f HX Hg Hr H Hin Hp).
Qed.
Print Assumptions C08_single_retry.

Theorem C08_minus_retry {C V} (O : cell_ops C) (N : num_ops V) (HO : cell_ok O) (Hnan : n_isnan N (n_nan N) = true)
  m X P b c g fs :
  wf_frame X -> rowwise P g -> reachable O N m X P b c -> works_from P (length (c_log c)) ->
  (forall f, In f (feats X fs) -> In f (f_cols X)) ->
  exists c', calculate_pd_minus_single N c fs = (c', Ok tt)
  /\ forall f p, In f (feats X fs) -> nth_error (f_cols X) p = Some f ->
     get_pd_minus_single c' f = Ok (map (PDminus (np_mean N) g (f_rows X) p) (f_rows X)).
Proof.
  intros HX Hg Hr Hw Hf. destruct (calculate_pd_minus_single N c fs) as [c' r] eqn:H. exists c'.
  assert (Hok : r = Ok tt).
  { destruct r as [[]|e]; [reflexivity|exfalso].
    destruct (minus_outcome O N HO m X P b c fs c' (Err e) HX Hr H) as [He _].
    destruct (He e eq_refl) as [(n & rows & Hn & Hp)|(-> & f & Hin & Hno)].
    - destruct (Hw n rows Hn) as (ys & Hy); congruence.
    - apply Hno, Hf, Hin. }
  subst r. split; [reflexivity|]. intros f p Hin Hp.
  apply (pd_minus_exact O N HO Hnan m X P b c g fs c' p f HX Hg Hr H Hin Hp).
Qed.
Print Assumptions C08_minus_retry.

Theorem C08_pairs_retry {C V} (O : cell_ops C) (N : num_ops V) (HO : cell_ok O) (Hnan : n_isnan N (n_nan N) = true)
  m X P b c g ps (a : bool) :
  wf_frame X -> rowwise P g -> reachable O N m X P b c -> works_from P (length (c_log c)) ->
  (forall f1 f2, In (f1, f2) (plist X ps) -> f1 <> f2 /\ In f1 (f_cols X) /\ In f2 (f_cols X)
     /\ forall f p v, f = f1 \/ f = f2 -> nth_error (f_cols X) p = Some f -> In v (col_at p (f_rows X)) -> c_isnan O v = false) ->
  exists c', calculate_pd_pairs O N c ps a = (c', Ok tt)
  /\ forall f1 f2 p q vals, requested X ps f1 f2 ->
     nth_error (f_cols X) p = Some f1 -> nth_error (f_cols X) q = Some f2 -> p <> q ->
     (forall v w, In (v, w) vals ->
       if a then In v (col_at p (f_rows X)) /\ In w (col_at q (f_rows X))
       else exists r, In r (f_rows X) /\ nth_error r p = Some v /\ nth_error r q = Some w) ->
     get_pd_pairs O c' f1 f2 vals = Ok (map (fun v => PD2 (np_mean N) g (f_rows X) p q (fst v) (snd v)) vals).
Proof.
  intros HX Hg Hr Hw Hf. destruct (calculate_pd_pairs O N c ps a) as [c' r] eqn:H. exists c'.
  assert (Hok : r = Ok tt).
  { destruct r as [[]|e]; [reflexivity|exfalso].
    destruct (pairs_outcome O N HO m X P b c ps a c' (Err e) HX Hr H) as [He _].
    destruct (He e eq_refl) as [(n & rows & Hn & Hp)|[(-> & f1 & f2 & Hin & Hno)|(-> & f & v & [f1 f2] & Hin & Hor & Hv & Hvn)]].
    - destruct (Hw n rows Hn) as (ys & Hy); congruence.
    - destruct (Hf f1 f2 Hin) as (? & ? & ? & _). tauto.
    - destruct (Hf f1 f2 Hin) as (_ & Hi1 & Hi2 & Hnn). cbn in Hor.
      assert (Hfi : In f (f_cols X)) by (destruct Hor as [-> | ->]; assumption).
      apply In_nth_error in Hfi as (p & Hp). rewrite (PdFacts.grid_of O X HX p f Hp) in Hv.
      apply (np_unique_sub O HO) in Hv. rewrite (Hnn f p v Hor Hp Hv) in Hvn; discriminate. }
  subst r. split; [reflexivity|]. intros f1 f2 p q vals Hreq Hp Hq Hne Hv.
  exact (pd_pairs_exact O N HO Hnan m X P b c g ps a c' p q f1 f2 HX Hg Hr H Hreq Hp Hq Hne vals Hv).
Qed.
Print Assumptions C08_pairs_retry.

(* the model fails during the second of the requests, some values are already stored *)
Definition exPf1 : nat -> list (list Z) -> result (list (ext Q)) := fun n rows => if n =? 1 then Err PredictError else Ok (map exg rows).
Example C08_example :
  let c0 := calc_init Zcell xQ 0 exX exPf1 3 in
  let c := fst (calculate_pd_pairs Zcell xQ c0 None true) in
  snd (calculate_pd_pairs Zcell xQ c0 None true) = Err PredictError
  /\ get_pd_pairs_all c "a" "b" = Ok [[Fin (10 # 1); Fin (20 # 1); NaN]; [NaN; NaN; NaN]]
  /\ length (c_log c) = 2
  /\ snd (calculate_pd_pairs Zcell xQ c None true) = Ok tt
  /\ get_pd_pairs_all (fst (calculate_pd_pairs Zcell xQ c None true)) "a" "b"
     = Ok [[Fin (10 # 1); Fin (20 # 1); Fin (30 # 1)]; [Fin (20 # 1); Fin (40 # 1); Fin (60 # 1)]].
Proof. vm_compute; auto 10. Qed.
Example exPf1_works : works_from exPf1 2.
Proof. intros [|[|n]] rows Hn; [lia|lia|]. eexists; reflexivity. Qed.

(** ** C09 *)
Theorem C09_pairs_order {C V} (O : cell_ops C) (N : num_ops V) (HO : cell_ok O) m X P b c f1 f2 vals :
  wf_frame X -> reachable O N m X P b c -> In f1 (f_cols X) -> In f2 (f_cols X) ->
  get_pd_pairs O c f1 f2 vals = get_pd_pairs O c f2 f1 (map (fun p => (snd p, fst p)) vals).
Proof.
  intros HX Hr H1 H2. destruct (reachable_shaped O N HO m X P b c HX Hr) as ((_ & Hs & _) & HXc & _). rewrite HXc in Hs.
  exact (get_pd_pairs_swap O N c X f1 f2 vals HX Hs H1 H2).
Qed.
Print Assumptions C09_pairs_order.

Theorem C09_pairs_rejected {C V} (O : cell_ops C) (N : num_ops V) (HO : cell_ok O) m X P b c f1 f2 vals :
  wf_frame X -> reachable O N m X P b c ->
  (~ In f1 (f_cols X) \/ ~ In f2 (f_cols X) \/ f1 = f2 -> get_pd_pairs O c f1 f2 vals = Err KeyError)
  /\ (forall p q v w, nth_error (f_cols X) p = Some f1 -> nth_error (f_cols X) q = Some f2 -> p <> q -> In (v, w) vals ->
        ~ In v (col_at p (f_rows X)) \/ ~ In w (col_at q (f_rows X)) -> get_pd_pairs O c f1 f2 vals = Err IndexError).
Proof.
  intros HX Hr. destruct (reachable_shaped O N HO m X P b c HX Hr) as ((_ & Hs & _) & HXc & _). rewrite HXc in Hs.
  pose proof HX as (Hnd & _). split.
  - intros Hn. unfold get_pd_pairs.
    assert (Hno : forall p, In p (combinations2 (f_cols X)) -> p <> (f1, f2) /\ p <> (f2, f1)).
    { intros [p1 p2] Hp. pose proof (combinations2_In _ _ Hp) as [Hp1 Hp2]. apply combinations2_irrefl in Hp; [|exact Hnd]. cbn in *.
      split; intros E; injection E as -> ->; intuition congruence. }
    assert (Hg : dict_get pair_eqb (get_pair_key c (f1, f2)) (c_pairs c) = Err KeyError).
    { unfold dict_get. destruct (assoc _ _ _) as [e|] eqn:E; [|reflexivity].
      eapply PdProofs.pshape_assoc in E as [E _]; [|exact Hs]. apply Hno in E. unfold get_pair_key in E. destruct (assoc _ _ _); tauto. }
    rewrite Hg; reflexivity.
  - intros p q v w Hp Hq Hne Hin Hout. destruct (combos_pos X f1 f2 p q HX Hp Hq Hne) as (Hi1 & Hi2 & Hd).
    (* no value pair list containing (v, w) can be answered *)
    assert (Hbad : forall fa fb i j va wa l, nth_error (f_cols X) i = Some fa -> nth_error (f_cols X) j = Some fb ->
      In (fa, fb) (combinations2 (f_cols X)) -> In (va, wa) l -> ~ In va (col_at i (f_rows X)) \/ ~ In wa (col_at j (f_rows X)) ->
      get_pd_pairs O c fa fb l = Err IndexError).
    { intros fa fb i j va wa l Hi Hj Hc Hl Ho.
      destruct (get_pd_pairs O c fa fb l) as [xs|e] eqn:E.
      - exfalso. apply (pairs_elem O N c X fa fb l HX Hs Hc) in E.
        assert (Hx : exists x, PdFacts.pget O (c_pairs c) ((fa, fb), va, wa) = Some x).
        { clear -E Hl. induction E as [|a y l ys Ha Hrest IH]; [destruct Hl|]. destruct Hl as [->|Hl]; [eauto|auto]. }
        destruct Hx as (x & Hx). unfold PdFacts.pget in Hx; cbn [fst snd] in Hx.
        destruct (assoc _ _ _) as [e|] eqn:Ee; [|discriminate].
        eapply PdProofs.pshape_assoc in Ee as (_ & Hf & _); [|exact Hs]. rewrite Hf in Hx; cbn [fst snd] in Hx.
        rewrite (PdFacts.grid_of O X HX i fa Hi), (PdFacts.grid_of O X HX j fb Hj) in Hx.
        destruct (get_index O _ va) as [k1|] eqn:E1; [|discriminate]. destruct (get_index O (np_unique O (col_at j (f_rows X))) wa) as [k2|] eqn:E2; [|discriminate].
        apply (get_index_spec O HO) in E1 as [E1 _], E2 as [E2 _]. apply nth_error_In in E1, E2.
        apply (np_unique_sub O HO) in E1, E2. tauto.
      - f_equal. unfold get_pd_pairs in E. destruct (in_combinations_key O N c X fa fb HX Hs) as [A _]. rewrite (A Hc), pair_eqb_refl in E.
        destruct (PdProofs.pshape_assoc O N X _ (fa, fb) Hs) as [H1 H2]. destruct (H1 Hc) as (mm & Hm).
        unfold dict_get in E; rewrite Hm in E; cbn [bind] in E. apply mapM_err in E as ([v1 w1] & _ & E). cbn [fst snd] in E.
        destruct (get_index O (grid O X fa) v1) as [k1|] eqn:E1; cbn [bind] in E; [|apply get_index_err in E1; congruence].
        destruct (get_index O (grid O X fb) w1) as [k2|] eqn:E2; cbn [bind] in E; [|apply get_index_err in E2; congruence].
        unfold mat_get, get_nth in E. destruct (nth_error mm k1) as [row|]; cbn [bind] in E; [|congruence].
        destruct (nth_error row k2); congruence. }
    destruct (combinations2_complete (f_cols X) f1 f2 Hi1 Hi2 Hd) as [Hc|Hc].
    + exact (Hbad f1 f2 p q v w vals Hp Hq Hc Hin Hout).
    + rewrite (get_pd_pairs_swap O N c X f1 f2 vals HX Hs Hi1 Hi2).
      apply (Hbad f2 f1 q p w v); auto; [|tauto]. apply in_map_iff. exists (v, w); auto.
Qed.
Print Assumptions C09_pairs_rejected.

Example C09_example :
  let c := run Zcell xQ (calc_init Zcell xQ 0 exX exP 7) [OpPairs None true] in
  get_pd_pairs Zcell c "a" "b" [(2,10);(1,30)]%Z = Ok [Fin (20 # 1); Fin (30 # 1)]
  /\ get_pd_pairs Zcell c "b" "a" [(10,2);(30,1)]%Z = Ok [Fin (20 # 1); Fin (30 # 1)]
  /\ get_pd_pairs Zcell c "b" "a" [(10,2);(31,1)]%Z = Err IndexError
  /\ get_pd_pairs Zcell c "b" "c" [(10,2)]%Z = Err KeyError.
Proof. vm_compute; auto 10. Qed.

(** ** C67 *)
Theorem C67_single_rejected {C V} (O : cell_ops C) (N : num_ops V) (HO : cell_ok O) m X P b c f :
  wf_frame X -> reachable O N m X P b c ->
  (~ In f (f_cols X) -> get_pd_single O c f None = Err KeyError /\ forall vs, vs <> [] -> get_pd_single O c f (Some vs) = Err KeyError)
  /\ (forall p vs v, nth_error (f_cols X) p = Some f -> In v vs -> ~ In v (col_at p (f_rows X)) -> get_pd_single O c f (Some vs) = Err IndexError)
  /\ (forall p vs, nth_error (f_cols X) p = Some f -> (forall v, In v vs -> In v (col_at p (f_rows X)) /\ c_isnan O v = false) ->
        exists xs, get_pd_single O c f (Some vs) = Ok xs /\ length xs = length vs).
Proof.
  intros HX Hr. destruct (reachable_shaped O N HO m X P b c HX Hr) as ((Hs & _) & HXc & _). rewrite HXc in Hs.
  destruct (PdProofs.sshape_assoc O N X _ f Hs) as [H1 H2]. split; [|split].
  - intros Hno. assert (Ha : assoc String.eqb f (c_single c) = None).
    { destruct (assoc String.eqb f (c_single c)) as [e|] eqn:E; [|reflexivity]. exfalso. apply Hno, (H2 e eq_refl). }
    unfold get_pd_single, dict_get. rewrite Ha. split; [reflexivity|]. intros [|v vs] Hne; [congruence|reflexivity].
  - intros p vs v Hp Hv Hout. destruct (H1 (nth_error_In _ _ Hp)) as (pv & Ha). unfold get_pd_single, dict_get. rewrite Ha. cbn [bind fst snd].
    rewrite (PdFacts.grid_of O X HX p f Hp). induction vs as [|x vs IH]; [destruct Hv|]. cbn [mapM].
    destruct (get_index O (np_unique O (col_at p (f_rows X))) x) as [i|e] eqn:Ei; cbn [bind]; [|apply get_index_err in Ei; congruence].
    unfold get_nth at 1. destruct (nth_error pv i); cbn [bind]; [|reflexivity].
    destruct Hv as [<-|Hv].
    + exfalso. apply (get_index_spec O HO) in Ei as [Ei _]. apply Hout, (np_unique_sub O HO), (nth_error_In _ _ Ei).
    + rewrite IH by exact Hv. reflexivity.
  - intros p vs Hp Hv. destruct (H1 (nth_error_In _ _ Hp)) as (pv & Ha). destruct (H2 _ Ha) as (_ & _ & Hl & _). cbn [fst snd] in Hl.
    unfold get_pd_single, dict_get. rewrite Ha. cbn [bind fst snd]. rewrite (PdFacts.grid_of O X HX p f Hp) in *.
    induction vs as [|x vs IH]; [exists []; split; reflexivity|].
    destruct (Hv x (or_introl eq_refl)) as [Hx Hn]. apply (np_unique_In O HO _ _ Hn) in Hx. destruct (get_index_In O _ _ Hx Hn) as (i & Hi).
    destruct IH as (xs & E & El); [intros; apply Hv; right; assumption|]. cbn [mapM]. rewrite Hi. cbn [bind]. unfold get_nth at 1.
    assert (Hlt : i < length pv).
    { rewrite Hl. apply nth_error_Some. apply (get_index_spec O HO) in Hi as [-> _]. discriminate. }
    destruct (nth_error pv i) as [y|] eqn:Ey; [|apply nth_error_None in Ey; lia]. cbn [bind]. rewrite E. cbn [bind].
    exists (y :: xs). split; [reflexivity|]. cbn. f_equal. exact El.
Qed.
Print Assumptions C67_single_rejected.

Example C67_example :
  let c := run Zcell xQ (calc_init Zcell xQ 0 exX exP 7) [OpSingle None] in
  get_pd_single Zcell c "z" None = Err KeyError /\ get_pd_single Zcell c "z" (Some [10%Z]) = Err KeyError
  /\ get_pd_single Zcell c "b" (Some [10; 11]%Z) = Err IndexError /\ get_pd_single Zcell c "b" (Some [30]%Z) = Ok [Fin (40 # 1)].
Proof. vm_compute; auto 10. Qed.

(** ** C10: the matrix is oriented as documented when the features are named in column order;
    in the other order the matrix of the first order is returned (not transposed). *)
Theorem C10_full_matrix_partial {C V} (O : cell_ops C) (N : num_ops V) (HO : cell_ok O) (Hnan : n_isnan N (n_nan N) = true)
  m X P b c g ps c' p q f1 f2 :
  wf_frame X -> rowwise P g -> reachable O N m X P b c ->
  calculate_pd_pairs O N c ps true = (c', Ok tt) -> requested X ps f1 f2 ->
  nth_error (f_cols X) p = Some f1 -> nth_error (f_cols X) q = Some f2 -> p < q ->
  get_pd_pairs_all c' f1 f2 =
    Ok (map (fun v => map (fun w => PD2 (np_mean N) g (f_rows X) p q v w) (np_unique O (col_at q (f_rows X))))
            (np_unique O (col_at p (f_rows X))))
  /\ get_pd_pairs_all c' f2 f1 = get_pd_pairs_all c' f1 f2.
Proof.
  intros HX Hg Hr H Hreq Hp Hq Hlt. split.
  - exact (pd_pairs_matrix O N HO Hnan m X P b c g ps c' p q f1 f2 HX Hg Hr H Hreq Hp Hq Hlt).
  - assert (Hne : p <> q) by lia. destruct (combos_pos X f1 f2 p q HX Hp Hq Hne) as (Hi1 & Hi2 & Hd).
    apply (pd_pairs_matrix_reversed O N HO m X P b c' f1 f2 HX); auto.
    eapply (reachable_step O N m X P b c (OpPairs ps true)); [exact Hr|exact H].
Qed.
Print Assumptions C10_full_matrix_partial.

Theorem C10_full_matrix_refuted :
  exists (X : frame Z) P g c' p q f1 f2,
    wf_frame X /\ rowwise P g
    /\ calculate_pd_pairs Zcell xQ (calc_init Zcell xQ 0 X P 2000) None true = (c', Ok tt)
    /\ nth_error (f_cols X) p = Some f1 /\ nth_error (f_cols X) q = Some f2 /\ p <> q
    /\ get_pd_pairs_all c' f1 f2 <>
       Ok (map (fun v => map (fun w => PD2 (np_mean xQ) g (f_rows X) p q v w) (np_unique Zcell (col_at q (f_rows X))))
               (np_unique Zcell (col_at p (f_rows X)))).
Proof.
  exists exX, exP, exg, (fst (calculate_pd_pairs Zcell xQ (calc_init Zcell xQ 0 exX exP 2000) None true)), 1, 0, "b", "a".
  split; [apply exX_wf|]. split; [apply exP_rowwise|]. split; [vm_compute; reflexivity|].
  split; [reflexivity|]. split; [reflexivity|]. split; [discriminate|]. vm_compute. discriminate.
Qed.
Print Assumptions C10_full_matrix_refuted.

(** ** C11 *)
Theorem C11_single_rejects {C V} (O : cell_ops C) (N : num_ops V) (HO : cell_ok O) (Hnan : n_isnan N (n_nan N) = true)
  m X P b c g fs c' r :
  wf_frame X -> rowwise P g -> reachable O N m X P b c -> works_from P (length (c_log c)) ->
  calculate_pd_single O N c fs = (c', r) ->
  (* unknown feature, no missing values *)
  ((exists f, In f (feats X fs) /\ ~ In f (f_cols X)) ->
     (forall f p v, In f (feats X fs) -> nth_error (f_cols X) p = Some f -> In v (col_at p (f_rows X)) -> c_isnan O v = false) ->
     r = Err KeyError)
  (* missing value in a requested feature, all features known *)
  /\ ((forall f, In f (feats X fs) -> In f (f_cols X)) ->
     (exists f p v, In f (feats X fs) /\ nth_error (f_cols X) p = Some f /\ In v (col_at p (f_rows X)) /\ c_isnan O v = true) ->
     r = Err IndexError)
  (* both: one of the two *)
  /\ ((exists f, In f (feats X fs) /\ ~ In f (f_cols X)) -> r = Err KeyError \/ r = Err IndexError).
Proof.
  intros HX Hg Hr Hw H. destruct (single_outcome O N HO m X P b c fs c' r HX Hr H) as [He Hk].
  assert (Hcase : r = Ok tt \/ exists e, r = Err e) by (destruct r as [[]|e]; eauto).
  assert (Hcol : forall f v, In v (grid O X f) -> exists p, nth_error (f_cols X) p = Some f /\ In v (col_at p (f_rows X))).
  { intros f v Hv. pose proof (PdProofs.grid_In_col O X f v Hv) as Hf. apply In_nth_error in Hf as (p & Hp). exists p; split; [exact Hp|].
    rewrite (PdFacts.grid_of O X HX p f Hp) in Hv. apply (np_unique_sub O HO), Hv. }
  split; [|split].
  - intros (f & Hin & Hno) Hnn. destruct Hcase as [Hok|(e & Hr0)]; [exfalso; apply Hno, (Hk Hok), Hin|].
    destruct (He e Hr0) as [(n & rows & Hn & Hp)|[(-> & _)|(-> & f' & v & Hin' & Hv & Hvn)]]; [| exact Hr0 |].
    + destruct (Hw n rows Hn); congruence.
    + destruct (Hcol f' v Hv) as (p & Hp & Hvc). rewrite (Hnn f' p v Hin' Hp Hvc) in Hvn; discriminate.
  - intros Hall (f & p & v & Hin & Hp & Hv & Hvn). destruct Hcase as [Hok|(e & Hr0)].
    + subst r. pose proof (single_success_no_nan O N HO Hnan m X P b c g fs c' HX Hg Hr H f p v Hin Hp Hv). congruence.
    + destruct (He e Hr0) as [(n & rows & Hn & Hpp)|[(-> & f' & Hin' & Hno)|(-> & _)]]; [| |exact Hr0].
      * destruct (Hw n rows Hn); congruence.
      * exfalso; apply Hno, Hall, Hin'.
  - intros (f & Hin & Hno). destruct Hcase as [Hok|(e & Hr0)]; [exfalso; apply Hno, (Hk Hok), Hin|].
    destruct (He e Hr0) as [(n & rows & Hn & Hp)|[(-> & _)|(-> & _)]]; auto.
    destruct (Hw n rows Hn); congruence.
Qed.
Print Assumptions C11_single_rejects.

Theorem C11_minus_rejects {C V} (O : cell_ops C) (N : num_ops V) (HO : cell_ok O) m X P b c fs c' r :
  wf_frame X -> reachable O N m X P b c -> works_from P (length (c_log c)) ->
  calculate_pd_minus_single N c fs = (c', r) ->
  (r = Err KeyError <-> exists f, In f (feats X fs) /\ ~ In f (f_cols X)).
Proof.
  intros HX Hr Hw H. destruct (minus_outcome O N HO m X P b c fs c' r HX Hr H) as [He Hk]. split.
  - intros ->. destruct (He _ eq_refl) as [(n & rows & Hn & Hp)|(_ & Hf)]; [|exact Hf]. destruct (Hw n rows Hn); congruence.
  - intros (f & Hin & Hno). destruct r as [[]|e]; [exfalso; apply Hno, (Hk eq_refl), Hin|].
    destruct (He e eq_refl) as [(n & rows & Hn & Hp)|(-> & _)]; [|reflexivity]. destruct (Hw n rows Hn); congruence.
Qed.
Print Assumptions C11_minus_rejects.

Theorem C11_pairs_rejects {C V} (O : cell_ops C) (N : num_ops V) (HO : cell_ok O) (Hnan : n_isnan N (n_nan N) = true)
  m X P b c g ps a c' r :
  wf_frame X -> rowwise P g -> reachable O N m X P b c -> works_from P (length (c_log c)) ->
  calculate_pd_pairs O N c ps a = (c', r) ->
  let known := forall f1 f2, In (f1, f2) (plist X ps) -> f1 <> f2 /\ In f1 (f_cols X) /\ In f2 (f_cols X) in
  let no_nan := forall f1 f2 f p v, In (f1, f2) (plist X ps) -> f = f1 \/ f = f2 -> nth_error (f_cols X) p = Some f ->
                In v (col_at p (f_rows X)) -> c_isnan O v = false in
  ((exists f1 f2, In (f1, f2) (plist X ps) /\ (~ In f1 (f_cols X) \/ ~ In f2 (f_cols X))) -> no_nan -> r = Err KeyError)
  /\ (known ->
      (exists f1 f2 p q v, In (f1, f2) (plist X ps) /\ nth_error (f_cols X) p = Some f1 /\ nth_error (f_cols X) q = Some f2
         /\ (In v (col_at p (f_rows X)) \/ In v (col_at q (f_rows X))) /\ c_isnan O v = true) ->
      r = Err IndexError)
  /\ (known -> no_nan -> r = Ok tt)
  /\ ((exists f1 f2, In (f1, f2) (plist X ps) /\ (~ In f1 (f_cols X) \/ ~ In f2 (f_cols X))) -> r = Err KeyError \/ r = Err IndexError).
Proof.
  intros HX Hg Hr Hw H known no_nan. destruct (pairs_outcome O N HO m X P b c ps a c' r HX Hr H) as [He Hk].
  assert (Hcase : r = Ok tt \/ exists e, r = Err e) by (destruct r as [[]|e]; eauto).
  assert (Hcol : forall f v, In v (grid O X f) -> exists p, nth_error (f_cols X) p = Some f /\ In v (col_at p (f_rows X))).
  { intros f v Hv. pose proof (PdProofs.grid_In_col O X f v Hv) as Hf. apply In_nth_error in Hf as (p & Hp). exists p; split; [exact Hp|].
    rewrite (PdFacts.grid_of O X HX p f Hp) in Hv. apply (np_unique_sub O HO), Hv. }
  split; [|split; [|split]].
  - intros (f1 & f2 & Hin & Hno) Hnn. destruct Hcase as [Hok|(e & Hr0)]; [exfalso; destruct (Hk Hok f1 f2 Hin); tauto|].
    destruct (He e Hr0) as [(n & rows & Hn & Hp)|[(-> & _)|(-> & f' & v & [g1 g2] & Hin' & Hor & Hv & Hvn)]]; [|exact Hr0|].
    + destruct (Hw n rows Hn); congruence.
    + destruct (Hcol f' v Hv) as (p & Hp & Hvc). rewrite (Hnn g1 g2 f' p v Hin' Hor Hp Hvc) in Hvn; discriminate.
  - intros Hknown (f1 & f2 & p & q & v & Hin & Hp & Hq & Hv & Hvn).
    destruct (Hknown f1 f2 Hin) as (Hne & Hi1 & Hi2).
    assert (Hpq : p <> q) by congruence.
    assert (Hreq : requested X ps f1 f2 /\ requested X ps f2 f1) by (unfold requested, plist in *; destruct ps; tauto).
    destruct Hcase as [Hok|(e & Hr0)].
    + exfalso. subst r. destruct Hv as [Hv|Hv].
      * pose proof (pairs_success_no_nan O N HO Hnan m X P b c g ps a c' HX Hg Hr H f1 f2 p q v (proj1 Hreq) Hp Hq Hpq Hv). congruence.
      * pose proof (pairs_success_no_nan O N HO Hnan m X P b c g ps a c' HX Hg Hr H f2 f1 q p v (proj2 Hreq) Hq Hp (not_eq_sym Hpq) Hv). congruence.
    + destruct (He e Hr0) as [(n & rows & Hn & Hpp)|[(-> & g1 & g2 & Hin' & Hno)|(-> & _)]]; [| |exact Hr0].
      * destruct (Hw n rows Hn); congruence.
      * exfalso. destruct (Hknown g1 g2 Hin') as (? & ? & ?). tauto.
  - intros Hknown Hnn. destruct Hcase as [Hok|(e & Hr0)]; [exact Hok|exfalso].
    destruct (He e Hr0) as [(n & rows & Hn & Hpp)|[(-> & g1 & g2 & Hin' & Hno)|(-> & f' & v & [g1 g2] & Hin' & Hor & Hv & Hvn)]].
    + destruct (Hw n rows Hn); congruence.
    + destruct (Hknown g1 g2 Hin') as (? & ? & ?). tauto.
    + destruct (Hcol f' v Hv) as (p & Hp & Hvc). rewrite (Hnn g1 g2 f' p v Hin' Hor Hp Hvc) in Hvn; discriminate.
  - intros (f1 & f2 & Hin & Hno). destruct Hcase as [Hok|(e & Hr0)]; [exfalso; destruct (Hk Hok f1 f2 Hin); tauto|].
    destruct (He e Hr0) as [(n & rows & Hn & Hp)|[(-> & _)|(-> & _)]]; auto.
    destruct (Hw n rows Hn); congruence.
Qed.
Print Assumptions C11_pairs_rejects.

Definition exN : frame (option Z) := {| f_cols := ["a"; "b"]; f_index := [0;1;2]%Z; f_num := ["a"; "b"];
                               f_rows := [[Some 1; Some 10];[Some 2; None];[Some 1; Some 30]]%Z |}.
Definition exPN : nat -> list (list (option Z)) -> result (list (ext Q)) := fun _ rows => Ok (map (fun _ => Fin (1 # 1)) rows).
Example C11_example :
  let c := calc_init OZcell xQ 0 exN exPN 7 in
  snd (calculate_pd_single OZcell xQ c (Some ["a"; "b"])) = Err IndexError
  /\ snd (calculate_pd_single OZcell xQ c (Some ["a"; "z"])) = Err KeyError
  /\ snd (calculate_pd_pairs OZcell xQ c None false) = Err IndexError
  /\ snd (calculate_pd_pairs OZcell xQ c (Some [("z","a")]) true) = Err KeyError
  /\ snd (calculate_pd_minus_single xQ c (Some ["z"])) = Err KeyError
  /\ snd (calculate_pd_minus_single xQ c None) = Ok tt.
Proof. vm_compute; auto 10. Qed.
