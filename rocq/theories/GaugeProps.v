(* C127-C130: what the metrics of the data sync writer say about the queue.
   Specification: GaugeSpec.v ([metered], [pending_rows], [shows_oldest], [double]) and SyncWriterSpec.v
   ([pending_bytes], [clocked]). Model: GaugeModel.v beside SyncWriterModel.v. *)
From Coq Require Import List Arith NArith ZArith Bool Lia.
From Verif Require Import SyncWriterModel SyncWriterSpec SyncWriterMain GaugeModel GaugeSpec GaugeProofs.
Import ListNotations.
Open Scope N_scope.

(* ---------- an example history ---------- *)
(* three batches for table 0, squashed to fewer rows when the table is flushed; then one for table 1 *)
Definition gx_cf : config := {| cf_lag := 100; cf_bytes := 1000; cf_syncs := 3; cf_max_rows := 10 |}.
Definition gx_env (now : N) (out : nat -> outcome) : env :=
  {| e_now := fun _ => now; e_sq_ready := fun _ _ => Some (50, 2); e_sq_flush := fun _ _ => Some (50, 2);
     e_out := out |}.
Definition gx_msg (u o : nat) (s : option N) (bs : list (N * N)) : msg :=
  {| m_url := u; m_origin := o; m_seq := s; m_schema := [0%nat]; m_batches := bs |}.
Definition gx_evs : list event :=
  [ EMsg (gx_msg 0 1 None [(100, 3); (80, 2)]) true 5 (gx_env 6 (fun _ => FOk));
    EMsg (gx_msg 0 1 (Some 7) [(60, 1)]) true 10 (gx_env 11 (fun _ => FOk));
    ETick (gx_env 200 (fun _ => FOk)) ].
Fixpoint g_run (cf : config) (wd : world) (g : meters) (evs : list event) : world * meters :=
  match evs with
  | [] => (wd, g)
  | ev :: evs' => g_run cf (fst (step cf wd ev)) (g_step cf wd ev g) evs'
  end.
Lemma g_run_metered cf T0 : forall evs wd g, metered cf T0 wd g ->
  metered cf T0 (fst (g_run cf wd g evs)) (snd (g_run cf wd g evs)).
Proof.
  induction evs as [|ev evs IH]; intros wd g H; [exact H|]. cbn [g_run].
  destruct (step cf wd ev) as [wd' r] eqn:E. apply IH. cbn [fst]. exact (metered_step _ _ _ _ _ _ _ H E).
Qed.
Definition gx (n : nat) : world * meters := g_run gx_cf (init (fun _ => []) 0) meters_new (firstn n gx_evs).
Lemma gx_metered n : metered gx_cf (fun _ => []) (fst (gx n)) (snd (gx n)).
Proof. apply g_run_metered. constructor. Qed.

(* C127: bytes *)
Theorem c127_bytes_partial :
  forall cf T0 wd g, metered cf T0 wd g -> g_mem_bytes g = Z.of_N (pending_bytes (wd_w wd)).
Proof. intros cf T0 wd g H. destruct (metered_facts _ _ _ _ H) as (HG & E & _). rewrite <- E. apply HG. Qed.
Example c127_bytes_nonvacuous :
  g_mem_bytes (snd (gx 2)) = 240%Z /\ pending_bytes (wd_w (fst (gx 2))) = 240 /\
  g_mem_bytes (snd (gx 3)) = 0%Z.
Proof. vm_compute. auto. Qed.
Print Assumptions c127_bytes_partial.

(* the rows gauge is too high by twice the number of rows that squashing has ever removed *)
Theorem c127_rows_drift :
  forall cf T0 wd g, metered cf T0 wd g ->
    (g_mem_rows g = Z.of_N (pending_rows (wd_w wd)) +
       2 * (Z.of_N (g_req_rows g) - Z.of_N (g_fl_rows g) - Z.of_N (pending_rows (wd_w wd))))%Z.
Proof.
  intros cf T0 wd g H. destruct (metered_facts _ _ _ _ H) as (HG & _ & E). rewrite <- E.
  rewrite (G_rows _ _ HG). lia.
Qed.
Example c127_drift_nonvacuous :
  g_mem_rows (snd (gx 3)) = 8%Z /\ g_req_rows (snd (gx 3)) = 6 /\ g_fl_rows (snd (gx 3)) = 2 /\
  pending_rows (wd_w (fst (gx 3))) = 0.
Proof. vm_compute. auto. Qed.
Print Assumptions c127_rows_drift.

(* it is right as long as every received row is either still pending or was flushed *)
Theorem c127_rows_partial :
  forall cf T0 wd g, metered cf T0 wd g ->
    g_req_rows g = g_fl_rows g + pending_rows (wd_w wd) ->
    g_mem_rows g = Z.of_N (pending_rows (wd_w wd)).
Proof. intros cf T0 wd g H E. rewrite (c127_rows_drift _ _ _ _ H). lia. Qed.
Example c127_rows_nonvacuous :
  g_req_rows (snd (gx 2)) = g_fl_rows (snd (gx 2)) + pending_rows (wd_w (fst (gx 2))) /\
  g_mem_rows (snd (gx 2)) = 6%Z.
Proof. vm_compute. auto. Qed.
Print Assumptions c127_rows_partial.

(* ... and wrong in every state after squashing removed a row, for instance when nothing is pending *)
Theorem c127_refuted :
  (forall cf T0 wd g, metered cf T0 wd g ->
     g_fl_rows g + pending_rows (wd_w wd) < g_req_rows g ->
     (Z.of_N (pending_rows (wd_w wd)) < g_mem_rows g)%Z) /\
  (exists cf T0 wd g, metered cf T0 wd g /\ g_fl_rows g + pending_rows (wd_w wd) < g_req_rows g /\
     w_syncs (wd_w wd) = [] /\ (0 < g_mem_rows g)%Z).
Proof.
  split.
  - intros cf T0 wd g H E. rewrite (c127_rows_drift _ _ _ _ H). lia.
  - exists gx_cf, (fun _ => []), (fst (gx 3)), (snd (gx 3)). split; [apply gx_metered|]. vm_compute. auto.
Qed.
Print Assumptions c127_refuted.

(* C128: nothing is lost between the counters. [g_more_*] is what squashing added, if ever it did. *)
Theorem c128_conservation :
  forall cf T0 wd g, metered cf T0 wd g ->
    g_req_rows g + g_more_rows g = g_fl_rows g + g_sq_rows g + pending_rows (wd_w wd) /\
    g_req_bytes g + g_more_bytes g = g_fl_bytes g + g_sq_bytes g + pending_bytes (wd_w wd).
Proof.
  intros cf T0 wd g H. destruct (metered_facts _ _ _ _ H) as (HG & E1 & E2). rewrite <- E1, <- E2. split; apply HG.
Qed.
Example c128_nonvacuous :
  let g := snd (gx 3) in
  g_req_rows g = 6 /\ g_fl_rows g = 2 /\ g_sq_rows g = 4 /\ g_more_rows g = 0 /\
  g_req_bytes g = 240 /\ g_fl_bytes g = 50 /\ g_sq_bytes g = 190.
Proof. vm_compute. auto 10. Qed.
Print Assumptions c128_conservation.

(* the counters only grow *)
Theorem c128_counters_grow :
  forall cf T0 wd g ev wd' r, metered cf T0 wd g -> step cf wd ev = (wd', r) ->
    let g' := g_step cf wd ev g in
    g_req_rows g <= g_req_rows g' /\ g_req_bytes g <= g_req_bytes g' /\
    g_fl_rows g <= g_fl_rows g' /\ g_fl_bytes g <= g_fl_bytes g' /\
    g_sq_rows g <= g_sq_rows g' /\ g_sq_bytes g <= g_sq_bytes g'.
Proof. intros cf T0 wd g ev wd' r _ _. cbv zeta. exact (step_grows cf wd ev g). Qed.
Example c128_grow_nonvacuous : g_sq_rows (snd (gx 2)) < g_sq_rows (snd (gx 3)).
Proof. vm_compute. auto. Qed.
Print Assumptions c128_counters_grow.

(* every accepted message with rows is counted exactly once, every other event not at all *)
Theorem c128_requests_counted :
  forall cf T0 wd g ev wd' r, metered cf T0 wd g -> step cf wd ev = (wd', r) ->
    let g' := g_step cf wd ev g in
    match ev with
    | EMsg m _ _ _ =>
        if match r with RBusy | RInvalid => true | _ => false end
        then g_req_rows g' = g_req_rows g /\ g_req_bytes g' = g_req_bytes g
        else g_req_rows g' = g_req_rows g + m_rows m /\
             (m_rows m <> 0 -> g_req_bytes g' = g_req_bytes g + m_size m)
    | _ => g_req_rows g' = g_req_rows g /\ g_req_bytes g' = g_req_bytes g
    end.
Proof. intros cf T0 wd g ev wd' r H E. exact (step_requests _ _ _ _ _ _ _ (metered_reachable _ _ _ _ H) E). Qed.
Example c128_requests_nonvacuous :
  exists wd', step gx_cf (fst (gx 1)) (nth 1 gx_evs (EOther 0)) = (wd', RSeqs (Some 7) None) /\
    g_req_rows (snd (gx 2)) = g_req_rows (snd (gx 1)) + 1.
Proof. eexists. split; [vm_compute|]; reflexivity. Qed.
Print Assumptions c128_requests_counted.

(* C129 *)
Theorem c129_oldest_partial :
  forall cf T0 t wd g ev wd' r t', metered_at cf T0 t wd g -> clocked t ev t' -> step cf wd ev = (wd', r) ->
    flushes_succeed cf wd ev r -> shows_oldest (wd_w wd') (g_oldest (g_step cf wd ev g)).
Proof. exact oldest_after. Qed.
Example c129_nonvacuous :
  exists wd' r, metered_at gx_cf (fun _ => []) 5 (init (fun _ => []) 0) meters_new /\
    clocked 5 (nth 0 gx_evs (EOther 0)) 6 /\ step gx_cf (init (fun _ => []) 0) (nth 0 gx_evs (EOther 0)) = (wd', r) /\
    flushes_succeed gx_cf (init (fun _ => []) 0) (nth 0 gx_evs (EOther 0)) r /\
    g_oldest (g_step gx_cf (init (fun _ => []) 0) (nth 0 gx_evs (EOther 0)) meters_new) = 5.
Proof.
  eexists. eexists. split; [constructor|]. split; [cbn; repeat split; intros; lia|]. split; [vm_compute; reflexivity|]. split; [|vm_compute; reflexivity].
  split; [intros [H _]; vm_compute in H; discriminate|]. eexists. eexists. reflexivity.
Qed.
Print Assumptions c129_oldest_partial.

(* If the flush after an accepted message fails, the gauge shows the oldest change of the queue with this message in it. *)
Theorem c129_failed_flush_partial :
  forall cf T0 t wd g m now e wd' r t' w1,
    metered_at cf T0 t wd g -> clocked t (EMsg m true now e) t' -> ~ is_probe m -> m_rows m <> 0 ->
    enqueue_sync cf now (wd_id wd) m (wd_w wd) = (w1, SOk) ->
    step cf wd (EMsg m true now e) = (wd', r) -> (forall a b, r <> RSeqs a b) ->
    shows_oldest w1 (g_oldest (g_step cf wd (EMsg m true now e) g)).
Proof. exact oldest_failed. Qed.
Example c129_failed_nonvacuous :
  let ev := EMsg (gx_msg 0 1 (Some 7) [(100, 3)]) true 5 (gx_env 200 (fun _ => FFail)) in
  exists wd' w1 r, clocked 5 ev 200 /\ enqueue_sync gx_cf 5 0 (gx_msg 0 1 (Some 7) [(100, 3)]) (wd_w (init (fun _ => []) 0)) = (w1, SOk) /\
    step gx_cf (init (fun _ => []) 0) ev = (wd', r) /\ (forall a b, r <> RSeqs a b) /\
    g_oldest (g_step gx_cf (init (fun _ => []) 0) ev meters_new) = 5.
Proof.
  eexists. eexists. eexists. split; [cbn; repeat split; intros; lia|]. split; [vm_compute; reflexivity|].
  split; [vm_compute; reflexivity|]. split; [intros a b; discriminate|vm_compute; reflexivity].
Qed.
Print Assumptions c129_failed_flush_partial.

(* when one table was flushed and the next fails, the gauge still shows the time of the first *)
Definition gx_two : list event :=
  [ EMsg (gx_msg 0 1 (Some 7) [(100, 3)]) true 5 (gx_env 6 (fun _ => FOk));
    EMsg (gx_msg 1 1 (Some 8) [(60, 1)]) true 50 (gx_env 51 (fun _ => FOk));
    ETick (gx_env 200 (fun i => match i with O => FOk | _ => FFail end)) ].
Theorem c129_refuted :
  exists cf T0 t wd g, metered_at cf T0 t wd g /\ ~ shows_oldest (wd_w wd) (g_oldest g) /\
    (exists u c, w_syncs (wd_w wd) = [(u, c)] /\ c_time c = 50 /\ g_oldest g = 5).
Proof.
  set (T0 := fun _ : nat => @nil commit). set (wd0 := init T0 0).
  set (ev0 := nth 0 gx_two (EOther 0)). set (ev1 := nth 1 gx_two (EOther 0)). set (ev2 := nth 2 gx_two (EOther 0)).
  set (wd1 := fst (step gx_cf wd0 ev0)). set (wd2 := fst (step gx_cf wd1 ev1)).
  set (wd3 := fst (step gx_cf wd2 ev2)).
  set (g1 := g_step gx_cf wd0 ev0 meters_new). set (g2 := g_step gx_cf wd1 ev1 g1).
  exists gx_cf, T0, 200, wd3, (g_step gx_cf wd2 ev2 g2).
  assert (H1 : metered_at gx_cf T0 6 wd1 g1).
  { apply (metered_at_step _ _ 5 wd0 meters_new ev0 wd1 (snd (step gx_cf wd0 ev0)) 6); [constructor|cbn; repeat split; intros; lia|apply surjective_pairing]. }
  assert (H2 : metered_at gx_cf T0 51 wd2 g2).
  { apply (metered_at_step _ _ 6 wd1 g1 ev1 wd2 (snd (step gx_cf wd1 ev1)) 51); [exact H1|cbn; repeat split; intros; lia|apply surjective_pairing]. }
  split.
  { apply (metered_at_step _ _ 51 wd2 g2 ev2 wd3 (snd (step gx_cf wd2 ev2)) 200); [exact H2|cbn; repeat split; intros; lia|apply surjective_pairing]. }
  assert (E : g_oldest (g_step gx_cf wd2 ev2 g2) = 5) by (vm_compute; reflexivity). rewrite E.
  assert (ES : exists c, w_syncs (wd_w wd3) = [(1%nat, c)] /\ c_time c = 50)
    by (eexists; split; [vm_compute; reflexivity|reflexivity]).
  destruct ES as (c & ES & Ec). split; [|exists 1%nat, c; auto].
  intros [[X _]|[(u & d & Hd & Ed) _]]; [rewrite ES in X; discriminate|].
  rewrite ES in Hd. destruct Hd as [[= <- <-]|[]]. rewrite Ec in Ed. discriminate.
Qed.
Print Assumptions c129_refuted.

(* C130: the two sequence gauges of an origin show the numbers of the replies, as floats *)
Theorem c130_gauges :
  forall cf T0 wd g m lock now e wd' a b, metered cf T0 wd g ->
    step cf wd (EMsg m lock now e) = (wd', RSeqs a b) ->
    get (m_origin m) (g_seq_mem (g_step cf wd (EMsg m lock now e) g)) = option_map f64 a /\
    get (m_origin m) (g_seq_dur (g_step cf wd (EMsg m lock now e) g)) = option_map f64 b.
Proof.
  intros cf T0 wd g m lock now e wd' a b H E.
  pose proof (metered_ginv _ _ _ _ (metered_step _ _ _ _ _ _ _ H E)) as HG.
  assert (ER : RSeqs a b = stored (wd_w wd') (m_origin m)).
  { clear H HG. cbn [step] in E. destruct (_ && _); [injection E as <- <- <-; reflexivity|].
    destruct lock; cbn [negb] in E; [|discriminate].
    destruct (enqueue_sync cf now (wd_id wd) m (wd_w wd)) as [w1 [| |]]; [|discriminate..].
    destruct (flush cf e w1 (wd_T wd)) as [[[w2 T2] [| |]]|]; [|discriminate..]. injection E as <- <- <-. reflexivity. }
  unfold stored in ER. injection ER as -> ->. split; apply HG.
Qed.
Example c130_gauges_nonvacuous :
  exists wd', step gx_cf (fst (gx 3)) (EMsg (gx_msg 0 1 None []) true 300 (gx_env 300 (fun _ => FOk))) = (wd', RSeqs (Some 7) (Some 7)) /\
    get 1%nat (g_seq_dur (snd (gx 3))) = Some 7.
Proof. eexists. split; [vm_compute|]; reflexivity. Qed.
Print Assumptions c130_gauges.

(* a gauge shows the float next to the number, and the number itself up to 2^53 *)
Theorem c130_nearest :
  forall n, double (f64 n) /\ forall d, double d -> (distance (f64 n) n <= distance d n)%Z.
Proof. exact f64_nearest. Qed.
Example c130_nearest_nonvacuous : f64 (2 ^ 53 + 3) = 2 ^ 53 + 4 /\ f64 (2 ^ 64 - 1) = 2 ^ 64.
Proof. vm_compute. auto. Qed.
Print Assumptions c130_nearest.

Theorem c130_exact_partial : forall n, n <= 2 ^ 53 -> f64 n = n.
Proof. exact f64_exact. Qed.
Print Assumptions c130_exact_partial.

(* no odd sequence number above 2^53 is ever shown, and different numbers are shown as equal *)
Theorem c130_refuted :
  (forall n, 2 ^ 53 < n -> N.odd n = true -> f64 n <> n) /\
  (exists n n', n < n' /\ n' < 2 ^ 64 /\ f64 n = f64 n').
Proof.
  split.
  - intros n H HO E. destruct (N.eq_dec (N.size n - 53) 0) as [K|K].
    + assert (n < 2 ^ 53) by (apply size_le; lia). lia.
    + destruct (f64_round n _ eq_refl K) as (_ & _ & (q & Ef & _) & _). rewrite E in Ef.
      rewrite Ef, N.odd_mul, N.odd_pow in HO by exact K. cbn in HO. rewrite andb_false_r in HO. discriminate.
  - exists (2 ^ 53), (2 ^ 53 + 1). vm_compute. auto.
Qed.
Print Assumptions c130_refuted.
