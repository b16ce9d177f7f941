(* Properties C01 - C10 of the sync writer (properties.jsonl). Vocabulary: SyncWriterSpec.v;
   the program: SyncWriterModel.v ([step] is one request or background tick of the service). *)
From Coq Require Import List Arith NArith Bool.
From Verif Require Import SyncWriterModel SyncWriterSpec SyncWriterMain.
Import ListNotations.
Open Scope N_scope.

(* A concrete history used to show that the hypotheses below are met: origin 1 writes a
   transaction to tables 0 and 1, origin 2 then one to table 0; table 0 is flushed by lag, its second
   flush fails once. *)
Definition ex_cf : config := {| cf_lag := 100; cf_bytes := 1000; cf_syncs := 3; cf_max_rows := 10 |}.
Definition ex_env (now : N) (out : outcome) : env :=
  {| e_now := fun _ => now; e_sq_ready := fun _ _ => Some (8, 1); e_sq_flush := fun _ _ => Some (8, 1);
     e_out := fun _ => out |}.
Definition ex_msg (u o : nat) (s : option N) (rows : N) : msg :=
  {| m_url := u; m_origin := o; m_seq := s; m_schema := [1%nat; 2%nat]; m_batches := [(10 * rows, rows)] |}.
Definition ex_T0 : tables := fun _ => [].
Definition ex_evs : list event :=
  [ EMsg (ex_msg 0 1 None 3) true 1000 (ex_env 1000 FOk);
    EMsg (ex_msg 1 1 (Some 7) 2) true 1010 (ex_env 1010 FOk);
    EMsg (ex_msg 0 2 (Some 3) 4) true 1020 (ex_env 1020 FOk);
    ETick (ex_env 1150 FFail);
    ETick (ex_env 1150 FOk) ].
Definition ex_wd : world := fst (run ex_cf (init ex_T0 0) ex_evs).
Example ex_reachable : reachable ex_cf ex_T0 ex_wd.
Proof. eapply run_reachable; [apply reach_init|]. unfold ex_wd. apply surjective_pairing. Qed.
Example ex_flushed : w_syncs (wd_w ex_wd) = [] /\ length (wd_log ex_wd) = 3%nat /\
  length (ex_wd.(wd_T) 0%nat) = 2%nat /\ stored (wd_w ex_wd) 1 = RSeqs (Some 7) (Some 7).
Proof. vm_compute. auto. Qed.

(* C01 *)
Theorem c01_durable_means_committed :
  forall cf T0 wd m lock now en wd' a n,
    reachable cf T0 wd ->
    step cf wd (EMsg m lock now en) = (wd', RSeqs a (Some n)) ->
    exists l1 e l2,
      wd_log wd' = l1 ++ e :: l2 /\ closes (m_origin m) n e /\
      forall e', In e' (l1 ++ [e]) -> durable_entry T0 (wd_T wd') e'.
Proof. intros. exact (c01 cf T0 wd _ wd' a n m lock now en H eq_refl H0). Qed.
Example c01_nonvacuous :
  exists wd', step ex_cf ex_wd (EMsg (ex_msg 0 1 None 0) true 1200 (ex_env 1200 FOk)) = (wd', RSeqs (Some 7) (Some 7)).
Proof. eexists. vm_compute. reflexivity. Qed.
Print Assumptions c01_durable_means_committed.

(* C02 *)
Theorem c02_reported_from_history :
  forall cf T0 wd o, reachable cf T0 wd ->
    exists p q, wd_log wd = p ++ q /\ stored (wd_w wd) o = RSeqs (last_seq o (p ++ q)) (last_seq o p).
Proof. exact c02_stored. Qed.
Print Assumptions c02_reported_from_history.

Theorem c02_monotone :
  forall cf T0 wd evs wd' rs o a b a' b',
    reachable cf T0 wd -> run cf wd evs = (wd', rs) -> nondecreasing o (wd_log wd') ->
    stored (wd_w wd) o = RSeqs a b -> stored (wd_w wd') o = RSeqs a' b' ->
    opt_le a a' /\ opt_le b b' /\ opt_le b' a'.
Proof. exact c02_mono. Qed.
Example c02_nonvacuous : nondecreasing 1 (wd_log ex_wd).
Proof.
  intros l1 e1 l2 e2 l3 n1 n2 E [_ H1] [H3 _]. vm_compute in E.
  destruct l1 as [|x1 [|x2 [|x3 l1]]]; cbn in E; inversion E; subst.
  - discriminate H1.
  - destruct l2 as [|y [|z l2]]; inversion H4; subst. discriminate H3.
  - destruct l2; discriminate.
  - destruct l1; discriminate.
Qed.
Print Assumptions c02_monotone.

(* C03 *)
Theorem c03_refused_exactly :
  forall cf T0 wd m now e wd' r, reachable cf T0 wd -> ~ is_probe m ->
    step cf wd (EMsg m true now e) = (wd', r) -> (r = RInvalid <-> must_refuse (wd_log wd) m).
Proof. intros cf T0 wd m now e wd' r HR Hp E. exact (c03_refused cf T0 wd m now e HR Hp wd' r E). Qed.
Print Assumptions c03_refused_exactly.

Theorem c03_refused_changes_nothing :
  forall cf wd ev wd', step cf wd ev = (wd', RInvalid) \/ step cf wd ev = (wd', RBusy) -> wd' = wd.
Proof. intros cf wd ev wd' [H|H]; [exact (c03_unchanged cf wd ev wd' H)|exact (c03_busy cf wd ev wd' H)]. Qed.
Print Assumptions c03_refused_changes_nothing.

Theorem c03_probe_changes_nothing :
  forall cf wd m lock now e wd' r, is_probe m -> step cf wd (EMsg m lock now e) = (wd', r) ->
    wd' = wd /\ r = stored (wd_w wd) (m_origin m).
Proof. exact c03_probe. Qed.
Example c03_nonvacuous :
  must_refuse (wd_log (fst (run ex_cf (init ex_T0 0) (firstn 1 ex_evs)))) (ex_msg 0 2 (Some 9) 4) /\
  must_refuse (wd_log ex_wd) (ex_msg 0 2 (Some 9) 0).
Proof.
  split.
  - left. exists []. eexists. split; [vm_compute; reflexivity|]. split; [reflexivity|discriminate].
  - right. split; [|split; [reflexivity|discriminate]]. right.
    eexists (firstn 2 (wd_log ex_wd)). eexists. split; [vm_compute; reflexivity|discriminate].
Qed.
Print Assumptions c03_probe_changes_nothing.

(* C04 *)
Theorem c04_accounting_exact :
  forall cf T0 wd, reachable cf T0 wd ->
    w_size (wd_w wd) = pending_bytes (wd_w wd) /\
    (forall u c, In (u, c) (w_syncs (wd_w wd)) ->
       c_size c = sum_size (flat_map i_data (c_items c)) /\ c_rows c = sum_rows (flat_map i_data (c_items c))).
Proof. exact c04. Qed.
Print Assumptions c04_accounting_exact.

Theorem c04_never_underflows :
  forall cf T0 wd u c sq, reachable cf T0 wd -> get u (w_syncs (wd_w wd)) = Some c ->
    squash_items_checked sq 0 (c_items c) (w_size (wd_w wd)) (c_size c) (c_rows c)
      = Some (squash_items sq 0 (c_items c) (w_size (wd_w wd)) (c_size c) (c_rows c)) /\
    sub_checked (w_size (wd_w wd)) (c_size c) = Some (w_size (remove_sync u (wd_w wd))).
Proof. exact c04_no_underflow. Qed.
Print Assumptions c04_never_underflows.

Theorem c04_zero_when_drained :
  forall cf T0 wd, reachable cf T0 wd -> w_syncs (wd_w wd) = [] -> w_size (wd_w wd) = 0.
Proof. exact c04_zero. Qed.
Print Assumptions c04_zero_when_drained.

(* C05 *)
Theorem c05_limits_hold :
  forall cf T0 wd m lock now e wd' a b, reachable cf T0 wd -> ~ is_probe m ->
    step cf wd (EMsg m lock now e) = (wd', RSeqs a b) ->
    (forall u c, In (u, c) (w_syncs (wd_w wd')) -> (length (c_items c) < cf_syncs cf)%nat) /\
    (pending_bytes (wd_w wd') < cf_bytes cf \/ w_syncs (wd_w wd') = []).
Proof. exact c05_limits. Qed.
Print Assumptions c05_limits_hold.

Theorem c05_lag_holds :
  forall cf T0 t wd m lock now e wd' a b t', reachable_at cf T0 t wd -> clocked t (EMsg m lock now e) t' ->
    ~ is_probe m -> step cf wd (EMsg m lock now e) = (wd', RSeqs a b) ->
    exists i, forall u c, In (u, c) (w_syncs (wd_w wd')) ->
      c_time c <= e_now e i /\ e_now e i - c_time c < cf_lag cf.
Proof. exact c05_lag. Qed.
Example c05_nonvacuous :
  exists wd', step ex_cf (init ex_T0 0) (hd (EOther 0) ex_evs) = (wd', RSeqs None None) /\
              clocked 5 (hd (EOther 0) ex_evs) 1000 /\ w_syncs (wd_w wd') <> [].
Proof. eexists. split; [vm_compute; reflexivity|]. split; [|discriminate]. cbn. repeat split; discriminate. Qed.
Print Assumptions c05_lag_holds.

(* C06 *)
Theorem c06_no_bookkeeping_panic :
  forall cf T0 wd ev wd' r, reachable cf T0 wd -> step cf wd ev = (wd', r) -> r <> RPanic.
Proof. exact c06. Qed.
Print Assumptions c06_no_bookkeeping_panic.

(* C07. [FCommitFail] (a commit that took effect although the call did not complete) is excluded by
   [clean_event]; c10_reported_failure_duplicates_refuted shows why. *)
Theorem c07_committed_then_pending :
  forall cf T0 id0 evs wd rs, Forall clean_event evs -> run cf (init T0 id0) evs = (wd, rs) ->
    forall u, committed (new_commits T0 (wd_T wd) u) ++ pending (wd_w wd) u = accepted_for u (wd_log wd).
Proof. exact c07_clean. Qed.
Example c07_nonvacuous : Forall clean_event ex_evs /\ length (accepted_for 0 (wd_log ex_wd)) = 2%nat.
Proof. split; [|reflexivity]. repeat constructor; discriminate. Qed.
Print Assumptions c07_committed_then_pending.

Theorem c07_no_change_twice :
  forall cf T0 wd u, reachable cf T0 wd -> NoDup (accepted_for u (wd_log wd)).
Proof. exact accepted_nodup. Qed.
Print Assumptions c07_no_change_twice.

Theorem c07_nothing_lost_ever :
  forall cf T0 wd u, reachable cf T0 wd ->
    exists old, accepted_for u (wd_log wd) = old ++ pending (wd_w wd) u /\
                incl old (committed (new_commits T0 (wd_T wd) u)).
Proof. exact c07_nothing_lost. Qed.
Print Assumptions c07_nothing_lost_ever.

(* the log is exactly the list of messages that were neither probes nor refused nor timed out *)
Theorem c07_log_is_accepted_messages :
  forall cf T0 wd m lock now e wd' r, reachable cf T0 wd -> step cf wd (EMsg m lock now e) = (wd', r) ->
    (is_probe m \/ r = RBusy \/ r = RInvalid -> wd_log wd' = wd_log wd) /\
    (~ is_probe m -> r <> RBusy -> r <> RInvalid ->
       exists x, wd_log wd' = wd_log wd ++ [x] /\ l_msg x = m /\ forall y, In y (wd_log wd) -> l_id y <> l_id x).
Proof. exact step_log. Qed.
Print Assumptions c07_log_is_accepted_messages.

(* C08: false as stated. One message with rows is flushed at once; the next message only closes the
   transaction. Everything is committed, but the durable number stays unset. *)
Theorem c08_complete_becomes_durable_refuted :
  exists cf T0 wd e l1, reachable cf T0 wd /\ wd_log wd = l1 ++ [e] /\ closes 1 7 e /\
    (forall u, pending (wd_w wd) u = []) /\
    (forall e', In e' (wd_log wd) -> l_tx e' = l_tx e) /\
    stored (wd_w wd) 1 = RSeqs (Some 7) None.
Proof. exact c08_counterexample. Qed.
Print Assumptions c08_complete_becomes_durable_refuted.

(* C08, positive part: if every closing message carries rows, a complete transaction none of
   whose rows (nor those accepted before it) is pending is covered by the durable number. *)
Theorem c08_complete_becomes_durable_partial :
  forall cf T0 wd o n l1 e l2, reachable cf T0 wd ->
    (forall e, In e (wd_log wd) -> m_seq (l_msg e) <> None -> m_rows (l_msg e) <> 0) ->
    wd_log wd = l1 ++ e :: l2 -> closes o n e ->
    (forall e' p, In e' (l1 ++ [e]) -> has_rows e' = true -> In p (tags e') ->
                  ~ In p (pending (wd_w wd) (m_url (l_msg e')))) ->
    exists p q, l2 = p ++ q /\ stored (wd_w wd) o = RSeqs (last_seq o (wd_log wd)) (last_seq o (l1 ++ e :: p)).
Proof. exact c08_stored. Qed.
Example c08_nonvacuous :
  (forall e, In e (wd_log ex_wd) -> m_seq (l_msg e) <> None -> m_rows (l_msg e) <> 0) /\
  (forall u, pending (wd_w ex_wd) u = []).
Proof.
  split; [|intros u; vm_compute; reflexivity]. vm_compute. intros e [<-|[<-|[<-|[]]]]; discriminate.
Qed.
Print Assumptions c08_complete_becomes_durable_partial.

(* C09 *)
Theorem c09_commit_info_never_over_reports :
  forall cf T0 wd u cs1 k cs2 i, reachable cf T0 wd ->
    new_commits T0 (wd_T wd) u = cs1 ++ k :: cs2 -> k_info k = Some i ->
    (exists l1 e l2, wd_log wd = l1 ++ e :: l2 /\ closes (k_origin i) (k_seq i) e /\
       forall e', In e' (l1 ++ [e]) -> m_url (l_msg e') = u -> has_rows e' = true ->
                  incl (tags e') (committed (cs1 ++ [k]))) \/
    (exists i0, table_sequence (T0 u) = Some i0 /\ k_origin i = k_origin i0 /\ k_seq i = k_seq i0).
Proof. exact c09_covers. Qed.
Print Assumptions c09_commit_info_never_over_reports.

(* every commit of the writer flags an open transaction, and otherwise names the number of the last one
   ([create_commit]: table creation, and commits by others) *)
Theorem c09_open_transaction_flagged :
  forall cf T0 wd u k, reachable cf T0 wd -> In k (new_commits T0 (wd_T wd) u) ->
    k = create_commit \/ exists l1 l2, wd_log wd = l1 ++ l2 /\ info_ok u l1 (k_info k).
Proof. exact c09_flag. Qed.
Example c09_nonvacuous :
  exists k, new_commits ex_T0 (wd_T ex_wd) 0 = [create_commit] ++ k :: [] /\
            k_info k = Some {| k_origin := 2; k_seq := 3; k_new_tx := false |}.
Proof. eexists. split; vm_compute; reflexivity. Qed.
Print Assumptions c09_open_transaction_flagged.

(* C10 *)
Theorem c10_failed_flush_changes_nothing :
  forall cf T0 wd sq out u w' T', reachable cf T0 wd ->
    flush_syncs sq out u (wd_w wd) (wd_T wd) = (w', T', SErr) ->
    (forall o, stored w' o = stored (wd_w wd) o) /\ (forall v, pending w' v = pending (wd_w wd) v) /\
    (out <> FCommitFail -> forall v, committed (new_commits T0 T' v) = committed (new_commits T0 (wd_T wd) v)).
Proof. exact c10_failed. Qed.
Print Assumptions c10_failed_flush_changes_nothing.

Theorem c10_retry_as_if_first_partial :
  forall cf T0 wd sq out u w1 T1 sq' w2 T2, reachable cf T0 wd ->
    flush_syncs sq out u (wd_w wd) (wd_T wd) = (w1, T1, SErr) -> out <> FCommitFail ->
    flush_syncs sq' FOk u w1 T1 = (w2, T2, SOk) ->
    forall v, committed (new_commits T0 T2 v) =
       committed (new_commits T0 (wd_T wd) v) ++ (if Nat.eqb u v then pending (wd_w wd) v else []) /\
       pending w2 v = if Nat.eqb u v then [] else pending (wd_w wd) v.
Proof. exact c10_retry. Qed.
Print Assumptions c10_retry_as_if_first_partial.

(* C10 is false when the failure is only reported: the commit took effect, the retry commits the same
   changes again. *)
Theorem c10_reported_failure_duplicates_refuted :
  exists cf T0 wd u w1 T1 w2 T2 sq, reachable cf T0 wd /\
    flush_syncs sq FCommitFail u (wd_w wd) (wd_T wd) = (w1, T1, SErr) /\
    flush_syncs sq FOk u w1 T1 = (w2, T2, SOk) /\
    pending (wd_w wd) u <> [] /\
    committed (new_commits T0 T2 u) = pending (wd_w wd) u ++ pending (wd_w wd) u.
Proof. exact c10_counterexample. Qed.
Print Assumptions c10_reported_failure_duplicates_refuted.
