(* The cases of the project's own unit tests of the sync writer (sync/writer.rs 692-1254), run through the model of SyncWriterModel.v.
   They are tests of the model, not proofs: they show that it gives the sequence numbers the project expects of the code. *)
From Coq Require Import List Arith NArith Bool.
From Verif Require Import SyncWriterModel.
Import ListNotations.
Open Scope N_scope.

Definition T1 : nat := 1%nat.
Definition T2 : nat := 2%nat.
Definition T3 : nat := 3%nat.
Definition A : nat := 10%nat.
Definition B : nat := 11%nat.

(* an entry of the table_sequence of the test: a sync, or FLUSH *)
Inductive entry := Sync (t o : nat) (s : option N) | FLUSH.
(* the limits the test runs with do not matter: it flushes by hand *)
Definition cf : config := {| cf_lag := 1000; cf_bytes := 1000; cf_syncs := 100%nat; cf_max_rows := 100000 |}.
(* random_batches: ten rows; squashing gives a batch of ten rows *)
Definition sync_msg (t o : nat) (s : option N) : msg := {| m_url := t; m_origin := o; m_seq := s; m_schema := [1; 2; 3]%nat; m_batches := [(80, 10)] |}.
Definition sq (i : nat) : option (N * N) := Some (80, 10).

(* the HashMap mem_seq or dur_seq of the test, of two origins *)
Definition seqs := (option N * option N)%type.
Definition set_seq (o : nat) (v : option N) (m : seqs) : seqs := if Nat.eqb o A then (v, snd m) else (fst m, v).
Definition get_seq (o : nat) (m : seqs) : option N := if Nat.eqb o A then fst m else snd m.
Definition eqo (a b : option N) : bool := match a, b with Some x, Some y => N.eqb x y | None, None => true | _, _ => false end.
(* stored_sequences(origin) == (mem_seq[origin], dur_seq[origin]) *)
Definition stored_is (w : writer) (mem dur : seqs) (o : nat) : bool := eqo (get o (w_mem w)) (get_seq o mem) && eqo (get o (w_dur w)) (get_seq o dur).

(* the loop of test_sync_flush (writer.rs 803-872). [durs]: the expected durable sequences of A and, if there are two lists, of B.
   None: an unwrap panics; Some false: an assertion fails *)
Fixpoint test_sync_flush (l : list entry) (durs : list (list (option N))) (mem dur : seqs) (id : nat) (w : writer) (T : tables) : option bool :=
  match l with
  | [] => Some ((match w_txs w with [] => true | _ => false end) && (match w_syncs w with [] => true | _ => false end) && (w_size w =? 0))
  | FLUSH :: l' =>
      match w_syncs w with
      | [] => None
      | (u, _) :: _ =>
          match flush_syncs sq FOk u w T with
          | (w', T', SOk) =>
              let dur := match durs with (v :: _) :: _ => set_seq A v dur | _ => dur end in
              let dur := match durs with _ :: (v :: _) :: _ => set_seq B v dur | _ => dur end in
              if stored_is w' mem dur A && (Nat.ltb (length durs) 2 || stored_is w' mem dur B) then test_sync_flush l' (map (@tl _) durs) mem dur id w' T'
              else Some false
          | _ => None
          end
      end
  | Sync t o s :: l' =>
      match enqueue_sync cf 0 id (sync_msg t o s) w with
      | (w', SOk) =>
          let mem := match s with Some _ => set_seq o s mem | None => mem end in
          if stored_is w' mem dur o then test_sync_flush l' durs mem dur (S id) w' T else Some false
      | _ => None
      end
  end.
Definition sync_flush (l : list entry) (durs : list (list (option N))) : option bool :=
  test_sync_flush l durs (None, None) (None, None) 0 writer_new (fun _ => []).

Example basic : sync_flush [Sync T1 A (Some 100); Sync T2 A (Some 200); Sync T1 A (Some 300); FLUSH; FLUSH] [[Some 100; Some 300]] = Some true.
Proof. vm_compute. reflexivity. Qed.
Example basic_2_origins :
  sync_flush [Sync T1 A (Some 100); Sync T2 B (Some 200); Sync T1 A (Some 300); FLUSH; FLUSH] [[Some 100; Some 300]; [None; Some 200]] = Some true.
Proof. vm_compute. reflexivity. Qed.
Example incomplete_transaction : sync_flush [Sync T1 A None; Sync T2 B (Some 100); FLUSH] [] = None.
Proof. vm_compute. reflexivity. Qed.
Example race_2_origins :
  sync_flush [Sync T1 A None; Sync T2 A (Some 100); Sync T1 B (Some 200); FLUSH; FLUSH] [[None; Some 100]; [None; Some 200]] = Some true.
Proof. vm_compute. reflexivity. Qed.
Example doc_example :
  sync_flush [Sync T1 A None; Sync T2 A (Some 1); Sync T3 A (Some 2); Sync T1 A None; Sync T2 A (Some 3); FLUSH; FLUSH; FLUSH] [[None; Some 1; Some 3]] = Some true.
Proof. vm_compute. reflexivity. Qed.
Example staircase :
  sync_flush [Sync T1 A None; Sync T2 A None; Sync T3 A (Some 1); Sync T1 A None; Sync T2 A None; Sync T3 A (Some 2); FLUSH; FLUSH; FLUSH]
             [[None; None; Some 2]] = Some true.
Proof. vm_compute. reflexivity. Qed.
Example staircase_2_origins :
  sync_flush [Sync T1 A None; Sync T2 A (Some 1); Sync T3 B (Some 1001); Sync T1 B (Some 1002); Sync T2 A None; Sync T3 A (Some 2); FLUSH; FLUSH; FLUSH]
             [[None; Some 1; Some 2]; [None; None; Some 1002]] = Some true.
Proof. vm_compute. reflexivity. Qed.
Example long_sequence :
  sync_flush [Sync T1 A None; Sync T1 A None; Sync T1 A None; Sync T1 A None; Sync T2 A (Some 1); Sync T2 A None; Sync T2 A None; Sync T2 A None;
              Sync T3 A (Some 2); Sync T3 A None; Sync T3 A (Some 3); Sync T1 A None; Sync T3 A None; Sync T1 A None; Sync T3 A (Some 4);
              FLUSH; FLUSH; FLUSH] [[None; Some 1; Some 4]] = Some true.
Proof. vm_compute. reflexivity. Qed.
Example long_sequence_mid_flush :
  sync_flush [Sync T1 A None; Sync T1 A None; Sync T1 A None; FLUSH; Sync T1 A None; Sync T2 A (Some 1); Sync T2 A None; Sync T2 A None; FLUSH;
              Sync T2 A None; Sync T3 A (Some 2); FLUSH; Sync T3 A None; FLUSH; Sync T3 A (Some 3); Sync T1 A None; Sync T3 A None; Sync T1 A None; FLUSH;
              Sync T3 A (Some 4); FLUSH; FLUSH]
             [[None; None; Some 1; Some 2; Some 3; Some 3; Some 4]] = Some true.
Proof. vm_compute. reflexivity. Qed.

(* writer.rs 875-927: test_empty_sync *)
Definition empty_msg (s : N) : msg := {| m_url := T1; m_origin := A; m_seq := Some s; m_schema := []; m_batches := [] |}.
Example empty_sync :
  let w1 := fst (enqueue_sync cf 0 0 (sync_msg T1 A None) writer_new) in
  let w2 := fst (enqueue_sync cf 0 1 (empty_msg 100) w1) in
  snd (enqueue_sync cf 0 0 (sync_msg T1 A None) writer_new) = SOk /\ snd (enqueue_sync cf 0 1 (empty_msg 100) w1) = SOk /\
  enqueue_sync cf 0 2 (empty_msg 200) w2 = (w2, SErr) /\
  stored (fst (fst (flush_syncs sq FOk T1 w2 (fun _ => [])))) A = RSeqs (Some 100) (Some 100).
Proof. vm_compute. repeat split. Qed.
