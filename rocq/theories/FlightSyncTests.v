(* The integration test of the change-data sync over Flight (tests/flight/sync.rs 32-480, test_sync_happy_path), run through the models of
   SyncDataModel.v (the rows) and SyncWriterModel.v (the answers). They are tests of the models, not proofs. Floats stand here as integers, ten
   times as large; rows are compared without their order, which the test fixes by sorting. *)
From Coq Require Import String List Arith ZArith Bool.
From Verif Require Import SyncDataModel SyncDataTests.
Import ListNotations.
Local Open Scope Z_scope.
Local Open Scope string_scope.

Definition cd1 := old_pk 1 INT.   Definition cd2 := old_pk 2 UTF8.
Definition cd3 := new_pk 1 INT.   Definition cd4 := new_pk 2 UTF8.
Definition cd5 := val 3 FLOAT.    Definition cd6 := val 4 UTF8.    Definition cd7 := chg 4.
Definition batch (w : nat) (rows : list (list value)) : rbatch := {| rb_width := w; rb_rows := rows |}.
Definition sync1 := ([cd1; cd2; cd3; cd4; cd5; cd6; cd7],
  [batch 7 [ [N; N; i 1; t "one"; i 10; N; no]; [N; N; i 2; t "two"; i 20; t "two #1 in sync #1"; yes] ]]).
Definition sync2 := ([cd2; cd4; cd3; cd1; cd6],
  [batch 5 [ [t "one"; t "one"; i 1; i 1; t "one #1 in sync #2"]; [N; t "three"; i 3; N; N]; [t "one"; t "1"; i 1; i 1; N];
             [N; t "four"; i 4; N; t "four"]; [t "1"; t "1"; i 1; i 1; t "one #2 in sync #2"] ]]).
Definition sync3 := ([cd5; cd4; cd3; cd2; cd1],
  [batch 5 [ [i 50; t "five"; i 5; N; N]; [i 20; N; N; t "two"; i 2]; [N; t "six"; i 6; N; N] ]]).
Definition sync4 := ([cd1; cd2; cd3; cd4; cd5; cd6; cd7],
  [batch 7 [ [N; N; i 7; t "seven"; N; t "seven"; no]; [i 6; t "six"; i 6; t "six"; N; t "six in sync #4"; yes];
             [N; N; i 8; t "eight"; N; N; yes]; [i 4; t "four"; i 2; t "two"; N; t "four"; yes] ]]).
Definition sync5 := ([cd2; cd1; cd5; cd4; cd3],
  [batch 5 [ [t "three"; i 3; i 33; t "3"; i 3]; [N; N; N; t "nine"; i 9]; [t "eight"; i 8; i 88; t "eight"; i 8]; [N; N; i 100; t "ten"; i 10];
             [t "eight"; i 8; N; N; N] ]]).
(* one flush of a table with the columns c1 ... c4, all in one file, which is rewritten *)
Definition flush (table : list (list value)) items : option (list (list value)) :=
  flush_rows BOOL (fun _ => [true]) no_stats [1; 2; 3; 4]%nat [table] items.
Definition first_flush : list (list value) :=
  [ [i 1; t "1"; i 10; t "one #2 in sync #2"]; [i 2; t "two"; i 20; t "two #1 in sync #1"]; [i 3; t "three"; N; N]; [i 4; t "four"; N; t "four"] ].
Definition second_flush : list (list value) :=
  [ [i 1; t "1"; i 10; t "one #2 in sync #2"]; [i 10; t "ten"; i 100; N]; [i 2; t "two"; N; t "four"]; [i 3; t "3"; i 33; N]; [i 5; t "five"; i 50; N];
    [i 6; t "six"; N; t "six in sync #4"]; [i 7; t "seven"; N; N]; [i 9; t "nine"; N; N] ].
Definition agrees (a : option (list (list value))) (b : list (list value)) : bool := match a with Some rows => same_rows rows b | None => false end.
Example happy_path_first : agrees (flush [] [sync1; sync2]) first_flush = true.
Proof. vm_compute. reflexivity. Qed.
Example happy_path_second : agrees (flush first_flush [sync3; sync4; sync5]) second_flush = true.
Proof. vm_compute. reflexivity. Qed.

(* ---- the answers, with the limits of the test server (tests/flight/mod.rs 60-84: 1000000 bytes, a second of lag, a flush task) ---- *)
From Verif Require SyncWriterModel.
Definition conf : SyncWriterModel.config :=
  {| SyncWriterModel.cf_lag := 1; SyncWriterModel.cf_bytes := 1000000; SyncWriterModel.cf_syncs := 50; SyncWriterModel.cf_max_rows := 65536 |}.
Definition at_time (n : BinNums.N) : SyncWriterModel.env :=
  {| SyncWriterModel.e_now := fun _ => n; SyncWriterModel.e_sq_ready := fun _ _ => Some (80, 3)%N; SyncWriterModel.e_sq_flush := fun _ _ => Some (80, 3)%N;
     SyncWriterModel.e_out := fun _ => SyncWriterModel.FOk |}.
(* a message of the origin 42 with so many rows, under one of the five schemas *)
Definition put (now : BinNums.N) (seqno : option BinNums.N) (schema : list nat) (rows : BinNums.N) : SyncWriterModel.event :=
  SyncWriterModel.EMsg
    {| SyncWriterModel.m_url := 7; SyncWriterModel.m_origin := 42; SyncWriterModel.m_seq := seqno; SyncWriterModel.m_schema := schema;
       SyncWriterModel.m_batches := [(80, rows)%N] |} true now (at_time now).
Example happy_path_answers :
  snd (SyncWriterModel.run conf (SyncWriterModel.init (fun _ => []) 0)
    [ put 0 None [1; 2; 3; 4; 5; 6; 7] 2; put 0 (Some 1234%N) [2; 4; 3; 1; 6] 5; SyncWriterModel.ETick (at_time 2);
      put 2 None [] 0; put 2 (Some 5600%N) [5; 4; 3; 2; 1] 3; put 2 None [1; 2; 3; 4; 5; 6; 7] 4; put 2 None [] 0; put 3 (Some 78910%N) [2; 1; 5; 4; 3] 5 ]%nat) =
  [ SyncWriterModel.RSeqs None None; SyncWriterModel.RSeqs (Some 1234%N) None; SyncWriterModel.RNone;
    SyncWriterModel.RSeqs (Some 1234%N) (Some 1234%N); SyncWriterModel.RSeqs (Some 5600%N) (Some 1234%N); SyncWriterModel.RSeqs (Some 5600%N) (Some 1234%N);
    SyncWriterModel.RSeqs (Some 5600%N) (Some 1234%N); SyncWriterModel.RSeqs (Some 78910%N) (Some 78910%N) ].
Proof. vm_compute. reflexivity. Qed.

(* ---- tests/flight/sync_fail.rs 21-66: test_sync_errors ---- *)
Example no_column_descriptors : try_new BOOL [] [INT] true = None.
Proof. reflexivity. Qed.
Example no_new_keys : try_new BOOL [(Some OldPk, 1%nat)] [INT] true = None.
Proof. reflexivity. Qed.
