(* The integration test of VACUUM TABLE (tests/statements/vacuum.rs 4-150, test_vacuum_table), run through the model of VacModel.v. It is a test of
   the model, not a proof: the model gives the versions, the log entries and the files the project expects of the code. *)
From Coq Require Import List Arith Bool.
From Verif Require Import VacModel.
Import ListNotations.

(* a statement of one client: it is finished before the next one starts *)
Definition insert : list event := [Write 0 1 (fun _ => false); Commit 0; Record_ 0].
Definition replace_first : list event := [Write 0 1 (fun f => Nat.eqb f 0); Commit 0; Record_ 0].
Definition vacuum : list event := [Load 0; Delete 0; Forget 0].
(* table_1: a row is inserted and the file is then replaced by a DELETE *)
Definition table_1 : list event := insert ++ replace_first.
(* table_2: two inserts *)
Definition table_2 : list event := insert ++ insert.
Definition versions (es : list event) : list nat := recorded (run es).
(* assert_uploaded_objects: the number of the log entries and the data files *)
Definition objects (es : list event) : nat * list nat := (length (log (run es)), store (run es)).

Example before : versions table_1 = [0; 1; 2] /\ versions table_2 = [0; 1; 2].
Proof. vm_compute. split; reflexivity. Qed.
Example initial_objects : objects table_1 = (3, [0; 1]).
Proof. vm_compute. reflexivity. Qed.
Example vacuum_table_1 : versions (table_1 ++ vacuum) = [2] /\ objects (table_1 ++ vacuum) = (5, [1]).
Proof. vm_compute. split; reflexivity. Qed.
Example vacuum_table_2 : versions (table_2 ++ vacuum) = [2] /\ objects (table_2 ++ vacuum) = (3, [0; 1]).
Proof. vm_compute. split; reflexivity. Qed.
