(* The vectors of the project's own tests of writing (/repo/src/context/delta.rs:490-721), replayed through WriteModel.v.
   These are tests of the model, not proofs. *)
From Coq Require Import Ascii String List Arith Bool.
From Verif Require Import WriteModel.
Import ListNotations.
Local Open Scope list_scope.

Definition t_up (_ : nat) : bool := true.
Definition t_plan {R} (max : nat) (parts : list (list (list R))) : outcome (list (file R)) :=
  plan_to_delta_adds 100 max t_up 1 (map (map Some) parts).
Definition t_rows {R} (o : outcome (list (file R))) : option (list (list R)) :=
  match o with Ok l => Some (map rows l) | _ => None end.

(* delta.rs:631-721 test_plan_to_object_storage_partition_chunking *)
Example t_batches_smaller :
  t_rows (t_plan 5 [[[0; 1; 2]; [3; 4; 5]]; [[6; 7; 8]; [9; 10; 11]]])
  = Some [[0; 1; 2; 3; 4]; [5; 6; 7; 8; 9]; [10; 11]].
Proof. vm_compute. reflexivity. Qed.
Example t_batches_same :
  t_rows (t_plan 3 [[[0; 1; 2]; [3; 4; 5]]; [[6; 7; 8]; [9; 10; 11]]])
  = Some [[0; 1; 2]; [3; 4; 5]; [6; 7; 8]; [9; 10; 11]].
Proof. vm_compute. reflexivity. Qed.
Example t_batches_larger :
  t_rows (t_plan 2 [[[0; 1; 2]; [3; 4; 5]]; [[6; 7; 8]; [9; 10; 11]]])
  = Some [[0; 1]; [2; 3]; [4; 5]; [6; 7]; [8; 9]; [10; 11]].
Proof. vm_compute. reflexivity. Qed.
Example t_batches_irregular :
  t_rows (t_plan 3 [[[0; 1]; [2; 3; 4]]; [[5]]; [[6; 7; 8; 9]; [10; 11]]])
  = Some [[0; 1; 2]; [3; 4; 5]; [6; 7; 8]; [9; 10; 11]].
Proof. vm_compute. reflexivity. Qed.

(* delta.rs:490-629 test_plan_to_object_storage: two files of two rows each, the first numbered 0 and the second 1 *)
Definition t_values : list (string * nat * string) :=
  [("2022-01-01", 42, "one"); ("2022-01-02", 12, "two"); ("2022-01-03", 32, "three"); ("2022-01-04", 22, "four")]%string.
Example t_to_storage :
  match t_plan 2 [[t_values]] with
  | Ok l => map (fun f => (snd (path f), rows f)) l
  | _ => []
  end = [(0, firstn 2 t_values); (1, skipn 2 t_values)].
Proof. vm_compute. reflexivity. Qed.
