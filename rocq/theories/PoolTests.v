(* The vectors of the unit test of the memory pool (/repo/src/memory_pool.rs:140-189), replayed through PoolModel.v. These are tests of the model,
   not proofs. *)
From Coq Require Import Ascii String List ZArith Bool.
From Verif Require Import PoolModel.
Import ListNotations.
Local Open Scope string_scope.
Local Open Scope Z_scope.
Definition by_consumer (k : kind) (n : Z) : call := {| what := k; consumer := "SomeConsumer[20]"; size := n |}.
(* grow(8), try_grow(8), try_grow(1) fails, free() gives back the 16 bytes *)
Definition vector : state :=
  run (Greedy 16) (one_after_another [by_consumer Grow 8; by_consumer TryGrow 8; by_consumer TryGrow 1; by_consumer Shrink 16]).
Example metrics :
  map snd (answers vector) = [true; true; false; true] /\
  allocated vector "SomeConsumer" true = 16 /\ allocated vector "SomeConsumer" false = 1 /\ freed vector "SomeConsumer" = 16 /\ gauge vector = 0.
Proof. vm_compute. repeat split. Qed.
