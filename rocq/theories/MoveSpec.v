(* What a write should leave in the store and in the temporary directory. *)
From Coq Require Import List Arith Bool.
From Verif Require Import MoveModel.
Import ListNotations.

Section S.
Variable content : nat -> list nat.
Variable total : nat.
(* every file that the log names is in the store as it was written, with its size *)
Definition whole (st : state) : Prop :=
  forall i s, In (i, s) (committed st) -> store st i = Some (content i) /\ s = length (content i).
(* the log names all the files of the statement, or none *)
Definition all_or_none (st : state) : Prop := committed st = [] \/ map fst (committed st) = seq 0 total.
(* a file that can be seen under its name is complete *)
Definition no_fragments (st : state) : Prop := forall i c, store st i = Some c -> c = content i.
(* nothing is left in the temporary directory *)
Definition tidy (st : state) : Prop := forall i, temp st i = None.
(* all tasks that were started are over *)
Definition quiet (st : state) : Prop := ended st = true /\ forall i, i < spawned st -> (exists size, phases st i = Done size) \/ phases st i = Failed.
End S.
