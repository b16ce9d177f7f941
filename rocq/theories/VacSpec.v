(* What VACUUM promises. *)
From Coq Require Import List Arith Bool.
From Verif Require Import VacModel.
Import ListNotations.

(* a version of the table can be read: it exists, and so do the files that its log has added and not removed *)
Definition readable (st : state) (v : nat) : Prop :=
  v < length (log st) /\
  forall f, In f (flat_map adds (firstn (S v) (log st))) -> ~ In f (flat_map removes (firstn (S v) (log st))) -> In f (store st).
(* the newest version *)
Definition latest (st : state) : nat := length (log st) - 1.
(* a file that no version from the newest on needs *)
Definition obsolete (st : state) (f : nat) : Prop := In f (flat_map removes (log st)).

(* statements that are executed one after the other, each to its end: writes and vacuums, and no TRUNCATE *)
Inductive statement := SWrite (w k : nat) (sel : nat -> bool) | SVacuum (x : nat).
Definition whole (s : statement) : list event :=
  match s with
  | SWrite w k sel => [Write w k sel; Commit w; Record_ w]
  | SVacuum x => [Load x; Delete x; Forget x]
  end.
