(* What a query may rely on. *)
From Coq Require Import List Arith Bool.
From Verif Require Import SnapModel.
Import ListNotations.

(* the name of a table, spelled with or without its schema and database *)
Definition names (s : spelling) (n : nat) : Prop := s = Bare n \/ s = InSchema n \/ s = Full n.
(* the number of commits at a location among some events *)
Definition commits (l : nat) (es : list event) : nat :=
  length (filter (fun e => match e with Commit l' => Nat.eqb l' l | _ => false end) es).
(* the location of the table with this name in the database *)
Definition stored (es : list event) (n l : nat) : Prop := In (n, l) (tables (run es)).
(* [p] is a moment of the history: some of its events have happened *)
Definition moment (es p : list event) : Prop := exists rest, es = p ++ rest.
(* all that the query has read existed at one moment since it began *)
Definition one_moment (es1 es2 : list event) (q : nat) : Prop :=
  exists p, moment es2 p /\ forall s l v, reads (run (es1 ++ Begin q :: es2)) q s = Some (Some (l, v)) ->
    commits l (es1 ++ p) = v.
