(* What it means that statements behave as if executed one after the other. *)
From Coq Require Import List Arith Bool Permutation.
From Verif Require Import ConcModel.
Import ListNotations.

Section S.
Context {R : Type}.
(* a statement on the rows of the table, alone *)
Definition alone (s : stmt R) (t : list R) : list R :=
  match s with
  | Insert l => t ++ l
  | InsertSelect q => t ++ q t
  | Delete p => filter (fun r => negb (p r)) t
  | Update p f => map (fun r => if p r then f r else r) t
  end.
Definition one_by_one (prog : nat -> stmt R) (order : list nat) : list R := fold_left (fun t w => alone (prog w) t) order [].
(* the statements that reported success *)
Definition succeeded (st : state R) : list nat := map by_ (log st).
Definition content (st : state R) : list R := flat_map rows (table (log st)).
(* [a] stands before [b] *)
Definition precedes (order : list nat) (a b : nat) : Prop := exists l1 l2 l3, order = l1 ++ a :: l2 ++ b :: l3.
(* the first statement had committed when the second loaded the table *)
Definition finished_before (st : state R) (a b : nat) : Prop :=
  exists i c1 c2, nth_error (log st) i = Some c1 /\ by_ c1 = a /\ In c2 (log st) /\ by_ c2 = b /\ i < base c2.
(* the table holds what the successful statements would have made of it, one by one, in an order that agrees with time *)
Definition serialisable (prog : nat -> stmt R) (st : state R) : Prop :=
  exists order, Permutation order (succeeded st) /\ (forall a b, finished_before st a b -> precedes order a b) /\
    Permutation (content st) (one_by_one prog order).
(* the pruning of files is sound: a file that a statement does not rewrite has no row that it selects *)
Definition selects (s : stmt R) (r : R) : bool := match s with Delete p | Update p _ => p r | _ => false end.
Definition sound (prog : nat -> stmt R) (keep : nat -> file R -> bool) : Prop :=
  forall w f, keep w f = false -> forall r, In r (rows f) -> selects (prog w) r = false.
End S.
