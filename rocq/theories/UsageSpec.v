(* What the property of the gauges means: the chunks that a cache holds after some events, and their length. Of UsageModel.v only the events
   are used. *)
From Coq Require Import List Arith ZArith Bool.
From Verif Require Import UsageModel.
Import ListNotations.
Open Scope Z_scope.

(* the length of chunk [k] in cache [c], if it is there *)
Definition holds (c : nat) (evs : list event) (k : nat) : option nat :=
  fold_left (fun h ev => match ev with
    | Open d _ => if Nat.eqb d c then None else h
    | Store d j s => if (Nat.eqb d c && Nat.eqb j k)%bool then match h with Some o => Some o | None => Some s end else h
    | Persist d j s => if (Nat.eqb d c && Nat.eqb j k)%bool then Some s else h
    | Fail d j => if (Nat.eqb d c && Nat.eqb j k)%bool then None else h
    | Maintain d out => if (Nat.eqb d c && existsb (Nat.eqb k) out)%bool then None else h
    | Report _ => h
    end) evs None.
(* [n] is the total length of what cache [c] holds: [l] lists each of its chunks once *)
Definition cached (c : nat) (evs : list event) (n : Z) : Prop :=
  exists l : list (nat * nat), NoDup (map fst l) /\ (forall k s, In (k, s) l <-> holds c evs k = Some s) /\ n = fold_right (fun e a => Z.of_nat (snd e) + a) 0 l.
(* all of it happens in one cache *)
Definition cache_of (ev : event) : nat := match ev with Open c _ | Store c _ _ | Report c | Maintain c _ | Persist c _ _ | Fail c _ => c end.
Definition only (c : nat) (evs : list event) : Prop := forall ev, In ev evs -> cache_of ev = c.
(* nothing is stored or thrown away except by eviction *)
Definition quiet (evs : list event) : Prop := forall ev, In ev evs -> match ev with Report _ | Maintain _ _ => True | _ => False end.
(* what a read of a chunk that is not cached does, with the file written or not *)
Definition read_chunk (c k s : nat) (out : list nat) (written : bool) : list event :=
  [Store c k s; Report c; Maintain c out; if written then Persist c k s else Fail c k; Report c].
