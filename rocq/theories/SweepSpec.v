(* What the property of the clean-up means (of SweepModel.v the states, the events and the steps are used). *)
From Coq Require Import List Arith.
From Verif Require Import SweepModel.
Import ListNotations.

(* [P] holds of every event of a history, at the state in which it happens *)
Fixpoint along (c : setup) (P : state -> event -> Prop) (st : state) (evs : list event) : Prop :=
  match evs with [] => True | ev :: evs' => P st ev /\ along c P (step c st ev) evs' end.
(* the table that a listing is for *)
Definition lists (st : state) (i : nat) (u : nat) : Prop := exists x s rest, cleaners st i = Some x /\ now x = None /\ todo x = (u, s) :: rest.
(* a listing names objects of its directory only *)
Definition own (st : state) (ev : event) : Prop :=
  match ev with Listing i l => forall u k, lists st i u -> In (Some k) l -> fst k = u | _ => True end.
(* a listing names all objects of its directory *)
Definition complete (st : state) (ev : event) : Prop :=
  match ev with Listing i l => forall u k, lists st i u -> fst k = u -> In k (objs st) -> In (Some k) l | _ => True end.
(* a listing names each object of its directory once, nothing else, and reports no error *)
Definition exact (st : state) (ev : event) : Prop :=
  match ev with
  | Listing i l => forall u, lists st i u -> exists ks, l = map Some ks /\ NoDup ks /\ forall k, In k ks <-> fst k = u /\ In k (objs st)
  | _ => True
  end.
(* the store takes every deletion *)
Definition works (ev : event) : Prop := match ev with Next _ ok => ok = true | _ => True end.
(* there is one clean-up at a time *)
Definition single (ev : event) : Prop := match ev with Begin i _ | Listing i _ | Next i _ | Crash i => i = 0 | _ => True end.
Definition dropped (st : state) (u : nat) : Prop := exists s, In (u, s) (rows st).

(* The clean-up of those of the dropped tables [rs] that are [chosen], from start to end, when the store lists [listing u] for the table [u], all deletions
   succeed and nothing else happens. It lists the tables that are not given up, and goes through their objects. *)
Definition undisturbed (listing : nat -> list (nat * nat)) (chosen : nat -> bool) (rs : list (nat * status)) : list event :=
  Begin 0 chosen :: flat_map (fun r => Listing 0 (map Some (listing (fst r))) :: repeat (Next 0 true) (S (length (listing (fst r)))))
    (filter (fun r => match snd r with Failed => false | _ => true end) (filter (fun r => chosen (fst r)) rs)) ++ [Next 0 true].
