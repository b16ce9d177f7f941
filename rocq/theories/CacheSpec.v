(* What a range read through the cache must return. *)
From Coq Require Import List Arith.
From Verif Require Import CacheModel.
Import ListNotations.

(* bytes s .. e (exclusive) of an object *)
Definition slice (d : list nat) (s e : nat) : list nat := firstn (e - s) (skipn s d).
(* the read number [i] of the range s..e of the object [p] has returned the bytes [d] *)
Definition returned (st : state) (i p s e : nat) (d : list nat) : Prop :=
  exists r, readers st i = Some r /\ r_path r = p /\ r_start r = s /\ r_end r = e /\ r_pc r = PDone d.
Definition panicked (st : state) (i : nat) : Prop := exists r, readers st i = Some r /\ r_pc r = PPanic.
Definition failed (st : state) (i : nat) : Prop := exists r, readers st i = Some r /\ r_pc r = PErr.
Definition finished (st : state) (i : nat) : Prop := (exists d p s e, returned st i p s e d) \/ failed st i \/ panicked st i.
(* the object is neither overwritten nor deleted *)
Definition leaves (p : nat) (ev : event) : Prop :=
  match ev with EPut q _ => q <> p | EDelete q => q <> p | _ => True end.
(* cache files appear as a whole: a write to the cache directory takes place at once, or fails without leaving a file *)
Definition whole_write (ev : event) : Prop :=
  match ev with EOpen _ | EMore _ _ => False | _ => True end.
(* nothing of the object is cached and nobody is reading it *)
Definition untouched (h : nat -> nat) (st : state) (p : nat) : Prop :=
  (forall c, cache st (p, c) = None) /\ (forall c, disk st (file_of h (p, c)) = None) /\
  (forall t x, tasks st t = Some x -> fst (t_key x) <> p) /\ (forall i r, readers st i = Some r -> r_path r <> p).
(* no request to the underlying store fails *)
Definition net_ok (ev : event) : Prop := match ev with EStep _ net _ => net = true | _ => True end.
