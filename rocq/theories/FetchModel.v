(* What the range cache of CacheModel.v asks of the underlying store, and what it weighs its entries with
   (src/object_store/cache.rs). *)
From Coq Require Import List Arith Bool NArith.
From Verif Require Import CacheModel.
Import ListNotations.

(* cache.rs:430-440 get_range_inner: the request (path, first byte, end) that a running read sends with its next step, if any.
   It is sent at two places: lines 490-492 for one chunk whose cache file cannot be read, lines 503-512 for a batch of chunks
   that have no entry. *)
Definition read_request (cs : nat) (r : reader) : option (nat * nat * nat) :=
  match r_pc r with
  | PRefetch => Some (r_path r, r_chunk r * cs, (r_chunk r + 1) * cs)
  | PGot cd =>
      if (match cd with Some _ => true | None => false end || Nat.eqb (r_chunk r) (r_last r)) &&
         negb (match r_batch r with [] => true | _ => false end)
      then Some (r_path r, hd 0 (r_batch r) * cs, (last (r_batch r) 0 + 1) * cs)
      else None
  | _ => None
  end.
(* the request sent in an event of a history *)
Definition event_request (cs : nat) (st : state) (ev : event) : list (nat * nat * nat) :=
  match ev with
  | EStep i _ _ => match readers st i with
                   | Some r => match read_request cs r with Some q => [q] | None => [] end
                   | None => []
                   end
  | _ => []
  end.
(* all requests of a history, in order *)
Fixpoint requests (h : nat -> nat) (cs : nat) (st : state) (evs : list event) : list (nat * nat * nat) :=
  match evs with
  | [] => []
  | ev :: evs' => event_request cs st ev ++ requests h cs (step h cs st ev) evs'
  end.

(* cache.rs:125-132 CacheValue::size *)
Definition size (v : cval) : nat := match v with Mem d => length d | File _ n => n end.
(* cache.rs:386: the weigher casts the size to 32 bits; moka keeps the sum of the weights within the capacity *)
Definition weight (v : cval) : N := N.modulo (N.of_nat (size v)) (2 ^ 32).
