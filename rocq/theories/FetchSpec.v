(* What a user expects of the range cache besides the right bytes: few requests, no leftovers, a bounded size. *)
From Coq Require Import List Arith Bool NArith.
From Verif Require Import CacheModel.
Import ListNotations.

(* the cache cannot serve this chunk: there is no entry, or the entry's file is gone *)
Definition missing (st : state) (k : key) : bool :=
  match cache st k with
  | None => true
  | Some (Mem _) => false
  | Some (File f _) => match disk st f with None => true | Some _ => false end
  end.
(* the request asks for the whole of chunk [c] of object [p] *)
Definition covers (cs p c : nat) (q : nat * nat * nat) : bool :=
  match q with (p', a, b) => Nat.eqb p' p && Nat.leb a (c * cs) && Nat.leb ((c + 1) * cs) b end.
(* the first and the last chunk that the bytes s..e touch *)
Definition first_chunk (cs s : nat) : nat := s / cs.
Definition last_chunk (cs e : nat) : nat := (e - 1) / cs.

(* nothing leaves the cache, and no entry is exchanged: reads of any object go on, objects change, files are written *)
Definition keeps_entries (ev : event) : Prop :=
  match ev with EEvict _ | ERemove _ | EFail _ | EInsert _ => False | _ => True end.
(* the network is down for the read [i], the disk is not *)
Definition offline (i : nat) (ev : event) : Prop :=
  match ev with EStep j net io => j = i -> net = false /\ io = true | _ => True end.

(* somebody will still look after the file: an entry refers to it, a task is writing it or is about to enter it, or it is
   about to be removed *)
Definition accounted (h : nat -> nat) (st : state) (f : fname) : Prop :=
  (exists k n, cache st k = Some (File f n)) \/
  (exists t x, tasks st t = Some x /\ file_of h (t_key x) = f /\ t_phase x <> Queued) \/
  In f (rem st).
(* nothing is under way *)
Definition quiescent (st : state) : Prop := (forall t, tasks st t = None) /\ rem st = [].
Definition no_failure (ev : event) : Prop := match ev with EFail _ => False | _ => True end.

(* the sum over a list of entries *)
Definition total (g : cval -> N) (vs : list cval) : N := fold_right (fun v n => (g v + n)%N) 0%N vs.

(* Evictions in good order: only entries that are on disk are evicted, and the file is gone before anything else happens. *)
Inductive orderly (h : nat -> nat) (cs : nat) : state -> list event -> Prop :=
| ord_nil : forall st, orderly h cs st []
| ord_other : forall st ev evs,
    match ev with EEvict _ | ERemove _ | EOpen _ | EMore _ _ | EClose _ => False | _ => True end ->
    orderly h cs (step h cs st ev) evs -> orderly h cs st (ev :: evs)
| ord_evict : forall st k f n evs, cache st k = Some (File f n) ->
    orderly h cs (step h cs (step h cs st (EEvict k)) (ERemove f)) evs -> orderly h cs st (EEvict k :: ERemove f :: evs).
