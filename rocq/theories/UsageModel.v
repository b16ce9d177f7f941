(* The gauges of the range caches, seafowl_object_store_cache_usage_bytes and ..._capacity_bytes (src/object_store/cache.rs). See UsageSpec.v for what the
   property means and UsageProps.v for the theorems. What the caches hold is modelled in CacheModel.v, the counters in MeterModel.v.

   A cache is one of moka 0.12.8: entries are there at once, their weight is counted when pending tasks are run ([weighted_size] is documented
   as an estimate that [run_pending_tasks] makes exact); an entry that is replaced or invalidated is reported to the listener at once, one
   that is evicted when pending tasks are run.
   Simplifications: caches and chunks are numbered; running the pending tasks is one step; a gauge is a whole number (it is an f64). *)
From Coq Require Import List Arith ZArith Bool.
Import ListNotations.
Open Scope Z_scope.

(* cache.rs:294-311, and moka's deques and counters: the chunks with their lengths; the changes of weight that are not counted yet; the weight *)
Record cache := { entries : list (nat * nat); pending : list Z; weighted : Z }.
Definition empty : cache := {| entries := []; pending := []; weighted := 0 |}.
Definition size_of (k : nat) (l : list (nat * nat)) : option nat := option_map snd (find (fun e => Nat.eqb (fst e) k) l).
Definition without (k : nat) (l : list (nat * nat)) : list (nat * nat) := filter (fun e => negb (Nat.eqb (fst e) k)) l.
Definition sum (l : list Z) : Z := fold_right Z.add 0 l.

(* The gauges are the process's: every cache gets the same one by its name (cache.rs:230-231) *)
Record state := { caches : nat -> cache; usage : Z; capacity : Z }.
Definition set_cache (st : state) (c : nat) (x : cache) : state :=
  {| caches := fun d => if Nat.eqb d c then x else caches st d; usage := usage st; capacity := capacity st |}.
Definition set_usage (st : state) (u : Z) : state := {| caches := caches st; usage := u; capacity := capacity st |}.
(* cache.rs:313-334 on_evict, the part about the gauge: not for replaced values *)
Definition on_evict (u : Z) (size : nat) : Z := u - Z.of_nat size.

(* the steps of readers and of the tasks that they spawn *)
Inductive event :=
| Open (c : nat) (max : nat)        (* cache.rs:361-395 new *)
| Store (c k s : nat)               (* 541-546: or_insert of the chunk in memory *)
| Report (c : nat)                  (* 553 and 579: cache_usage.set(weighted_size()) *)
| Maintain (c : nat) (out : list nat)  (* 561 run_pending_tasks, which moka runs now and then as well: chunks that are too old or too many go out *)
| Persist (c k s : nat)             (* 568-569: insert of the pointer to the file *)
| Fail (c k : nat).                 (* 576: invalidate, as the file could not be written *)

(* moka: the entry of [k] becomes one of length [s] *)
Definition insert (x : cache) (k s : nat) : cache :=
  {| entries := (k, s) :: without k (entries x);
     pending := pending x ++ [Z.of_nat s - match size_of k (entries x) with Some o => Z.of_nat o | None => 0 end];
     weighted := weighted x |}.
(* one chunk is evicted: its weight is known by now *)
Definition evict (xu : cache * Z) (k : nat) : cache * Z :=
  let (x, u) := xu in
  match size_of k (entries x) with
  | Some s => ({| entries := without k (entries x); pending := pending x; weighted := weighted x - Z.of_nat s |}, on_evict u s)
  | None => (x, u)
  end.
Definition step (st : state) (ev : event) : state :=
  match ev with
  | Open c max => {| caches := caches (set_cache st c empty); usage := 0; capacity := Z.of_nat max |}
  | Store c k s =>
      match size_of k (entries (caches st c)) with
      | Some _ => st
      | None => set_cache st c (insert (caches st c) k s)
      end
  | Report c => set_usage st (weighted (caches st c))
  | Maintain c out =>
      let x := caches st c in
      let (x', u) := fold_left evict out ({| entries := entries x; pending := []; weighted := weighted x + sum (pending x) |}, usage st) in
      set_usage (set_cache st c x') u
  | Persist c k s => set_cache st c (insert (caches st c) k s)
  | Fail c k =>
      let x := caches st c in
      match size_of k (entries x) with
      | Some s => set_usage (set_cache st c {| entries := without k (entries x); pending := pending x ++ [- Z.of_nat s]; weighted := weighted x |}) (on_evict (usage st) s)
      | None => st
      end
  end.
Definition init : state := {| caches := fun _ => empty; usage := 0; capacity := 0 |}.
Definition run (evs : list event) : state := fold_left step evs init.
