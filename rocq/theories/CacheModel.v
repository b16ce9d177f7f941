(* The on-disk range cache in front of an object store (src/object_store/cache.rs), as a transition system.

   Bytes are numbers. The state has the contents of the underlying store, the entries of the in-memory index, the files of
   the cache directory, the spawned write tasks, the files that the eviction listener has still to remove and the running
   reads. A read runs in small steps, one for every await of the program, so that other reads, write tasks,
   evictions, expirations and changes of the underlying store may happen between any two of them.

   Simplifications: the index (moka) may drop any entry at any time, which covers capacity, LRU order, rejected
   insertions and TTL; metrics and debug output are left out; all numbers are unbounded. *)
From Coq Require Import List Arith Bool.
Import ListNotations.

Notation bytes := (list nat) (only parsing).
(* cache.rs:96-100 CacheKey: the path and the number of the chunk. The range start..end is chunk * size .. (chunk+1) * size,
   see lines 457-464. *)
Definition key : Type := (nat * nat)%type.
(* cache.rs:108-117 as_filename: hash of the path, start and end of the range *)
Definition fname : Type := (nat * nat)%type.
Definition file_of (h : nat -> nat) (k : key) : fname := (h (fst k), snd k).
Definition keqb (a b : nat * nat) : bool := Nat.eqb (fst a) (fst b) && Nat.eqb (snd a) (snd b).

(* cache.rs:119-123 CacheValue *)
Inductive cval := Mem (d : bytes) | File (f : fname) (size : nat).

(* cache.rs:557-581: the spawned task that persists a chunk. [Writing]: the file is open, these bytes are still to be
   written; [Ready]: write_file has returned Ok. *)
Inductive phase := Queued | Writing (rest : bytes) | Ready.
Record task := { t_key : key; t_data : bytes; t_phase : phase }.

(* where a read is; [cd] is the variable chunk_data of line 466 *)
Inductive pc :=
| PLook                                        (* before cache.get, line 466 *)
| PFile (f : fname)                            (* before read_file, line 482 *)
| PRefetch                                     (* before get_range_inner, lines 490-492 *)
| PGot (cd : option bytes)                     (* before line 503 *)
| PStore (todo : list (key * bytes)) (cd : option bytes)   (* in the loop of lines 517-526 *)
| PDone (d : bytes) | PErr | PPanic.
Record reader := { r_path : nat; r_start : nat; r_end : nat; r_chunk : nat; r_last : nat;
                   r_batch : list nat; r_acc : bytes; r_pc : pc }.

Record state := { objs : nat -> option bytes; cache : key -> option cval;
                  disk : fname -> option (nat * bytes);        (* the task that created the file, its contents *)
                  tasks : nat -> option task; next : nat; rem : list fname;
                  readers : nat -> option reader }.

Definition upd {A} (i : nat) (x : A) (f : nat -> A) : nat -> A := fun j => if Nat.eqb j i then x else f j.
Definition updk {A} (k : nat * nat) (x : A) (f : nat * nat -> A) : nat * nat -> A := fun j => if keqb j k then x else f j.

(* the underlying store: ObjectStore::get_range with GetRange::Bounded clips the range to the object and fails if the start
   is not inside *)
Definition inner_get (o : nat -> option bytes) (p s e : nat) : option bytes :=
  match o p with
  | None => None
  | Some d => if Nat.ltb s (length d) then Some (firstn (e - s) (skipn s d)) else None
  end.

(* cache.rs:540-582 cache_chunk_data, without the spawned task *)
Definition cache_chunk_data (st : state) (k : key) (d : bytes) : state :=
  match cache st k with
  | Some _ => st
  | None =>
      {| objs := objs st; cache := updk k (Some (Mem d)) (cache st); disk := disk st;
         tasks := upd (next st) (Some {| t_key := k; t_data := d; t_phase := Queued |}) (tasks st); next := S (next st);
         rem := rem st; readers := readers st |}
  end.

(* cache.rs:517-526: how the data of a batch is split *)
Fixpoint split_batch (cs p : nat) (batch : list nat) (d : bytes) : list (key * bytes) :=
  match batch with
  | [] => []
  | c :: batch' =>
      if Nat.ltb (length d) cs then ((p, c), d) :: split_batch cs p batch' d
      else ((p, c), firstn cs d) :: split_batch cs p batch' (skipn cs d)
  end.

Definition set_reader (st : state) (i : nat) (r : reader) : state :=
  {| objs := objs st; cache := cache st; disk := disk st; tasks := tasks st; next := next st; rem := rem st;
     readers := upd i (Some r) (readers st) |}.
Definition at_pc (r : reader) (q : pc) : reader :=
  {| r_path := r_path r; r_start := r_start r; r_end := r_end r; r_chunk := r_chunk r; r_last := r_last r;
     r_batch := r_batch r; r_acc := r_acc r; r_pc := q |}.

(* cache.rs:676-681: trim. Buf::advance panics past the end. *)
Definition trim (cs : nat) (r : reader) (d : bytes) : pc :=
  let offset := r_start r - r_start r / cs * cs in
  if Nat.ltb (length d) offset then PPanic else PDone (firstn (r_end r - r_start r) (skipn offset d)).
(* cache.rs:531-534: append the chunk's own data and go on to the next chunk *)
Definition finish_chunk (cs : nat) (r : reader) (cd : option bytes) : reader :=
  let acc := r_acc r ++ match cd with Some d => d | None => [] end in
  if Nat.ltb (r_chunk r) (r_last r)
  then {| r_path := r_path r; r_start := r_start r; r_end := r_end r; r_chunk := S (r_chunk r); r_last := r_last r;
          r_batch := r_batch r; r_acc := acc; r_pc := PLook |}
  else {| r_path := r_path r; r_start := r_start r; r_end := r_end r; r_chunk := r_chunk r; r_last := r_last r;
          r_batch := r_batch r; r_acc := acc; r_pc := trim cs r acc |}.

(* cache.rs:655-673: start of a read. The subtractions range.end - range.start and range.end - 1 underflow for an
   inverted range and for an end of 0 (a panic, or an attempt to allocate the address space). *)
Definition start_read (cs p s e : nat) : reader :=
  let mk c l q := {| r_path := p; r_start := s; r_end := e; r_chunk := c; r_last := l; r_batch := []; r_acc := []; r_pc := q |} in
  if Nat.ltb e s || Nat.eqb e 0 then mk 0 0 PPanic
  else let c := s / cs in let l := (e - 1) / cs in
       if Nat.ltb l c then mk c l (PDone []) else mk c l PLook.

(* one step of a read; [net]: the request to the underlying store succeeds; [io]: the cache file can be read *)
Definition read_step (h : nat -> nat) (cs : nat) (st : state) (i : nat) (r : reader) (net io : bool) : state :=
  let k := (r_path r, r_chunk r) in
  match r_pc r with
  | PLook =>
      match cache st k with
      | None => set_reader st i {| r_path := r_path r; r_start := r_start r; r_end := r_end r; r_chunk := r_chunk r;
                                   r_last := r_last r; r_batch := r_batch r ++ [r_chunk r]; r_acc := r_acc r; r_pc := PGot None |}
      | Some (Mem d) => set_reader st i (at_pc r (PGot (Some d)))
      | Some (File f _) => set_reader st i (at_pc r (PFile f))
      end
  | PFile f =>
      match disk st f with
      | Some (_, d) => set_reader st i (at_pc r (if io then PGot (Some d) else PRefetch))
      | None => set_reader st i (at_pc r PRefetch)
      end
  | PRefetch =>
      match (if net then inner_get (objs st) (r_path r) (r_chunk r * cs) ((r_chunk r + 1) * cs) else None) with
      | None => set_reader st i (at_pc r PErr)
      | Some d => set_reader (cache_chunk_data st k d) i (at_pc r (PGot (Some d)))
      end
  | PGot cd =>
      if (match cd with Some _ => true | None => false end || Nat.eqb (r_chunk r) (r_last r)) &&
         negb (match r_batch r with [] => true | _ => false end)
      then
        match (if net then inner_get (objs st) (r_path r) (hd 0 (r_batch r) * cs) ((last (r_batch r) 0 + 1) * cs) else None) with
        | None => set_reader st i (at_pc r PErr)
        | Some d =>
            set_reader st i
              {| r_path := r_path r; r_start := r_start r; r_end := r_end r; r_chunk := r_chunk r; r_last := r_last r;
                 r_batch := []; r_acc := r_acc r ++ d; r_pc := PStore (split_batch cs (r_path r) (r_batch r) d) cd |}
        end
      else set_reader st i (finish_chunk cs r cd)
  | PStore [] cd => set_reader st i (finish_chunk cs r cd)
  | PStore ((k', d) :: todo) cd => set_reader (cache_chunk_data st k' d) i (at_pc r (PStore todo cd))
  | PDone _ | PErr | PPanic => st
  end.

(* cache.rs:314-344 on_evict: the listener removes the file of the entry, later *)
Definition evicted (v : option cval) : list fname := match v with Some (File f _) => [f] | _ => [] end.
Definition drop_entry (st : state) (k : key) : state :=
  {| objs := objs st; cache := updk k None (cache st); disk := disk st; tasks := tasks st; next := next st;
     rem := rem st ++ evicted (cache st k); readers := readers st |}.

Fixpoint remove_one (f : fname) (l : list fname) : list fname :=
  match l with [] => [] | g :: l' => if keqb f g then l' else g :: remove_one f l' end.

Definition set_task (st : state) (t : nat) (x : option task) (dk : fname -> option (nat * bytes)) : state :=
  {| objs := objs st; cache := cache st; disk := dk; tasks := upd t x (tasks st); next := next st; rem := rem st;
     readers := readers st |}.

Inductive event :=
| ERead (i p s e : nat)              (* get_range is called *)
| EStep (i : nat) (net io : bool)    (* a running read makes a step *)
| EEvict (k : key)                   (* an entry is evicted or expires *)
| ERemove (f : fname)                (* the eviction listener removes a file *)
| EWrite (t : nat)                   (* write_file of a task runs from begin to end *)
| EOpen (t : nat)                    (* write_file of a task begins: lines 48-60 *)
| EMore (t n : nat)                  (* it has written n more bytes *)
| EClose (t : nat)                   (* it returns Ok *)
| EFail (t : nat)                    (* it returns an error: lines 571-577 *)
| EInsert (t : nat)                  (* the task replaces the entry: lines 564-570 *)
| EPut (p : nat) (d : bytes)         (* put_opts / put_multipart / copy to this path: passed on, lines 593-633 *)
| EDelete (p : nat).                 (* delete *)

Definition with_objs (st : state) (o : nat -> option bytes) : state :=
  {| objs := o; cache := cache st; disk := disk st; tasks := tasks st; next := next st; rem := rem st; readers := readers st |}.

Definition step (h : nat -> nat) (cs : nat) (st : state) (ev : event) : state :=
  match ev with
  | ERead i p s e => match readers st i with None => set_reader st i (start_read cs p s e) | Some _ => st end
  | EStep i net io => match readers st i with Some r => read_step h cs st i r net io | None => st end
  | EEvict k => drop_entry st k
  | ERemove f =>
      if existsb (keqb f) (rem st)
      then {| objs := objs st; cache := cache st; disk := updk f None (disk st); tasks := tasks st; next := next st;
              rem := remove_one f (rem st); readers := readers st |}
      else st
  | EWrite t =>
      match tasks st t with
      | Some x =>
          match t_phase x with
          | Queued =>
              let f := file_of h (t_key x) in
              let x' := Some {| t_key := t_key x; t_data := t_data x; t_phase := Ready |} in
              match disk st f with
              | Some _ => set_task st t x' (disk st)                                  (* lines 53-57: skip *)
              | None => set_task st t x' (updk f (Some (t, t_data x)) (disk st))
              end
          | _ => st
          end
      | None => st
      end
  | EOpen t =>
      match tasks st t with
      | Some x =>
          match t_phase x with
          | Queued =>
              let f := file_of h (t_key x) in
              match disk st f with
              | Some _ => set_task st t (Some {| t_key := t_key x; t_data := t_data x; t_phase := Ready |}) (disk st)
              | None => set_task st t (Some {| t_key := t_key x; t_data := t_data x; t_phase := Writing (t_data x) |})
                                 (updk f (Some (t, [])) (disk st))
              end
          | _ => st
          end
      | None => st
      end
  | EMore t n =>
      match tasks st t with
      | Some x =>
          match t_phase x with
          | Writing rest =>
              let f := file_of h (t_key x) in
              let x' := Some {| t_key := t_key x; t_data := t_data x; t_phase := Writing (skipn n rest) |} in
              match disk st f with
              | Some (o, d) => set_task st t x' (if Nat.eqb o t then updk f (Some (o, d ++ firstn n rest)) (disk st) else disk st)
              | None => set_task st t x' (disk st)                                    (* the file has been unlinked *)
              end
          | _ => st
          end
      | None => st
      end
  | EClose t =>
      match tasks st t with
      | Some x =>
          match t_phase x with
          | Writing [] => set_task st t (Some {| t_key := t_key x; t_data := t_data x; t_phase := Ready |}) (disk st)
          | _ => st
          end
      | None => st
      end
  | EFail t =>
      match tasks st t with
      | Some x =>
          match t_phase x with
          | Ready => st
          | _ => drop_entry (set_task st t None (disk st)) (t_key x)
          end
      | None => st
      end
  | EInsert t =>
      match tasks st t with
      | Some x =>
          match t_phase x with
          | Ready =>
              let st' := drop_entry (set_task st t None (disk st)) (t_key x) in
              {| objs := objs st'; cache := updk (t_key x) (Some (File (file_of h (t_key x)) (length (t_data x)))) (cache st');
                 disk := disk st'; tasks := tasks st'; next := next st'; rem := rem st'; readers := readers st' |}
          | _ => st
          end
      | None => st
      end
  | EPut p d => with_objs st (upd p (Some d) (objs st))
  | EDelete p => with_objs st (upd p None (objs st))
  end.

(* a new cache: cache.rs:363-404 *)
Definition init (o : nat -> option bytes) : state :=
  {| objs := o; cache := fun _ => None; disk := fun _ => None; tasks := fun _ => None; next := 0; rem := [];
     readers := fun _ => None |}.
Definition run (h : nat -> nat) (cs : nat) (st : state) (evs : list event) : state := fold_left (step h cs) evs st.
