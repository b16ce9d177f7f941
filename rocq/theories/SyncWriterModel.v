(* Model of the data sync writer: the in-memory queue of change batches received over
   Arrow Flight, its transaction bookkeeping and its flushing.
   Source: /repo/src/sync/writer.rs, /repo/src/frontend/flight/handler.rs,
   /repo/src/sync/mod.rs.

   General simplifications:
   - table URLs, origins and column descriptors are represented by [nat] identifiers;
     the code only ever compares them for equality;
   - transaction UUIDs (writer.rs:213) are represented by a counter: fresh v4 UUIDs are assumed
     to be distinct;
   - a record batch is represented by its memory size, its row count and its provenance:
     the list of (message number, batch number) pairs whose rows it carries. Provenance is ghost data:
     no decision depends on it. What squashing does to the rows themselves is modelled in
     SyncSquashModel.v;
   - metrics and logging are left out;
   - sizes are unbounded naturals ([N]) instead of [usize]; that no subtraction underflows is proved. *)
From Coq Require Import List Arith NArith Bool Lia.
Import ListNotations.
Open Scope N_scope.

Notation url := nat (only parsing).
Notation origin := nat (only parsing).
Notation seqno := N (only parsing).
Notation txid := nat (only parsing).
(* which batch of which accepted message *)
Notation prov := (nat * nat)%type (only parsing).

(* arrow RecordBatch, see the header *)
Record batch := { b_size : N; b_rows : N; b_prov : list prov }.

(* sync/utils.rs:19-26 get_size_and_rows *)
Definition sum_size (bs : list batch) : N := fold_right (fun b a => b_size b + a) 0 bs.
Definition sum_rows (bs : list batch) : N := fold_right (fun b a => b_rows b + a) 0 bs.

(* sync/schema/mod.rs:10-17 SyncSchema: the list of its columns, each interned as a [nat]
   standing for (role, name, data type) *)
Notation schema := (list nat) (only parsing).

(* sync/schema/mod.rs:183-192 SyncSchema::is_compatible_with. [zip] stops at the shorter list. *)
Definition is_compatible_with (a b : schema) : bool :=
  forallb (fun p => Nat.eqb (fst p) (snd p)) (combine a b).

(* writer.rs:89-98 Transaction; the location HashSet is a list used through [set_add]/[set_rem] *)
Record transaction := { t_origin : origin; t_seq : option seqno; t_locs : list url }.

(* writer.rs:118-129 DataSyncItem *)
Record item := { i_squashed : bool; i_txs : list txid; i_schema : schema; i_data : list batch }.

(* writer.rs:103-114 DataSyncCollection (without the log store handle) *)
Record coll := { c_size : N; c_rows : N; c_time : N; c_items : list item }.

(* writer.rs:69-84 SeafowlDataSyncWriter; IndexMaps are association lists in insertion order *)
Record writer := {
  w_txs : list (txid * transaction);
  w_syncs : list (url * coll);
  w_size : N;
  w_mem : list (origin * seqno);
  w_dur : list (origin * seqno);
  w_next : txid      (* fresh transaction id, see the header *)
}.

(* writer.rs:132-142 new *)
Definition writer_new : writer :=
  {| w_txs := []; w_syncs := []; w_size := 0; w_mem := []; w_dur := []; w_next := 0%nat |}.

(* config/schema.rs:329-347 DataSyncConfig and writer.rs:29 MAX_ROWS_PER_SYNC *)
Record config := { cf_lag : N; cf_bytes : N; cf_syncs : nat; cf_max_rows : N }.

(* ---------- generic map helpers (IndexMap / HashMap / HashSet) ---------- *)
(* IndexMap::get / HashMap::get *)
Fixpoint get {A} (k : nat) (m : list (nat * A)) : option A :=
  match m with
  | [] => None
  | (k', v) :: m' => if Nat.eqb k k' then Some v else get k m'
  end.
(* IndexMap::get_mut followed by an assignment: position is kept *)
Fixpoint upd {A} (k : nat) (f : A -> A) (m : list (nat * A)) : list (nat * A) :=
  match m with
  | [] => []
  | (k', v) :: m' => if Nat.eqb k k' then (k', f v) :: m' else (k', v) :: upd k f m'
  end.
(* HashMap::insert *)
Definition put {A} (k : nat) (v : A) (m : list (nat * A)) : list (nat * A) :=
  (k, v) :: filter (fun p => negb (Nat.eqb k (fst p))) m.
(* IndexMap::shift_remove *)
Definition del {A} (k : nat) (m : list (nat * A)) : list (nat * A) :=
  filter (fun p => negb (Nat.eqb k (fst p))) m.
(* HashSet::insert / remove *)
Definition set_add (u : nat) (l : list nat) : list nat :=
  if existsb (Nat.eqb u) l then l else l ++ [u].
Definition set_rem (u : nat) (l : list nat) : list nat :=
  filter (fun v => negb (Nat.eqb u v)) l.
(* IndexMap::last / slice::last *)
Fixpoint last_opt {A} (l : list A) : option A :=
  match l with [] => None | [x] => Some x | _ :: l' => last_opt l' end.

(* ---------- messages ---------- *)
(* DataSyncCommand plus its batches as used by handler.rs:136-141; m_batches lists (size, rows) *)
Record msg := {
  m_url : url; m_origin : origin; m_seq : option seqno; m_schema : schema;
  m_batches : list (N * N)
}.
Definition m_size (m : msg) : N := fold_right (fun b a => fst b + a) 0 (m_batches m).
Definition m_rows (m : msg) : N := fold_right (fun b a => snd b + a) 0 (m_batches m).

(* the batches of message number [id], tagged with their provenance *)
Fixpoint tag (id k : nat) (bs : list (N * N)) : list batch :=
  match bs with
  | [] => []
  | (s, r) :: bs' => {| b_size := s; b_rows := r; b_prov := [(id, k)] |} :: tag id (S k) bs'
  end.

(* a call either returns Ok, returns an error, or panics *)
Inductive status := SOk | SErr | SPanic.

(* ---------- enqueue ---------- *)
(* writer.rs:232-255: the and_modify closure on an existing collection; None = the unwrap of
   line 233 panics. [upd_last] replaces the last element. *)
Fixpoint upd_last {A} (f : A -> A) (l : list A) : list A :=
  match l with [] => [] | [x] => [f x] | x :: l' => x :: upd_last f l' end.

Definition coll_append (cf : config) (t : txid) (sc : schema) (bs : list batch) (c : coll)
  : option coll :=
  match last_opt (c_items c) with
  | None => None
  | Some prev =>
      let items :=
        if is_compatible_with (i_schema prev) sc
           && (sum_rows (i_data prev) + sum_rows bs <=? cf_max_rows cf)
        then upd_last (fun p => {| i_squashed := false; i_txs := i_txs p ++ [t];
                                   i_schema := i_schema p; i_data := i_data p ++ bs |})
                      (c_items c)
        else c_items c ++ [{| i_squashed := false; i_txs := [t]; i_schema := sc; i_data := bs |}]
      in Some {| c_size := c_size c + sum_size bs; c_rows := c_rows c + sum_rows bs;
                 c_time := c_time c; c_items := items |}
  end.

(* writer.rs:174-224: find or create the transaction; None = InvalidMessage (lines 177-184, 202-211).
   Returns the transaction id, the new transaction queue and the new id counter. *)
Definition upsert_tx (w : writer) (m : msg) : option (txid * list (txid * transaction) * txid) :=
  let fresh :=
    if (m_rows m =? 0) && (match m_seq m with Some _ => true | None => false end)
    then None
    else Some (w_next w,
               w_txs w ++ [(w_next w, {| t_origin := m_origin m; t_seq := m_seq m;
                                         t_locs := [m_url m] |})],
               S (w_next w)) in
  match last_opt (w_txs w) with
  | Some (t, x) =>
      match t_seq x with
      | None =>
          if negb (Nat.eqb (m_origin m) (t_origin x)) then None
          else
            let x' := {| t_origin := t_origin x;
                         t_seq := match m_seq m with Some _ => m_seq m | None => t_seq x end;
                         t_locs := if m_rows m =? 0 then t_locs x
                                   else set_add (m_url m) (t_locs x) |} in
            Some (t, upd_last (fun _ => (t, x')) (w_txs w), w_next w)
      | Some _ => fresh
      end
  | None => fresh
  end.

(* writer.rs:156-289 enqueue_sync. [now] is the clock reading of line 259, [id] the message number
   (ghost). *)
Definition enqueue_sync (cf : config) (now : N) (id : nat) (m : msg) (w : writer)
  : writer * status :=
  match upsert_tx w m with
  | None => (w, SErr)
  | Some (t, txs, next) =>
      let bs := tag id 0 (m_batches m) in
      let mem := match m_seq m with Some s => put (m_origin m) s (w_mem w) | None => w_mem w end in
      if m_rows m =? 0 then
        ({| w_txs := txs; w_syncs := w_syncs w; w_size := w_size w; w_mem := mem;
            w_dur := w_dur w; w_next := next |}, SOk)
      else
        match get (m_url m) (w_syncs w) with
        | Some c =>
            match coll_append cf t (m_schema m) bs c with
            | None =>
                ({| w_txs := txs; w_syncs := w_syncs w; w_size := w_size w; w_mem := w_mem w;
                    w_dur := w_dur w; w_next := next |}, SPanic)
            | Some c' =>
                ({| w_txs := txs; w_syncs := upd (m_url m) (fun _ => c') (w_syncs w);
                    w_size := w_size w + sum_size bs; w_mem := mem; w_dur := w_dur w;
                    w_next := next |}, SOk)
            end
        | None =>
            let c' := {| c_size := sum_size bs; c_rows := sum_rows bs; c_time := now;
                         c_items := [{| i_squashed := false; i_txs := [t];
                                        i_schema := m_schema m; i_data := bs |}] |} in
            ({| w_txs := txs; w_syncs := w_syncs w ++ [(m_url m, c')];
                w_size := w_size w + sum_size bs; w_mem := mem; w_dur := w_dur w;
                w_next := next |}, SOk)
        end
  end.

(* ---------- squashing ---------- *)
(* writer.rs:534-570: the loop of physical_squashing over the items of one collection. [sq i] is
   the outcome of squash_batches on item number [i]: None if it fails or panics, otherwise memory size and
   row count of the squashed batch. Returns the items, the running totals (self.size, coll size,
   coll rows) and whether the loop completed. *)
Fixpoint squash_items (sq : nat -> option (N * N)) (i : nat) (items : list item)
         (size csize crows : N) : list item * N * N * N * bool :=
  match items with
  | [] => ([], size, csize, crows, true)
  | it :: rest =>
      if i_squashed it then
        let '(rest', size', csize', crows', ok) := squash_items sq (S i) rest size csize crows in
        (it :: rest', size', csize', crows', ok)
      else
        match sq i with
        | None => (it :: rest, size, csize, crows, false)
        | Some (s, r) =>
            let b := {| b_size := s; b_rows := r; b_prov := flat_map b_prov (i_data it) |} in
            let it' := {| i_squashed := true; i_txs := i_txs it; i_schema := i_schema it;
                          i_data := [b] |} in
            let '(rest', size', csize', crows', ok) :=
              squash_items sq (S i) rest
                           (size - sum_size (i_data it) + s)
                           (csize - sum_size (i_data it) + s)
                           (crows - sum_rows (i_data it) + r) in
            (it' :: rest', size', csize', crows', ok)
        end
  end.

(* writer.rs:528-580 physical_squashing. The subtraction inside the log line 573-576
   (old_size - self.size) is left out: it wraps in release builds. *)
Definition physical_squashing (sq : nat -> option (N * N)) (u : url) (w : writer) : writer * bool :=
  match get u (w_syncs w) with
  | None => (w, true)
  | Some c =>
      let '(items, size, csize, crows, ok) :=
        squash_items sq 0 (c_items c) (w_size w) (c_size c) (c_rows c) in
      ({| w_txs := w_txs w;
          w_syncs := upd u (fun _ => {| c_size := csize; c_rows := crows; c_time := c_time c;
                                        c_items := items |}) (w_syncs w);
          w_size := size; w_mem := w_mem w; w_dur := w_dur w; w_next := w_next w |}, ok)
  end.

(* ---------- flush criteria ---------- *)
(* writer.rs:355 iter().max_by_key: the last of the largest entries *)
Fixpoint max_by_size (l : list (url * coll)) : option (url * coll) :=
  match l with
  | [] => None
  | x :: l' =>
      match max_by_size l' with
      | None => Some x
      | Some y => if c_size (snd x) <=? c_size (snd y) then Some y else Some x
      end
  end.

(* writer.rs:342: now() - insertion_time on u64, wrapping as in release builds *)
Definition lag_of (now ins : N) : N :=
  if ins <=? now then now - ins else 2 ^ 64 + now - ins.

(* writer.rs:370-372 *)
Definition find_many (cf : config) (l : list (url * coll)) : option url :=
  option_map fst (find (fun p => Nat.leb (cf_syncs cf) (length (c_items (snd p)))) l).

(* writer.rs:340-387 flush_ready. Result None = error from squashing. *)
Definition flush_ready (cf : config) (now : N) (sq : nat -> option (N * N)) (w : writer)
  : writer * option (option url) :=
  let third w := (w, Some (find_many cf (w_syncs w))) in
  let second w :=
    if cf_bytes cf <=? w_size w then
      match max_by_size (w_syncs w) with
      | Some (u, _) =>
          let '(w', ok) := physical_squashing sq u w in
          if negb ok then (w', None)
          else if cf_bytes cf <=? w_size w' then (w', Some (Some u))
          else third w'
      | None => third w
      end
    else third w in
  match w_syncs w with
  | (u, c) :: _ => if cf_lag cf <=? lag_of now (c_time c) then (w, Some (Some u)) else second w
  | [] => second w
  end.

(* ---------- flushing one table ---------- *)
(* sync/mod.rs:47-58 SyncCommitInfo *)
Record commit_info_t := { k_origin : origin; k_seq : seqno; k_new_tx : bool }.

(* one commit of a Delta table: the provenance of the rows it contains, and the
   sync commit info in its CommitInfo action *)
Record commit := { k_prov : list prov; k_info : option commit_info_t }.

(* the object store: for every URL the list of commits, oldest first; no commits = no table *)
Definition tables := url -> list commit.
Definition set_table (T : tables) (u : url) (cs : list commit) : tables :=
  fun v => if Nat.eqb u v then cs else T v.

(* writer.rs:308-315: the commit of CreateBuilder, and any commit by others without sync info *)
Definition create_commit : commit := {| k_prov := []; k_info := None |}.

(* writer.rs:587-603 table_sequence: the info of the newest commit *)
Definition table_sequence (cs : list commit) : option commit_info_t :=
  match last_opt cs with Some k => k_info k | None => None end.

Definition with_new_tx (b : bool) (i : commit_info_t) : commit_info_t :=
  {| k_origin := k_origin i; k_seq := k_seq i; k_new_tx := b |}.

(* writer.rs:617-631: the find_map, on the reversed list of items *)
Fixpoint find_closed (txs : list (txid * transaction)) (new_tx : bool) (rev_items : list item)
  : option (option commit_info_t) :=
  match rev_items with
  | [] => Some None
  | it :: rest =>
      match last_opt (i_txs it) with
      | None => None  (* line 625: unwrap panics *)
      | Some t =>
          match get t txs with
          | Some {| t_origin := o; t_seq := Some s |} =>
              Some (Some {| k_origin := o; k_seq := s; k_new_tx := new_tx |})
          | _ => find_closed txs new_tx rest
          end
      end
  end.

(* writer.rs:607-637 commit_info. Outer None = panic. *)
Definition commit_info (w : writer) (lastc : option commit_info_t) (items : list item)
  : option (option commit_info_t) :=
  let new_tx :=
    match last_opt items with
    | None => Some false
    | Some it =>
        match last_opt (i_txs it) with
        | None => None                                    (* line 614: unwrap *)
        | Some t => match get t (w_txs w) with
                    | None => None                        (* line 614: index *)
                    | Some x => Some (match t_seq x with None => true | Some _ => false end)
                    end
        end
    end in
  match new_tx with
  | None => None
  | Some b =>
      match find_closed (w_txs w) b (rev items) with
      | None => None
      | Some (Some i) => Some (Some i)
      | Some None => Some (option_map (with_new_tx b) lastc)
      end
  end.

(* writer.rs:640-647 remove_tx_locations *)
Definition remove_tx_locations (u : url) (ids : list txid) (txs : list (txid * transaction)) :=
  fold_left (fun txs t =>
    upd t (fun x => {| t_origin := t_origin x; t_seq := t_seq x; t_locs := set_rem u (t_locs x) |})
        txs) ids txs.

(* writer.rs:650-656 remove_sync *)
Definition remove_sync (u : url) (w : writer) : writer :=
  match get u (w_syncs w) with
  | None => w
  | Some c => {| w_txs := w_txs w; w_syncs := del u (w_syncs w); w_size := w_size w - c_size c;
                 w_mem := w_mem w; w_dur := w_dur w; w_next := w_next w |}
  end.

(* writer.rs:661-682 advance_durable *)
Fixpoint advance (txs : list (txid * transaction)) (dur : list (origin * seqno))
  : list (txid * transaction) * list (origin * seqno) :=
  match txs with
  | (t, {| t_origin := o; t_seq := Some s; t_locs := [] |}) :: rest => advance rest (put o s dur)
  | _ => (txs, dur)
  end.
Definition advance_durable (w : writer) : writer :=
  let '(txs, dur) := advance (w_txs w) (w_dur w) in
  {| w_txs := txs; w_syncs := w_syncs w; w_size := w_size w; w_mem := w_mem w; w_dur := dur;
     w_next := w_next w |}.

(* What the outside world does to one flush attempt (writer.rs:412-493):
   - [FOk]: everything succeeds;
   - [FFail]: an error or panic before anything is written to the table (loading, planning, creating);
   - [FCreateFail]: the missing table gets created (lines 415-422), a later step fails;
   - [FCommitFail]: the commit of line 489 takes effect, but the call does not complete
     (error reported although the commit was written, or the request was cancelled at that await). *)
Inductive outcome := FOk | FFail | FCreateFail | FCommitFail.

(* Iterator::unique on tx ids (writer.rs:501-506) does not matter for the loop in
   remove_tx_locations, which is idempotent: the duplicates are kept here. *)
(* writer.rs:390-525 flush_syncs *)
Definition flush_syncs (sq : nat -> option (N * N)) (out : outcome) (u : url)
           (w : writer) (T : tables) : writer * tables * status :=
  let '(w1, ok) := physical_squashing sq u w in
  if negb ok then (w1, T, SErr)
  else
    match get u (w_syncs w1) with
    | None => (w1, T, SOk)
    | Some c =>
        match out with
        | FFail => (w1, T, SErr)
        | _ =>
            let cs := match T u with
                      | [] => [create_commit]
                      | cs => cs
                      end in
            let T1 := set_table T u cs in
            match commit_info w1 (table_sequence cs) (c_items c) with
            | None => (w1, T1, SPanic)
            | Some info =>
                match c_items c with
                | [] => (remove_sync u w1, T1, SOk)
                | _ =>
                    match out with
                    | FCreateFail => (w1, T1, SErr)
                    | _ =>
                        let k := {| k_prov := flat_map b_prov (flat_map i_data (c_items c));
                                    k_info := info |} in
                        let T2 := set_table T u (cs ++ [k]) in
                        match out with
                        | FCommitFail => (w1, T2, SErr)
                        | _ =>
                            let txs := remove_tx_locations u (flat_map i_txs (c_items c)) (w_txs w1) in
                            let w2 := {| w_txs := txs; w_syncs := w_syncs w1; w_size := w_size w1;
                                         w_mem := w_mem w1; w_dur := w_dur w1; w_next := w_next w1 |} in
                            (advance_durable (remove_sync u w2), T2, SOk)
                        end
                    end
                end
            end
        end
    end.

(* the environment of one call: clock reading, squash outcomes and flush outcome of every
   iteration of the flush loop (squashing is called in flush_ready and again in flush_syncs) *)
Record env := {
  e_now : nat -> N;
  e_sq_ready : nat -> nat -> option (N * N);
  e_sq_flush : nat -> nat -> option (N * N);
  e_out : nat -> outcome
}.

(* writer.rs:321-334 flush: the while loop, [fuel] bounds its iterations. None = out of fuel. *)
Fixpoint flush_loop (cf : config) (e : env) (fuel i : nat) (w : writer) (T : tables)
  : option (writer * tables * status) :=
  match fuel with
  | O => None
  | S fuel' =>
      match flush_ready cf (e_now e i) (e_sq_ready e i) w with
      | (w1, None) => Some (w1, T, SErr)
      | (w1, Some None) => Some (w1, T, SOk)
      | (w1, Some (Some u)) =>
          match flush_syncs (e_sq_flush e i) (e_out e i) u w1 T with
          | (w2, T2, SOk) => flush_loop cf e fuel' (S i) w2 T2
          | (w2, T2, st) => Some (w2, T2, st)
          end
      end
  end.

(* Every iteration but the last removes a pending table, so this fuel suffices (proved:
   flush_terminates). *)
Definition flush (cf : config) (e : env) (w : writer) (T : tables) :=
  flush_loop cf e (S (length (w_syncs w))) 0 w T.

(* ---------- the service ---------- *)
(* Replies of process_sync_cmd (handler.rs:136-237) *)
Inductive reply :=
| RSeqs (mem dur : option seqno)   (* accepted: true with both sequence numbers *)
| RBusy                            (* accepted: false, lock timeout *)
| RInvalid                         (* the message was refused by enqueue_sync *)
| RFlushErr                        (* enqueued, but flushing returned an error *)
| RPanic
| RNone.                           (* background task: no reply *)

(* one accepted message as remembered by the ghost log *)
Record entry := { l_id : nat; l_msg : msg; l_tx : txid }.

Record world := {
  wd_w : writer;
  wd_T : tables;
  wd_log : list entry;   (* ghost: messages enqueued so far, oldest first *)
  wd_id : nat            (* ghost: next message number *)
}.

(* a fresh process over whatever tables exist already *)
Definition init (T : tables) (id0 : nat) : world :=
  {| wd_w := writer_new; wd_T := T; wd_log := []; wd_id := id0 |}.

Inductive event :=
| EMsg (m : msg) (lock : bool) (now0 : N) (e : env)  (* a do_put; [lock]: write lock obtained in time *)
| ETick (e : env)                                    (* flush_task, sync/mod.rs:90-109 *)
| EOther (u : url).                                  (* a commit to the table by someone else *)

Definition stored (w : writer) (o : origin) : reply := RSeqs (get o (w_mem w)) (get o (w_dur w)).

Definition step (cf : config) (wd : world) (ev : event) : world * reply :=
  match ev with
  | EMsg m lock now0 e =>
      (* handler.rs:153-164 *)
      if (m_rows m =? 0) && (match m_seq m with None => true | Some _ => false end)
      then (wd, stored (wd_w wd) (m_origin m))
      else if negb lock then (wd, RBusy)
      else
        match enqueue_sync cf now0 (wd_id wd) m (wd_w wd) with
        | (w1, SErr) => ({| wd_w := w1; wd_T := wd_T wd; wd_log := wd_log wd; wd_id := wd_id wd |},
                         RInvalid)
        | (w1, SPanic) => ({| wd_w := w1; wd_T := wd_T wd; wd_log := wd_log wd; wd_id := wd_id wd |},
                           RPanic)
        | (w1, SOk) =>
            let t := match upsert_tx (wd_w wd) m with Some (t, _, _) => t | None => 0%nat end in
            let log := wd_log wd ++ [{| l_id := wd_id wd; l_msg := m; l_tx := t |}] in
            match flush cf e w1 (wd_T wd) with
            | None => ({| wd_w := w1; wd_T := wd_T wd; wd_log := log; wd_id := S (wd_id wd) |}, RPanic)
            | Some (w2, T2, st) =>
                ({| wd_w := w2; wd_T := T2; wd_log := log; wd_id := S (wd_id wd) |},
                 match st with
                 | SOk => stored w2 (m_origin m)
                 | SErr => RFlushErr
                 | SPanic => RPanic
                 end)
            end
        end
  | ETick e =>
      match flush cf e (wd_w wd) (wd_T wd) with
      | None => (wd, RPanic)
      | Some (w2, T2, st) =>
          ({| wd_w := w2; wd_T := T2; wd_log := wd_log wd; wd_id := wd_id wd |},
           match st with SPanic => RPanic | _ => RNone end)
      end
  | EOther u =>
      match wd_T wd u with
      | [] => (wd, RNone)
      | cs => ({| wd_w := wd_w wd;
                  wd_T := set_table (wd_T wd) u (cs ++ [create_commit]);
                  wd_log := wd_log wd; wd_id := wd_id wd |}, RNone)
      end
  end.

Fixpoint run (cf : config) (wd : world) (evs : list event) : world * list reply :=
  match evs with
  | [] => (wd, [])
  | ev :: evs' =>
      let '(wd1, r) := step cf wd ev in
      let '(wd2, rs) := run cf wd1 evs' in
      (wd2, r :: rs)
  end.

(* ---------- checked arithmetic ---------- *)
(* writer.rs:534-570 once more, with the three subtractions checked as in a debug build:
   None = arithmetic overflow panic. Only used to state that the panic is unreachable. *)
Definition sub_checked (a b : N) : option N := if b <=? a then Some (a - b) else None.

Fixpoint squash_items_checked (sq : nat -> option (N * N)) (i : nat) (items : list item)
         (size csize crows : N) : option (list item * N * N * N * bool) :=
  match items with
  | [] => Some ([], size, csize, crows, true)
  | it :: rest =>
      if i_squashed it then
        match squash_items_checked sq (S i) rest size csize crows with
        | Some (rest', size', csize', crows', ok) => Some (it :: rest', size', csize', crows', ok)
        | None => None
        end
      else
        match sq i with
        | None => Some (it :: rest, size, csize, crows, false)
        | Some (s, r) =>
            let b := {| b_size := s; b_rows := r; b_prov := flat_map b_prov (i_data it) |} in
            let it' := {| i_squashed := true; i_txs := i_txs it; i_schema := i_schema it;
                          i_data := [b] |} in
            match sub_checked size (sum_size (i_data it)),
                  sub_checked csize (sum_size (i_data it)),
                  sub_checked crows (sum_rows (i_data it)) with
            | Some a, Some b, Some c =>
                match squash_items_checked sq (S i) rest (a + s) (b + s) (c + r) with
                | Some (rest', size', csize', crows', ok) => Some (it' :: rest', size', csize', crows', ok)
                | None => None
                end
            | _, _, _ => None
            end
        end
  end.
