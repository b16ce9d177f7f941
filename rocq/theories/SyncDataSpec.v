(* What the rows of a change stream mean, independently of how a flush is computed.

   A table maps primary keys to the values of the other columns. A change is a row of a sync message: it names
   the row it changes (old key; none for an INSERT), the row that results (new key; none for a DELETE) and the
   values it assigns. *)
From Coq Require String.
From Coq Require Import List Arith ZArith Bool Permutation.
From Verif Require Import SyncDataModel.
Import ListNotations.

Notation key := (list value) (only parsing).
Notation table := (list value -> option (list value)) (only parsing).

Record change := { ch_old : option key; ch_new : option key; ch_set : list (option value) }.

(* the values after an assignment: assigned ones are replaced, the others are kept (NULL in a new row) *)
Definition new_vals (old : option (list value)) (set : list (option value)) : list value :=
  map (fun p => match fst p with Some v => v | None => snd p end)
      (combine set (match old with Some vs => vs | None => map (fun _ => VNull) set end)).

Definition keqb (a b : key) : bool := if list_eq_dec value_eq_dec a b then true else false.
Definition okeqb (a : option key) (k : key) : bool := match a with Some k' => keqb k' k | None => false end.
Definition old_row (t : table) (c : change) : option (list value) :=
  match ch_old c with Some o => t o | None => None end.

(* the effect of one change *)
Definition apply1 (c : change) (t : table) : table :=
  fun k => if okeqb (ch_new c) k then Some (new_vals (old_row t c) (ch_set c))
           else if okeqb (ch_old c) k then None
           else t k.
(* the changes of a stream applied one by one, in order *)
Definition apply_all (cs : list change) (t : table) : table := fold_left (fun t c => apply1 c t) cs t.

(* a change that a source database with this table can have produced: it updates or deletes a row that is there,
   and does not produce a key that is already taken *)
Definition valid1 (t : table) (c : change) : Prop :=
  (forall o, ch_old c = Some o -> t o <> None) /\
  (forall n, ch_new c = Some n -> t n = None \/ ch_old c = Some n).
Fixpoint valid_stream (t : table) (cs : list change) : Prop :=
  match cs with [] => True | c :: cs' => valid1 t c /\ valid_stream (apply1 c t) cs' end.

(* all changes of a set applied at once to [t]: every row named by an old key goes, every new key gets the values
   assigned over the old row, everything else stays *)
Definition at_once (cs : list change) (t t' : table) : Prop :=
  forall k,
    (forall c, In c cs -> ch_new c = Some k -> t' k = Some (new_vals (old_row t c) (ch_set c))) /\
    ((forall c, In c cs -> ch_new c <> Some k) -> (exists c, In c cs /\ ch_old c = Some k) -> t' k = None) /\
    ((forall c, In c cs -> ch_new c <> Some k /\ ch_old c <> Some k) -> t' k = t k).

(* at most one change per old key and per new key *)
Definition somes {A B} (f : A -> option B) (l : list A) : list B :=
  flat_map (fun x => match f x with Some b => [b] | None => [] end) l.
Definition one_per_row (cs : list change) : Prop :=
  NoDup (somes ch_old cs) /\ NoDup (somes ch_new cs).

(* a change without any key: it does nothing *)
Definition void (c : change) : Prop := ch_old c = None /\ ch_new c = None.
(* the rows of the table have [w] values each *)
Definition wide (w : nat) (t : table) : Prop := forall k vs, t k = Some vs -> length vs = w.

(* ---------- reading a sync row ---------- *)
Definition same_role (a b : role) : bool :=
  match a, b with OldPk, OldPk | NewPk, NewPk | Value, Value | Changed, Changed => true | _, _ => false end.
Definition null (v : value) : bool := match v with VNull => true | _ => false end.
(* only TRUE says that a column changed: neither FALSE nor NULL does *)
Definition yes (v : value) : bool := match v with VBool true => true | _ => false end.
(* the cell in the column with this role and name *)
Definition read (sch : list column) (r : list value) (ro : role) (n : nat) : option value :=
  option_map snd (find (fun p => Nat.eqb (c_name (fst p)) n && same_role (c_role (fst p)) ro) (combine sch r)).
Definition read_key (sch : list column) (r : list value) (ro : role) (pks : list nat) : list value :=
  map (fun n => match read sch r ro n with Some v => v | None => VNull end) pks.
(* no key: all key cells are NULL *)
Definition as_key (vs : list value) : option key := if forallb null vs then None else Some vs.
(* what the row assigns to a column: its Value cell, unless a Changed cell says it did not change *)
Definition assigned (sch : list column) (r : list value) (n : nat) : option value :=
  match read sch r Value n with
  | None => None
  | Some v => match read sch r Changed n with
              | None => Some v
              | Some f => if yes f then Some v else None
              end
  end.
Definition change_of (pks vals : list nat) (sch : list column) (r : list value) : change :=
  {| ch_old := as_key (read_key sch r OldPk pks);
     ch_new := as_key (read_key sch r NewPk pks);
     ch_set := map (assigned sch r) vals |}.

(* ---------- well-formed messages ---------- *)
(* a sync schema: no column twice, the same key columns in the same order on both sides, every Changed column
   belongs to a Value column, key columns are not Value columns *)
Definition good_schema (pks : list nat) (sch : list column) : Prop :=
  NoDup (map (fun c => (c_role c, c_name c)) sch) /\
  names_of sch OldPk = pks /\ names_of sch NewPk = pks /\ pks <> [] /\
  (forall n, In n (names_of sch Changed) -> In n (names_of sch Value)) /\
  (forall n, In n pks -> ~ In n (names_of sch Value)).
(* key cells are either all NULL or all given *)
Definition whole (vs : list value) : Prop := Forall (fun v => v = VNull) vs \/ Forall (fun v => v <> VNull) vs.
Definition good_row (pks : list nat) (sch : list column) (r : list value) : Prop :=
  length r = length sch /\ whole (read_key sch r OldPk pks) /\ whole (read_key sch r NewPk pks).
(* every row sets all its Changed flags alike (always so with at most one Changed column) *)
Definition flags_alike (sch : list column) (r : list value) : Prop :=
  forall n n' f f', read sch r Changed n = Some f -> read sch r Changed n' = Some f' -> yes f = yes f'.

(* ---------- the stored table ---------- *)
(* the cell of a table row *)
Definition tread (tcols : list nat) (r : list value) (n : nat) : value :=
  match find (fun p => Nat.eqb (fst p) n) (combine tcols r) with Some p => snd p | None => VNull end.
Definition row_key (tcols pks : list nat) (r : list value) : key := map (tread tcols r) pks.
Definition row_vals (tcols vals : list nat) (r : list value) : list value := map (tread tcols r) vals.
Definition table_of (tcols pks vals : list nat) (rows : list (list value)) : table :=
  fun k => option_map (row_vals tcols vals) (find (fun r => keqb (row_key tcols pks r) k) rows).
(* the stored rows have all columns, distinct keys and no NULL in a key *)
Definition good_table (tcols pks : list nat) (rows : list (list value)) : Prop :=
  NoDup (map (row_key tcols pks) rows) /\
  forall r, In r rows -> length r = length tcols /\ Forall (fun v => v <> VNull) (row_key tcols pks r).
(* the table columns are the key columns and the others *)
Definition good_columns (tcols pks vals : list nat) : Prop :=
  NoDup tcols /\ (forall n, In n tcols <-> In n pks \/ In n vals) /\ (forall n, In n pks -> ~ In n vals).

(* ---------- the history of a row ---------- *)
(* the changes that led to the row with key [k], oldest first; the list of changes is given latest first *)
Fixpoint history (latest_first : list change) (k : key) : list change :=
  match latest_first with
  | [] => []
  | c :: cs =>
      if okeqb (ch_new c) k then (match ch_old c with Some o => history cs o | None => [] end) ++ [c]
      else if okeqb (ch_old c) k then []
      else history cs k
  end.
(* the assignment of column number [i] in force after these changes: the last one made, if any *)
Fixpoint last_assigned (i : nat) (hs : list change) : option value :=
  match hs with
  | [] => None
  | c :: hs' => match last_assigned i hs' with Some v => Some v | None => nth i (ch_set c) None end
  end.

(* ---------- data files ---------- *)
(* the order of the values of a column: FALSE before TRUE, numbers, texts; NULL comes first (values of different types are not compared in practice) *)
Definition value_le (a b : value) : bool :=
  match a, b with
  | VBool x, VBool y => implb x y
  | VInt x, VInt y => Z.leb x y
  | VStr x, VStr y => match String.compare x y with Gt => false | _ => true end
  | VNull, _ | VBool _, (VInt _ | VStr _) | VInt _, VStr _ => true
  | _, _ => false
  end.
(* the recorded minima and maxima are bounds for the rows of their file (NULL: nothing recorded) *)
Definition stats_ok (tcols : list nat) (files : list (list (list value))) (st : fstats) : Prop :=
  forall n f rows r, nth_error files f = Some rows -> In r rows ->
    (forall ms, st_min st n = Some ms -> nth f ms VNull = VNull \/ value_le (nth f ms VNull) (tread tcols r n) = true) /\
    (forall ms, st_max st n = Some ms -> nth f ms VNull = VNull \/ value_le (tread tcols r n) (nth f ms VNull) = true).
(* the row satisfies all `col BETWEEN lo AND hi` *)
Definition in_box (tcols : list nat) (r : list value) (q : list (nat * (value * value))) : Prop :=
  forall n lo hi, In (n, (lo, hi)) q -> value_le lo (tread tcols r n) = true /\ value_le (tread tcols r n) hi = true.
(* what is assumed of DataFusion's PruningPredicate: one answer per file, and it does not discard a file with a row
   that satisfies one of the disjuncts *)
Definition pp_ok (tcols : list nat) (files : list (list (list value))) (pp : list (list (nat * (value * value))) -> list bool) : Prop :=
  forall qs, length (pp qs) = length files /\
    forall f rows r q, nth_error files f = Some rows -> In r rows -> In q qs -> in_box tcols r q -> nth f (pp qs) false = true.

(* ---------- pending items ---------- *)
(* the rows of a pending item (its batches in the order received) and the changes they describe *)
Definition item_rows (it : list column * list rbatch) : list (list value) := flat_map rb_rows (snd it).
Definition item_changes (pks vals : list nat) (it : list column * list rbatch) : list change :=
  map (change_of pks vals (fst it)) (item_rows it).
(* all batches have the columns of the schema, all rows are well formed *)
Definition good_item (pks : list nat) (it : list column * list rbatch) : Prop :=
  good_schema pks (fst it) /\ snd it <> [] /\
  (forall b, In b (snd it) -> rb_width b = length (fst it)) /\
  (forall r, In r (item_rows it) -> good_row pks (fst it) r).
(* all changes of the pending items, in the order received *)
Definition all_changes (pks vals : list nat) (items : list (list column * list rbatch)) : list change :=
  flat_map (item_changes pks vals) items.
(* the change assigns every column *)
Definition all_set (c : change) : Prop := Forall (fun o => o <> None) (ch_set c).
(* some pending change has this old or new key *)
Definition mentioned (pks : list nat) (items : list (list column * list rbatch)) (k : key) : Prop :=
  exists it r ro, In it items /\ In r (item_rows it) /\ (ro = OldPk \/ ro = NewPk) /\
                  as_key (read_key (fst it) r ro pks) = Some k.
(* some pending batch carries values for this column *)
Definition carried (items : list (list column * list rbatch)) (n : nat) : Prop :=
  exists it, In it items /\ In n (names_of (fst it) Value).
(* the table columns, stored rows, file statistics and pruning predicate of a target *)
Definition good_target (tcols pks vals : list nat) (files : list (list (list value))) (st : fstats)
           (pp : list (list (nat * (value * value))) -> list bool) : Prop :=
  good_columns tcols pks vals /\ good_table tcols pks (concat files) /\ pp_ok tcols files pp /\ stats_ok tcols files st.
(* the batches of the item carry values for all columns of the table, without change flags *)
Definition full_rows (vals : list nat) (it : list column * list rbatch) : Prop :=
  names_of (fst it) Changed = [] /\ forall n, In n vals -> In n (names_of (fst it) Value).
(* keys keep their place: an update has the same old and new key *)
Definition keeps_key (c : change) : Prop := forall o n, ch_old c = Some o -> ch_new c = Some n -> o = n.
(* the committed rows are well-formed and represent the table [t] *)
Definition holds (tcols pks vals : list nat) (rows : list (list value)) (t : table) : Prop :=
  good_table tcols pks rows /\ forall k, table_of tcols pks vals rows k = t k.
(* a key of one of the changes *)
Definition key_in (cs : list change) (k : key) : Prop := exists c, In c cs /\ (ch_old c = Some k \/ ch_new c = Some k).
(* every later item carries the columns that the earlier ones carry, without change flags *)
Fixpoint widening (items : list (list column * list rbatch)) : Prop :=
  match items with
  | [] => True
  | it :: rest =>
      (forall it', In it' rest -> names_of (fst it') Changed = [] /\
         forall n, In n (names_of (fst it) Value) -> In n (names_of (fst it') Value)) /\
      widening rest
  end.
(* key-preserving updates only, or keys that are told apart by the first key column *)
Definition keys_told (cs : list change) : Prop :=
  (forall c, In c cs -> keeps_key c) \/
  (forall k k', key_in cs k -> key_in cs k' -> hd VNull k = hd VNull k' -> k = k').
(* a change without all columns updates a row in place or inserts a row that the table does not have *)
Definition in_place (t0 : list value -> option (list value)) (c : change) : Prop :=
  forall n, ch_new c = Some n -> ch_old c = Some n \/ all_set c \/ (ch_old c = None /\ t0 n = None).
(* a change that leaves a row with all columns given, under the key it had if there was one *)
Definition upsert (c : change) : Prop := all_set c /\ ch_new c <> None /\ keeps_key c.
(* what is demanded of the columns *)
Definition usable (bool_type : nat) (sch : list column) : Prop :=
  (exists c, In c sch /\ c_role c = OldPk) /\
  (forall n t, (exists c, In c sch /\ c_role c = OldPk /\ c_name c = n /\ c_type c = t) <->
               (exists c, In c sch /\ c_role c = NewPk /\ c_name c = n /\ c_type c = t)) /\
  (forall c, In c sch -> c_role c = Changed ->
     c_type c = bool_type /\ exists d, In d sch /\ c_role d = Value /\ c_name d = c_name c).
