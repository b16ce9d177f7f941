(* Model of what a flush does to the rows: physical squashing, logical merging of the pending
   items, normalisation, application to the table and partition pruning.
   Source: /repo/src/sync/utils.rs, /repo/src/sync/planner.rs, /repo/src/sync/schema/*.rs.

   General simplifications:
   - cells are null, booleans, integers or strings (no floats, nested or temporal types);
   - column names and data types are [nat] identifiers (only compared for equality); arrow field
     names are assumed to be distinct within a batch, so that a column is identified by its position;
   - relational operators are evaluated on lists; DataFusion leaves the order of the rows open,
     the model fixes one, and the theorems talk about the set of rows only;
   - errors and panics are [None]. *)
From Coq Require Import String Ascii List Arith ZArith Bool.
Import ListNotations.

Inductive value := VNull | VBool (b : bool) | VInt (z : Z) | VStr (s : string).
Definition value_eq_dec (a b : value) : {a = b} + {a <> b}.
Proof. decide equality; [apply bool_dec|apply Z.eq_dec|apply string_dec]. Defined.
(* equality of cells, as decided by arrow-row and by the join keys *)
Definition veqb (a b : value) : bool := if value_eq_dec a b then true else false.
Definition is_null (v : value) : bool := match v with VNull => true | _ => false end.
(* IS TRUE, planner.rs:500; also BooleanArray::value in utils.rs:133, whose result for a null slot is
   taken to be false *)
Definition is_true (v : value) : bool := match v with VBool true => true | _ => false end.

(* clade ColumnRole (sync.proto) *)
Inductive role := OldPk | NewPk | Value | Changed.
Definition role_eqb (a b : role) : bool :=
  match a, b with OldPk, OldPk | NewPk, NewPk | Value, Value | Changed, Changed => true | _, _ => false end.

(* schema/mod.rs:216-221 SyncColumn *)
Record column := { c_role : role; c_name : nat; c_type : nat }.
(* schema/mod.rs:13-17 SyncSchema; the index map is recomputed by [find_col] *)
Notation sync_schema := (list column) (only parsing).
Notation row := (list value) (only parsing).
(* a RecordBatch: its number of columns and its rows *)
Record rbatch := { rb_width : nat; rb_rows : list row }.

Definition cell (i : nat) (r : row) : value := nth i r VNull.

(* schema/mod.rs:151-156 column(name, role): position of the column. Of several columns with the same
   role and name the last one is in the index (lines 104-108). *)
Fixpoint find_col_from (k : nat) (sch : sync_schema) (n : nat) (ro : role) : option nat :=
  match sch with
  | [] => None
  | c :: sch' =>
      match find_col_from (S k) sch' n ro with
      | Some i => Some i
      | None => if Nat.eqb (c_name c) n && role_eqb (c_role c) ro then Some k else None
      end
  end.
Definition find_col (sch : sync_schema) (n : nat) (ro : role) : option nat := find_col_from 0 sch n ro.

(* positions of the columns with a role, in schema order (utils.rs:62-83 `columns`) *)
Fixpoint cols_from (k : nat) (sch : sync_schema) (ro : role) : list nat :=
  match sch with
  | [] => []
  | c :: sch' => (if role_eqb (c_role c) ro then [k] else []) ++ cols_from (S k) sch' ro
  end.
Definition cols_of (sch : sync_schema) (ro : role) : list nat := cols_from 0 sch ro.
Definition names_of (sch : sync_schema) (ro : role) : list nat :=
  map c_name (filter (fun c => role_eqb (c_role c) ro) sch).

(* schema/mod.rs:20-116 try_new on the descriptors zipped with the schema fields. [roles] are the raw
   role numbers of the descriptors (None = not a role), [bool_type] the id of the boolean type.
   Simplified: only the outcome, not the error message. *)
Definition pk_set_eq (a b : list (nat * nat)) : bool :=
  forallb (fun p => existsb (fun q => Nat.eqb (fst p) (fst q) && Nat.eqb (snd p) (snd q)) b) a &&
  forallb (fun p => existsb (fun q => Nat.eqb (fst p) (fst q) && Nat.eqb (snd p) (snd q)) a) b.
Definition typed_names (sch : sync_schema) (ro : role) : list (nat * nat) :=
  map (fun c => (c_name c, c_type c)) (filter (fun c => role_eqb (c_role c) ro) sch).
Fixpoint parse_cols (descs : list (option role * nat)) (fields : list nat) : option sync_schema :=
  match descs, fields with
  | [], [] => Some []
  | (Some ro, n) :: ds, t :: fs =>
      match parse_cols ds fs with
      | Some cs => Some ({| c_role := ro; c_name := n; c_type := t |} :: cs)
      | None => None
      end
  | _, _ => None
  end.
Definition try_new (bool_type : nat) (descs : list (option role * nat)) (fields : list nat) (validate_pks : bool)
  : option sync_schema :=
  if negb (Nat.eqb (length descs) (length fields)) then None                     (* lines 25-29 *)
  else
    match parse_cols descs fields with
    | None => None                                                               (* lines 63-67 *)
    | Some sch =>
        if negb (forallb (fun c => match c_role c with
                                   | Changed => Nat.eqb (c_type c) bool_type &&
                                                existsb (fun d => role_eqb (c_role d) Value && Nat.eqb (c_name d) (c_name c)) sch
                                   | _ => true end) sch) then None               (* lines 45-61 *)
        else if validate_pks &&
                (match typed_names sch OldPk, typed_names sch NewPk with
                 | [], _ | _, [] => true                                         (* lines 72-78 *)
                 | o, n => negb (pk_set_eq o n) end) then None                   (* lines 80-86 *)
        else Some sch
    end.

(* schema/mod.rs:183-192 is_compatible_with: stops at the shorter schema *)
Definition compatible (a b : sync_schema) : bool :=
  forallb (fun p => Nat.eqb (c_name (fst p)) (c_name (snd p)) && role_eqb (c_role (fst p)) (c_role (snd p)) &&
                    Nat.eqb (c_type (fst p)) (c_type (snd p))) (combine a b).

(* ---------- physical squashing: utils.rs:33-249 ---------- *)
(* utils.rs:57 concat_batches with the schema of the first batch: further columns of later batches are
   not looked at, missing ones panic *)
Fixpoint concat_batches (width : nat) (data : list rbatch) : option (list row) :=
  match data with
  | [] => Some []
  | b :: data' =>
      if Nat.ltb (rb_width b) width then None
      else match concat_batches width data' with
           | Some rs => Some (map (firstn width) (rb_rows b) ++ rs)
           | None => None
           end
  end.

(* the values of a set of columns of one row (arrow-row Row) *)
Definition tuple (idx : list nat) (r : row) : list value := map (fun i => cell i r) idx.
Definition teqb (a b : list value) : bool := if list_eq_dec value_eq_dec a b then true else false.
Definition nulls (idx : list nat) : list value := map (fun _ => VNull) idx.

(* HashMap<Row, usize> *)
Fixpoint pk_get (k : list value) (m : list (list value * nat)) : option nat :=
  match m with [] => None | (k', v) :: m' => if teqb k k' then Some v else pk_get k m' end.
Definition pk_del (k : list value) (m : list (list value * nat)) : list (list value * nat) :=
  filter (fun p => negb (teqb k (fst p))) m.
Definition pk_put (k : list value) (v : nat) (m : list (list value * nat)) := (k, v) :: pk_del k m.

Fixpoint set_nth {A} (i : nat) (x : A) (l : list A) : list A :=
  match i, l with
  | _, [] => []
  | O, _ :: l' => x :: l'
  | S i', y :: l' => y :: set_nth i' x l'
  end.

(* one entry of column_rows, utils.rs:117-118: row ids of the old PK, the new PK, the Changed columns *)
Record chain := { h_old : nat; h_new : nat; h_chg : list nat }.
Record sq_state := { q_chains : list chain; q_pk : list (list value * nat); q_temp : list nat }.

(* utils.rs:122-164, one iteration *)
Definition squash_step (sch : sync_schema) (rows : list row) (st : sq_state) (row_id : nat) : sq_state :=
  let r := nth row_id rows [] in
  let oldc := cols_of sch OldPk in
  let newc := cols_of sch NewPk in
  let chgc := cols_of sch Changed in
  let old_pk := tuple oldc r in
  let new_pk := tuple newc r in
  match pk_get old_pk (q_pk st) with
  | Some id =>
      let pk := pk_del old_pk (q_pk st) in
      let h := nth id (q_chains st) {| h_old := 0; h_new := 0; h_chg := [] |} in
      let h' := {| h_old := h_old h; h_new := row_id;
                   h_chg := map (fun p => if is_true (cell (snd p) r) then row_id else fst p)
                                (combine (h_chg h) chgc) |} in
      let chains := set_nth id h' (q_chains st) in
      if negb (teqb new_pk (nulls oldc)) then
        {| q_chains := chains; q_pk := pk_put new_pk id pk; q_temp := q_temp st |}
      else if teqb (tuple oldc (nth (h_old h) rows [])) (nulls oldc) then
        {| q_chains := chains; q_pk := pk; q_temp := id :: q_temp st |}
      else {| q_chains := chains; q_pk := pk; q_temp := q_temp st |}
  | None =>
      {| q_chains := q_chains st ++ [{| h_old := row_id; h_new := row_id; h_chg := map (fun _ => row_id) chgc |}];
         q_pk := if negb (teqb new_pk (nulls oldc)) then pk_put new_pk (length (q_chains st)) (q_pk st)
                 else q_pk st;
         q_temp := q_temp st |}
  end.

Definition squash_loop (sch : sync_schema) (rows : list row) (ids : list nat) : sq_state :=
  fold_left (squash_step sch rows) ids {| q_chains := []; q_pk := []; q_temp := [] |}.

(* utils.rs:173-187: the chains that are output *)
Definition live_chains (st : sq_state) : list chain :=
  map snd (filter (fun p => negb (existsb (Nat.eqb (fst p)) (q_temp st)))
                  (combine (seq 0 (length (q_chains st))) (q_chains st))).

(* utils.rs:198-231: the row id from which a column of the output row is taken. All Changed columns and their
   Value columns use [changed_indices[0]], i.e. the first Changed column's row id. *)
Definition flagged (sch : sync_schema) (i : nat) : bool :=
  existsb (fun c => role_eqb (c_role c) Changed &&
                    match find_col sch (c_name c) Value with Some j => Nat.eqb i j | None => false end) sch.
Definition source_row (sch : sync_schema) (h : chain) (ic : nat * column) : nat :=
  match c_role (snd ic) with
  | OldPk => h_old h
  | NewPk => h_new h
  | Changed => hd 0 (h_chg h)
  | Value => if flagged sch (fst ic) then hd 0 (h_chg h) else h_new h
  end.
Definition with_idx {A} (l : list A) : list (nat * A) := combine (seq 0 (length l)) l.
Definition out_row (sch : sync_schema) (rows : list row) (h : chain) : row :=
  map (fun ic => cell (fst ic) (nth (source_row sch h ic) rows [])) (with_idx sch).

Definition has_changed (sch : sync_schema) : bool := existsb (fun c => role_eqb (c_role c) Changed) sch.

(* the part of squash_batches after concatenation; None = the panics of lines 207-210 (no output row
   although there is a Changed column) and 213-220 (no Value column for a Changed column) *)
Definition squash_rows (sch : sync_schema) (rows : list row) : option (list row) :=
  let live := live_chains (squash_loop sch rows (seq 0 (length rows))) in
  if has_changed sch && match live with [] => true | _ => false end then None
  else if negb (forallb (fun c => negb (role_eqb (c_role c) Changed) ||
                                  match find_col sch (c_name c) Value with Some _ => true | None => false end) sch)
  then None
  else Some (map (out_row sch rows) live).

(* utils.rs:33-249 squash_batches. Line 56 (with_fields) demands as many columns as the schema has. *)
Definition squash_batches (sch : sync_schema) (data : list rbatch) : option (list row) :=
  match data with
  | [] => None
  | b :: _ =>
      if negb (Nat.eqb (rb_width b) (length sch)) then None
      else match concat_batches (length sch) data with
           | None => None
           | Some rows => squash_rows sch rows
           end
  end.

(* ---------- logical merging: planner.rs:128-286, schema/{merge,join,union}.rs ---------- *)
(* a projected column of the merged sync: descriptor and value as a function of the two sides of
   the joined row; None = the side is missing, i.e. its LOWER_REL/UPPER_REL flag is NULL *)
Notation proj := (column * (option row -> option row -> value))%type (only parsing).
Definition ocell (i : option nat) (r : option row) : value :=
  match i, r with Some i, Some r => cell i r | _, _ => VNull end.
Definition missing {A} (r : option A) : bool := match r with None => true | _ => false end.
Definition has_col (sch : sync_schema) (n : nat) (ro : role) : bool :=
  match find_col sch n ro with Some _ => true | None => false end.
Inductive position := Lower | Upper.

(* join.rs:10-37 join_old_pk_column *)
Definition join_old_pk (i : nat) (n : nat) (upper : sync_schema) (l u : option row) : value :=
  if missing u then ocell (Some i) l
  else if missing l then ocell (find_col upper n OldPk) u
  else ocell (Some i) l.
(* join.rs:39-59 join_new_pk_column *)
Definition join_new_pk (i : nat) (n : nat) (upper : sync_schema) (l u : option row) : value :=
  if missing u then ocell (Some i) l else ocell (find_col upper n NewPk) u.
(* join.rs:61-122 join_changed_column; [i] is the position in this sync, [other] the other schema *)
Definition join_changed (pos : position) (i : nat) (n : nat) (other : sync_schema) (l u : option row) : value :=
  let this_row := match pos with Lower => l | Upper => u end in
  let other_row := match pos with Lower => u | Upper => l end in
  if missing other_row then ocell (Some i) this_row
  else if has_col other n Changed then
    match pos with Lower => ocell (find_col other n Changed) u | Upper => ocell (Some i) u end
  else if has_col other n Value then
    match pos with Lower => VBool true | Upper => if missing u then VBool true else ocell (Some i) u end
  else
    match pos with Lower => VBool false | Upper => if missing u then VBool false else ocell (Some i) u end.
(* join.rs:124-206 join_value_column: the value expression *)
Definition join_value (pos : position) (i : nat) (n : nat) (other : sync_schema) (l u : option row) : value :=
  let this_row := match pos with Lower => l | Upper => u end in
  let other_row := match pos with Lower => u | Upper => l end in
  if missing other_row then ocell (Some i) this_row
  else if has_col other n Value then
    match pos with
    | Lower => ocell (find_col other n Value) u
    | Upper => if missing u then ocell (Some i) u else ocell (find_col other n Value) l
    end
  else
    match pos with
    | Lower => if missing u then VNull else ocell (Some i) l
    | Upper => ocell (Some i) u
    end.
(* join.rs:137-154: the extra Changed column in front of a Value column *)
Definition join_extra (pos : position) (l u : option row) : value :=
  VBool (negb (missing (match pos with Lower => l | Upper => u end))).
Definition needs_extra (n : nat) (this other : sync_schema) : bool :=
  negb (has_col other n Value) && negb (has_col this n Changed).
Definition changed_col (bool_type n : nat) : column := {| c_role := Changed; c_name := n; c_type := bool_type |}.

Definition desc_eqb (a b : column) : bool := Nat.eqb (c_name a) (c_name b) && role_eqb (c_role a) (c_role b).

(* merge.rs:57-207 merge_schemas, join case. The IndexSet of descriptors and the projection list
   are kept in one list; they stay aligned as long as no descriptor is inserted twice. *)
Definition join_lower_cols (bt : nat) (lower upper : sync_schema) : list proj :=
  flat_map (fun ic : nat * column =>
    let i := fst ic in let c := snd ic in
    match c_role c with
    | OldPk => [(c, join_old_pk i (c_name c) upper)]
    | NewPk => [(c, join_new_pk i (c_name c) upper)]
    | Changed => [(c, join_changed Lower i (c_name c) upper)]
    | Value => (if needs_extra (c_name c) lower upper then [(changed_col bt (c_name c), join_extra Lower)] else [])
               ++ [(c, join_value Lower i (c_name c) upper)]
    end) (with_idx lower).
Definition join_upper_cols (bt : nat) (lower upper : sync_schema) : list proj :=
  let seen := map fst (join_lower_cols bt lower upper) in
  flat_map (fun ic : nat * column =>
    let i := fst ic in let c := snd ic in
    if existsb (desc_eqb c) seen then []
    else
      match c_role c with
      | Changed => [(c, join_changed Upper i (c_name c) lower)]
      | Value => (if needs_extra (c_name c) upper lower then [(changed_col bt (c_name c), join_extra Upper)] else [])
                 ++ [(c, join_value Upper i (c_name c) lower)]
      | _ => []
      end) (with_idx upper).
Definition merge_join_cols (bt : nat) (lower upper : sync_schema) : list proj :=
  join_lower_cols bt lower upper ++ join_upper_cols bt lower upper.

(* a full outer join: matched pairs, unmatched right rows, unmatched left rows *)
Definition full_join {A B} (m : A -> B -> bool) (ls : list A) (us : list B) : list (option A * option B) :=
  flat_map (fun u => map (fun l => (Some l, Some u)) (filter (fun l => m l u) ls)) us ++
  map (fun u => (None, Some u)) (filter (fun u => negb (existsb (fun l => m l u) ls)) us) ++
  map (fun l => (Some l, None)) (filter (fun l => negb (existsb (m l) us)) ls).

(* equality of two join keys: NULLs do not match *)
Definition keq (a b : value) : bool := negb (is_null a) && veqb a b.
(* planner.rs:239-250: upper.OldPk = lower.NewPk, column by column *)
Definition sync_match (lower upper : sync_schema) (l u : row) : bool :=
  forallb (fun n => keq (ocell (find_col lower n NewPk) (Some l)) (ocell (find_col upper n OldPk) (Some u)))
          (names_of upper OldPk).

(* planner.rs:227-286 join_syncs *)
Definition join_syncs (bt : nat) (lower upper : sync_schema) (ls us : list row) : sync_schema * list row :=
  let cols := merge_join_cols bt lower upper in
  (map fst cols,
   map (fun lu => map (fun p => snd p (fst lu) (snd lu)) cols) (full_join (sync_match lower upper) ls us)).

(* union.rs:9-123 on one side: the value of a merged column for a lower (resp. upper) row *)
Definition uproj := (column * (row -> value) * (row -> value))%type.
Definition union_lower_cols (bt : nat) (lower upper : sync_schema) : list uproj :=
  flat_map (fun ic : nat * column =>
    let i := fst ic in let c := snd ic in let n := c_name c in
    match c_role c with
    | OldPk | NewPk => [(c, cell i, fun u => ocell (find_col upper n (c_role c)) (Some u))]
    | Changed =>
        [(c, cell i, if has_col upper n Changed then fun u => ocell (find_col upper n Changed) (Some u)
                     else if has_col upper n Value then fun _ => VBool true else fun _ => VBool false)]
    | Value =>
        (if needs_extra n lower upper
         then [(changed_col bt n, (fun _ => VBool true), (fun _ => VBool false))] else []) ++
        [(c, cell i, if has_col upper n Value then fun u => ocell (find_col upper n Value) (Some u)
                     else fun _ => VNull)]
    end) (with_idx lower).
Definition union_upper_cols (bt : nat) (lower upper : sync_schema) : list uproj :=
  let seen := map (fun p => fst (fst p)) (union_lower_cols bt lower upper) in
  flat_map (fun ic : nat * column =>
    let i := fst ic in let c := snd ic in let n := c_name c in
    if existsb (desc_eqb c) seen then []
    else
      match c_role c with
      | Changed => [(c, (if has_col lower n Value then fun _ => VBool true else fun _ => VBool false), cell i)]
      | Value =>
          (if needs_extra n upper lower
           then [(changed_col bt n, (fun _ => VBool false), (fun _ => VBool true))] else []) ++
          [(c, (fun _ => VNull), cell i)]
      | _ => []
      end) (with_idx upper).
(* planner.rs:201-223 union_syncs *)
Definition union_syncs (bt : nat) (lower upper : sync_schema) (ls us : list row) : sync_schema * list row :=
  let cols := union_lower_cols bt lower upper ++ union_upper_cols bt lower upper in
  (map (fun p => fst (fst p)) cols,
   map (fun l => map (fun p => snd (fst p) l) cols) ls ++ map (fun u => map (fun p => snd p u) cols) us).

(* planner.rs:162-197 merge_syncs *)
Definition append_only (upper : sync_schema) (us : list row) : bool :=
  match cols_of upper OldPk with
  | [] => false                                                    (* the expect of line 180 *)
  | i :: _ => forallb (fun u => is_null (cell i u)) us
  end.
Definition merge_syncs (bt : nat) (lower upper : sync_schema) (ls us : list row) : sync_schema * list row :=
  if append_only upper us then union_syncs bt lower upper ls us else join_syncs bt lower upper ls us.

(* planner.rs:130-160 squash_syncs on the squashed items *)
Definition squash_syncs (bt : nat) (items : list (sync_schema * list row)) : option (sync_schema * list row) :=
  match items with
  | [] => None
  | (sch, rows) :: rest =>
      Some (fold_left (fun acc it => merge_syncs bt (fst acc) (fst it) (snd acc) (snd it)) rest (sch, rows))
  end.

(* ---------- normalisation: planner.rs:291-421 ---------- *)
(* a normalised row: the primary key, the row it came from (for its Changed and Value cells) and the
   upsert flag *)
Record nrow := { n_pk : list value; n_src : row; n_upsert : bool }.
Definition normalize_row (sch : sync_schema) (r : row) : list nrow :=
  let names := names_of sch OldPk in
  let old := tuple (cols_of sch OldPk) r in
  let new := map (fun n => ocell (find_col sch n NewPk) (Some r)) names in
  let o := hd VNull old in
  let n := hd VNull new in
  if is_null o && is_null n then []                                                (* line 316 *)
  else if is_null o && negb (is_null n) then [{| n_pk := new; n_src := r; n_upsert := true |}]
  else if negb (is_null o) && negb (is_null n) && veqb o n
  then [{| n_pk := new; n_src := r; n_upsert := true |}]
  else if negb (is_null o) && negb (is_null n) && negb (veqb o n)
  then [{| n_pk := old; n_src := r; n_upsert := false |}; {| n_pk := new; n_src := r; n_upsert := true |}]
  else [{| n_pk := old; n_src := r; n_upsert := false |}].
Definition normalize (sch : sync_schema) (rows : list row) : list nrow := flat_map (normalize_row sch) rows.

(* ---------- application: planner.rs:449-548 ---------- *)
(* the table: the names of its columns; a row lists their values *)
Definition pos_of (n : nat) (l : list nat) : option nat :=
  option_map fst (find (fun p => Nat.eqb n (snd p)) (with_idx l)).
Definition tcell (tcols : list nat) (n : nat) (r : option row) : value := ocell (pos_of n tcols) r.
(* lines 458-482: full join of the table with the normalised sync on the primary key *)
Definition base_match (tcols : list nat) (names : list nat) (b : row) (s : nrow) : bool :=
  forallb (fun p => keq (tcell tcols (fst p) (Some b)) (snd p)) (combine names (n_pk s)).
(* lines 486-543: the value of one column of the new table row *)
Definition apply_cell (tcols : list nat) (sch : sync_schema) (names : list nat) (b : option row) (s : option nrow) (c : nat)
  : value :=
  let sync_val :=
    match find_col sch c Value with
    | Some i => Some (fun s => cell i (n_src s))
    | None => match pos_of c names with
              | Some i => Some (fun s => nth i (n_pk s) VNull)
              | None => None
              end
    end in
  match sync_val with
  | Some f =>
      match s with
      | None => tcell tcols c b
      | Some s =>
          match find_col sch c Changed with
          | Some j => if is_true (cell j (n_src s)) then f s else tcell tcols c b
          | None => f s
          end
      end
  | None => if missing b then VNull else tcell tcols c b
  end.
Definition not_false (s : option nrow) : bool := match s with Some s => n_upsert s | None => true end.
Definition apply_syncs (tcols : list nat) (sch : sync_schema) (base : list row) (sync : list nrow) : list row :=
  let names := names_of sch OldPk in
  map (fun bs => map (apply_cell tcols sch names (fst bs) (snd bs)) tcols)
      (filter (fun bs => not_false (snd bs)) (full_join (base_match tcols names) base sync)).

(* ---------- pruning: utils.rs:254-457, planner.rs:552-628 ---------- *)
(* order of cells. A column has one type, so only the cases with equal constructors matter; the other
   cases make the order total. *)
Definition vrank (v : value) : nat := match v with VNull => 0 | VBool _ => 1 | VInt _ => 2 | VStr _ => 3 end.
Definition vle (a b : value) : bool :=
  match a, b with
  | VBool x, VBool y => implb x y
  | VInt x, VInt y => Z.leb x y
  | VStr x, VStr y => match String.compare x y with Gt => false | _ => true end
  | _, _ => Nat.leb (vrank a) (vrank b)
  end.

(* utils.rs:254-317. MinAccumulator/MaxAccumulator skip NULLs; an accumulator without a value is NULL. *)
Definition acc_min (a v : value) : value := if is_null v then a else if is_null a then v else if vle a v then a else v.
Definition acc_max (a v : value) : value := if is_null v then a else if is_null a then v else if vle a v then v else a.
(* a conjunction of `col BETWEEN lo AND hi` *)
Notation conjunction := (list (nat * (value * value))) (only parsing).
Definition pk_cells (items : list (sync_schema * list row)) (ro : role) (n : nat) : list value :=
  flat_map (fun it => map (fun r => ocell (find_col (fst it) n ro) (Some r)) (snd it)) items.
Definition construct_qualifier (items : list (sync_schema * list row)) (ro : role) : option conjunction :=
  match items with
  | [] => None                                                      (* the expect of line 263 *)
  | (sch, _) :: _ =>
      let between := flat_map (fun n =>
            let lo := fold_left acc_min (pk_cells items ro n) VNull in
            let hi := fold_left acc_max (pk_cells items ro n) VNull in
            if is_null lo || is_null hi then [] else [(n, (lo, hi))]) (names_of sch ro) in
      match between with [] => None | _ => Some between end
  end.

(* PruningStatistics of the snapshot: per column the minima and maxima of all files (None = no file has
   them, a NULL entry = this file has none); number of records in a file's statistics *)
Record fstats := { st_min : nat -> option (list value); st_max : nat -> option (list value); st_rows : list (option Z) }.

(* arrow's comparison kernels and and_kleene; None = NULL *)
Definition cmp_le (a b : value) : option bool := if is_null a || is_null b then None else Some (vle a b).
Definition and_kleene (a b : option bool) : option bool :=
  match a, b with
  | Some false, _ | _, Some false => Some false
  | Some true, Some true => Some true
  | _, _ => None
  end.
(* utils.rs:416-428: may this key cell be in file [f]? *)
Definition col_test (st : fstats) (f : nat) (n : nat) (v : value) : option bool :=
  match st_min st n, st_max st n with
  | Some mins, Some maxs => and_kleene (cmp_le (nth f mins VNull) v) (cmp_le v (nth f maxs VNull))
  | Some mins, None => cmp_le (nth f mins VNull) v
  | None, Some maxs => cmp_le v (nth f maxs VNull)
  | None, None => None                                              (* unreachable!, line 427 *)
  end.
(* utils.rs:383-450 for one role, sync and file. The rows are those whose first key cell is not NULL. *)
Definition may_hit (st : fstats) (f : nat) (it : sync_schema * list row) (ro : role) : bool :=
  match cols_of (fst it) ro with
  | [] => false
  | c0 :: _ =>
      existsb (fun r => match fold_left and_kleene
                                (map (fun ic => col_test st f (c_name (snd ic)) (cell (fst ic) r))
                                     (filter (fun ic => role_eqb (c_role (snd ic)) ro) (with_idx (fst it)))) (Some true) with
                        | Some false => false | _ => true end)
              (filter (fun r => negb (is_null (cell c0 r))) (snd it))
  end.
(* utils.rs:321-457 get_prune_map. The loops stop testing a file once it is used; here: existsb. *)
Definition get_prune_map (items : list (sync_schema * list row)) (st : fstats) (nfiles : nat) : list bool :=
  match items with
  | [] => []
  | (sch, _) :: _ =>
      if existsb (fun n => match st_min st n, st_max st n with None, None => true | _, _ => false end) (names_of sch OldPk)
      then repeat true nfiles                                       (* lines 347-355 *)
      else map (fun f => existsb (fun ro => existsb (fun it => may_hit st f it ro) items) [OldPk; NewPk]) (seq 0 nfiles)
  end.

(* planner.rs:36 FINE_GRAINED_PRUNING_ROW_CRITERIA *)
Definition fine_grained_rows : Z := 3000000%Z.
(* planner.rs:552-628 prune_partitions. [pp] is DataFusion's PruningPredicate on a disjunction of
   conjunctions: for each file whether it must be kept. None = the panic of line 572. *)
Definition prune_partitions (pp : list conjunction -> list bool) (items : list (sync_schema * list row)) (st : fstats)
           (nfiles : nat) : option (list bool) :=
  let coarse :=
    match construct_qualifier items OldPk, construct_qualifier items NewPk with
    | Some o, Some n => Some (pp [o; n])
    | Some o, None => Some (pp [o])
    | None, Some n => Some (pp [n])
    | None, None => None
    end in
  match coarse with
  | None => None
  | Some m =>
      let total := fold_left Z.add (map (fun p : option Z * bool => match p with (Some n, true) => n | _ => 0%Z end)
                                        (combine (st_rows st) m)) 0%Z in
      Some (if Z.ltb fine_grained_rows total then get_prune_map items st nfiles else m)
  end.

(* ---------- the whole flush: planner.rs:53-117, writer.rs:450-490 ---------- *)
(* [files] is the table, one list of rows per file; [keep] the outcome of pruning (which files are
   rewritten). Result: the files that stay, and the rows of the new files. *)
Definition select {A} (keep : list bool) (files : list A) : list A :=
  map snd (filter (fun p => fst p) (combine keep files)).
Definition plan_delta_syncs (bt : nat) (pp : list conjunction -> list bool) (st : fstats) (tcols : list nat)
           (files : list (list row)) (items : list (sync_schema * list row)) : option (list (list row) * list row) :=
  match prune_partitions pp items st (length files) with
  | None => None
  | Some keep =>
      match squash_syncs bt items with
      | None => None
      | Some (sch, rows) =>
          Some (select (map negb keep) files,
                apply_syncs tcols sch (concat (select keep files)) (normalize sch rows))
      end
  end.
(* writer.rs:396-476: squash every pending item, plan, commit *)
Fixpoint squash_all (items : list (sync_schema * list rbatch)) : option (list (sync_schema * list row)) :=
  match items with
  | [] => Some []
  | (sch, data) :: rest =>
      match squash_batches sch data, squash_all rest with
      | Some rows, Some rest' => Some ((sch, rows) :: rest')
      | _, _ => None
      end
  end.
Definition flush_rows (bt : nat) (pp : list conjunction -> list bool) (st : fstats) (tcols : list nat)
           (files : list (list row)) (items : list (sync_schema * list rbatch)) : option (list row) :=
  match squash_all items with
  | None => None
  | Some its =>
      match plan_delta_syncs bt pp st tcols files its with
      | None => None
      | Some (old, new) => Some (concat old ++ new)
      end
  end.
