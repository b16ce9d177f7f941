(* The metadata catalog in SQL: the tables of migrations/sqlite (migrations/postgres), the queries of src/repository/default.rs, and the
   operations by name of src/catalog/repository.rs. Transactions of the database are atomic; every function below lists what it does
   outside of a transaction as separate steps. *)
From Coq Require Import String List Arith Bool Lia.
Import ListNotations.
Open Scope list_scope.

(* Rows. A uuid, a type and the details of a function are opaque. *)
Record db_row := { db_id : nat; db_name : string }.
Record coll_row := { co_id : nat; co_db : nat; co_name : string }.
Record tbl_row := { tb_id : nat; tb_coll : nat; tb_name : string; tb_uuid : nat }.
Record ver_row := { ve_id : nat; ve_tbl : nat; ve_time : nat; ve_version : nat }.
Record col_row := { cl_ver : nat; cl_name : string; cl_type : nat }.
Record fn_row := { fn_id : nat; fn_db : nat; fn_name : string; fn_details : nat }.
Record catalog := { dbs : list db_row; colls : list coll_row; tbls : list tbl_row; vers : list ver_row; cols : list col_row; fns : list fn_row }.
Definition empty : catalog := {| dbs := []; colls := []; tbls := []; vers := []; cols := []; fns := [] |}.
Definition set_dbs x c := {| dbs := x; colls := colls c; tbls := tbls c; vers := vers c; cols := cols c; fns := fns c |}.
Definition set_colls x c := {| dbs := dbs c; colls := x; tbls := tbls c; vers := vers c; cols := cols c; fns := fns c |}.
Definition set_tbls x c := {| dbs := dbs c; colls := colls c; tbls := x; vers := vers c; cols := cols c; fns := fns c |}.
Definition set_vers x c := {| dbs := dbs c; colls := colls c; tbls := tbls c; vers := x; cols := cols c; fns := fns c |}.
Definition set_cols x c := {| dbs := dbs c; colls := colls c; tbls := tbls c; vers := vers c; cols := x; fns := fns c |}.
Definition set_fns x c := {| dbs := dbs c; colls := colls c; tbls := tbls c; vers := vers c; cols := cols c; fns := x |}.

(* repository/interface.rs Error, catalog/mod.rs CatalogError *)
Inductive err := UniqueViolation | FkViolation | RowNotFound | StagingSchema | OtherError.
Inductive res (A : Type) := Ok (a : A) | Err (e : err).
Arguments Ok {A} a. Arguments Err {A} e.

(* INTEGER PRIMARY KEY in SQLite: one more than the largest id in use. (Postgres never uses an id twice; nothing below depends on the
   difference.) *)
Definition fresh (l : list nat) : nat := S (list_max l).
Definition has_id {A} (f : A -> nat) (i : nat) (l : list A) : bool := existsb (fun r => Nat.eqb (f r) i) l.

(* 1. Deletions with ON DELETE CASCADE (migrations/sqlite/20220728071524_create_tables.up.sql) *)
Definition keep_cols c := set_cols (filter (fun r => has_id ve_id (cl_ver r) (vers c)) (cols c)) c.
Definition keep_vers c := keep_cols (set_vers (filter (fun r => has_id tb_id (ve_tbl r) (tbls c)) (vers c)) c).
Definition keep_tbls c := keep_vers (set_tbls (filter (fun r => has_id co_id (tb_coll r) (colls c)) (tbls c)) c).
Definition keep_colls c := keep_tbls (set_fns (filter (fun r => has_id db_id (fn_db r) (dbs c)) (fns c))
                            (set_colls (filter (fun r => has_id db_id (co_db r) (dbs c)) (colls c)) c)).
(* default.rs:515-543 *)
Definition delete_table (i : nat) (c : catalog) : catalog * res unit :=
  if has_id tb_id i (tbls c) then (keep_vers (set_tbls (filter (fun r => negb (Nat.eqb (tb_id r) i)) (tbls c)) c), Ok tt) else (c, Err RowNotFound).
Definition delete_collection (i : nat) (c : catalog) : catalog * res unit :=
  if has_id co_id i (colls c) then (keep_tbls (set_colls (filter (fun r => negb (Nat.eqb (co_id r) i)) (colls c)) c), Ok tt) else (c, Err RowNotFound).
Definition delete_database (i : nat) (c : catalog) : catalog * res unit :=
  if has_id db_id i (dbs c) then (keep_colls (set_dbs (filter (fun r => negb (Nat.eqb (db_id r) i)) (dbs c)) c), Ok tt) else (c, Err RowNotFound).

(* 2. Lookups: default.rs:153-207. [fetch_one] takes the first row. *)
Definition get_database (d : string) (c : catalog) : res nat :=
  match find (fun r => String.eqb (db_name r) d) (dbs c) with Some r => Ok (db_id r) | None => Err RowNotFound end.
(* collection JOIN database *)
Definition in_db (d : string) (r : coll_row) (c : catalog) : bool :=
  existsb (fun b => Nat.eqb (db_id b) (co_db r) && String.eqb (db_name b) d) (dbs c).
Definition get_collection (d s : string) (c : catalog) : res nat :=
  match find (fun r => in_db d r c && String.eqb (co_name r) s) (colls c) with Some r => Ok (co_id r) | None => Err RowNotFound end.
(* "table" JOIN collection JOIN database *)
Definition in_coll (d s : string) (r : tbl_row) (c : catalog) : bool :=
  existsb (fun k => Nat.eqb (co_id k) (tb_coll r) && String.eqb (co_name k) s && in_db d k c) (colls c).
Definition get_table (d s t : string) (c : catalog) : res nat :=
  match find (fun r => in_coll d s r c && String.eqb (tb_name r) t) (tbls c) with Some r => Ok (tb_id r) | None => Err RowNotFound end.

(* 3. Creation *)
(* default.rs:139-151 *)
Definition create_database (d : string) (c : catalog) : catalog * res nat :=
  if existsb (fun r => String.eqb (db_name r) d) (dbs c) then (c, Err UniqueViolation)
  else let i := fresh (map db_id (dbs c)) in (set_dbs (dbs c ++ [{| db_id := i; db_name := d |}]) c, Ok i).
(* default.rs:209-226 *)
Definition create_collection (b : nat) (s : string) (c : catalog) : catalog * res nat :=
  if existsb (fun r => Nat.eqb (co_db r) b && String.eqb (co_name r) s) (colls c) then (c, Err UniqueViolation)
  else if negb (has_id db_id b (dbs c)) then (c, Err FkViolation)
  else let i := fresh (map co_id (colls c)) in (set_colls (colls c ++ [{| co_id := i; co_db := b; co_name := s |}]) c, Ok i).
(* default.rs:228-281 create_table, first the transaction: table and first version (with the version number 0 by default) ... *)
Definition create_table_tx (k : nat) (t : string) (uuid now : nat) (c : catalog) : catalog * res (nat * nat) :=
  if existsb (fun r => Nat.eqb (tb_coll r) k && String.eqb (tb_name r) t) (tbls c) then (c, Err UniqueViolation)
  else if negb (has_id co_id k (colls c)) then (c, Err FkViolation)
  else let i := fresh (map tb_id (tbls c)) in
       let v := fresh (map ve_id (vers c)) in
       (set_vers (vers c ++ [{| ve_id := v; ve_tbl := i; ve_time := now; ve_version := 0 |}])
          (set_tbls (tbls c ++ [{| tb_id := i; tb_coll := k; tb_name := t; tb_uuid := uuid |}]) c), Ok (i, v)).
(* ... then, by itself, the columns. UNIQUE(name, table_version_id); more than [bind_limit] columns cannot be bound. *)
Fixpoint nodup_names (l : list (string * nat)) : bool :=
  match l with [] => true | (n, _) :: l' => negb (existsb (fun x => String.eqb (fst x) n) l') && nodup_names l' end.
Definition insert_columns (bind_limit : nat) (v : nat) (fields : list (string * nat)) (c : catalog) : catalog * res unit :=
  if nodup_names fields && Nat.leb (List.length fields) bind_limit
  then (set_cols (cols c ++ map (fun f => {| cl_ver := v; cl_name := fst f; cl_type := snd f |}) fields) c, Ok tt)
  else (c, Err OtherError).
Definition create_table (bind_limit k : nat) (t : string) (fields : list (string * nat)) (uuid now : nat) (c : catalog) : catalog * res (nat * nat) :=
  match create_table_tx k t uuid now c with
  | (c1, Err e) => (c1, Err e)
  | (c1, Ok (i, v)) =>
      match insert_columns bind_limit v fields c1 with
      | (c2, Ok _) => (c2, Ok (i, v))
      | (c2, Err e) => (c2, Err e)
      end
  end.

(* 4. Versions *)
(* default.rs:299-339 create_new_version: the largest version id of the tables with this uuid, a transaction that adds the version ... *)
Definition last_version_id (uuid : nat) (c : catalog) : option nat :=
  match map ve_id (filter (fun v => existsb (fun r => Nat.eqb (tb_id r) (ve_tbl v) && Nat.eqb (tb_uuid r) uuid) (tbls c)) (vers c)) with
  | [] => None
  | l => Some (list_max l)
  end.
Definition new_version_tx (uuid version now : nat) (c : catalog) : catalog * res (nat * nat) :=
  match last_version_id uuid c with
  | None => (c, Err OtherError)                                    (* max() is NULL: the id cannot be decoded *)
  | Some l =>
      match find (fun v => Nat.eqb (ve_id v) l) (vers c) with
      | None => (c, Err RowNotFound)
      | Some v =>
          let n := fresh (map ve_id (vers c)) in
          (set_vers (vers c ++ [{| ve_id := n; ve_tbl := ve_tbl v; ve_time := now; ve_version := version |}]) c, Ok (l, n))
      end
  end.
(* ... and, by itself, the copy of the columns *)
Definition copy_columns (l n : nat) (c : catalog) : catalog :=
  set_cols (cols c ++ map (fun r => {| cl_ver := n; cl_name := cl_name r; cl_type := cl_type r |}) (filter (fun r => Nat.eqb (cl_ver r) l) (cols c))) c.
Definition create_new_version (uuid version now : nat) (c : catalog) : catalog * res nat :=
  match new_version_tx uuid version now c with
  | (c1, Ok (l, n)) => (copy_columns l n c1, Ok n)
  | (c1, Err e) => (c1, Err e)
  end.
(* default.rs:283-297: DELETE ... WHERE table_id = $1 AND id NOT IN (SELECT DISTINCT first_value(id) OVER (PARTITION BY table_id ORDER BY
   creation_time DESC, id DESC)); a version is the first of its partition if none of the same table comes before it *)
Definition before (a b : ver_row) : bool :=                         (* a strictly before b in that order *)
  Nat.ltb (ve_time b) (ve_time a) || (Nat.eqb (ve_time a) (ve_time b) && Nat.ltb (ve_id b) (ve_id a)).
Definition is_first (v : ver_row) (c : catalog) : bool :=
  negb (existsb (fun w => Nat.eqb (ve_tbl w) (ve_tbl v) && before w v) (vers c)).
Definition delete_old_versions (i : nat) (c : catalog) : catalog :=
  keep_cols (set_vers (filter (fun v => negb (Nat.eqb (ve_tbl v) i) || is_first v c) (vers c)) c).
(* the version of a table that list_collections joins with, sqlite.rs:44-49 *)
Definition is_latest_sqlite (v : ver_row) (c : catalog) : bool :=
  negb (existsb (fun w => Nat.eqb (ve_tbl w) (ve_tbl v) && Nat.ltb (ve_id v) (ve_id w)) (vers c)).
(* postgres.rs:33-38 *)
Definition is_latest_postgres (v : ver_row) (c : catalog) : bool := is_first v c.

(* 5. Rename: default.rs:387-405 *)
Definition rename_table (i : nat) (t : string) (new_coll : option nat) (c : catalog) : catalog * res unit :=
  match find (fun r => Nat.eqb (tb_id r) i) (tbls c) with
  | None => (c, Err RowNotFound)
  | Some r0 =>
      let k := match new_coll with Some k => k | None => tb_coll r0 end in
      if existsb (fun r => negb (Nat.eqb (tb_id r) i) && Nat.eqb (tb_coll r) k && String.eqb (tb_name r) t) (tbls c) then (c, Err UniqueViolation)
      else if negb (has_id co_id k (colls c)) then (c, Err FkViolation)
      else (set_tbls (map (fun r => if Nat.eqb (tb_id r) i
                                    then {| tb_id := i; tb_coll := k; tb_name := t; tb_uuid := tb_uuid r |} else r) (tbls c)) c, Ok tt)
  end.

(* 6. Functions: default.rs:407-451, 453-477, 480-509 *)
Definition create_function (b : nat) (f : string) (or_replace : bool) (details : nat) (c : catalog) : catalog * res unit :=
  if negb (has_id db_id b (dbs c)) then (c, Err FkViolation)
  else if existsb (fun r => Nat.eqb (fn_db r) b && String.eqb (fn_name r) f) (fns c) then
    if or_replace
    then (set_fns (map (fun r => if Nat.eqb (fn_db r) b && String.eqb (fn_name r) f
                                 then {| fn_id := fn_id r; fn_db := b; fn_name := f; fn_details := details |} else r) (fns c)) c, Ok tt)
    else (c, Err UniqueViolation)
  else (set_fns (fns c ++ [{| fn_id := fresh (map fn_id (fns c)); fn_db := b; fn_name := f; fn_details := details |}]) c, Ok tt).
Definition get_all_functions (b : nat) (c : catalog) : list (string * nat) :=
  map (fun r => (fn_name r, fn_details r)) (filter (fun r => Nat.eqb (fn_db r) b) (fns c)).
(* The placeholders of the IN list are all "$2": SQLite compares with the first name only, Postgres refuses more than one name. Without a
   name the SQL is "IN ()", which SQLite takes for an empty list. *)
Inductive backend := Sqlite | Postgres.
Definition drop_function (be : backend) (b : nat) (names : list string) (c : catalog) : catalog * res unit :=
  match be, names with
  | Postgres, ([] | _ :: _ :: _) => (c, Err OtherError)
  | _, [] => (c, Err RowNotFound)
  | _, n :: _ =>
      let hit r := Nat.eqb (fn_db r) b && String.eqb (fn_name r) n in
      if existsb hit (fns c) then (set_fns (filter (fun r => negb (hit r)) (fns c)) c, Ok tt) else (c, Err RowNotFound)
  end.

(* 7. The operations by name: src/catalog/repository.rs *)
Definition staging : string := "staging".
Definition bind {A B} (x : res A) (c : catalog) (k : A -> catalog * res B) : catalog * res B :=
  match x with Ok a => k a | Err e => (c, Err e) end.
Definition done {A} (x : catalog * res A) : catalog * bool := match x with (c, Ok _) => (c, true) | (c, Err _) => (c, false) end.
(* lines 145-164 SchemaStore::get refuses the staging schema *)
Definition schema_get (d s : string) (c : catalog) : res nat := if String.eqb s staging then Err StagingSchema else get_collection d s c.
Definition catalog_create d c := create_database d c.
Definition catalog_delete d c := bind (get_database d c) c (fun i => delete_database i c).
Definition schema_create d s c :=
  if String.eqb s staging then (c, Err StagingSchema) else bind (get_database d c) c (fun b => create_collection b s c).
Definition schema_delete d s c := bind (schema_get d s c) c (fun k => delete_collection k c).
Definition table_create lim d s t fields uuid now c := bind (schema_get d s c) c (fun k => create_table lim k t fields uuid now c).
(* the same, stopped by a crash between the transaction and the columns *)
Definition table_create_crash d s t uuid now c := bind (schema_get d s c) c (fun k => create_table_tx k t uuid now c).
Definition table_delete d s t c := bind (get_table d s t c) c (fun i => delete_table i c).
Definition table_delete_old_versions d s t c := bind (get_table d s t c) c (fun i => (delete_old_versions i c, Ok tt)).
(* lines 285-334: the assertion that the database stays the same is left to the caller (physical.rs:640-647) *)
Definition table_update d s t s' t' c :=
  bind (get_table d s t c) c (fun i =>
    if String.eqb s' s then rename_table i t' None c
    else bind (schema_get d s' c) c (fun k => rename_table i t' (Some k) c)).
Definition function_create d f or_replace details c := bind (get_database d c) c (fun b => create_function b f or_replace details c).
Definition function_delete be d if_exists names c :=
  bind (get_database d c) c (fun b =>
    match drop_function be b names c with
    | (c', Err RowNotFound) => if if_exists : bool then (c', Ok tt) else (c', Err RowNotFound)
    | x => x
    end).

(* 8. Histories, with crashes at the two places where an operation is not one transaction *)
Inductive cop :=
| CreateDb (d : string) | CreateSchema (d s : string)
| CreateTable (d s t : string) (fields : list (string * nat)) (uuid now : nat) | CreateTableCrash (d s t : string) (uuid now : nat)
| NewVersion (uuid version now : nat) | NewVersionCrash (uuid version now : nat)
| Rename (d s t s' t' : string) | DropTable (d s t : string) | DropSchema (d s : string) | DropDb (d : string)
| Vacuum (d s t : string)
| CreateFn (d f : string) (or_replace : bool) (details : nat) | DropFn (d : string) (if_exists : bool) (names : list string).
Definition cstep (lim : nat) (be : backend) (o : cop) (c : catalog) : catalog * bool :=
  match o with
  | CreateDb d => done (catalog_create d c)
  | CreateSchema d s => done (schema_create d s c)
  | CreateTable d s t fields u now => done (table_create lim d s t fields u now c)
  | CreateTableCrash d s t u now => (fst (table_create_crash d s t u now c), false)
  | NewVersion u v now => done (create_new_version u v now c)
  | NewVersionCrash u v now => (fst (new_version_tx u v now c), false)
  | Rename d s t s' t' => done (table_update d s t s' t' c)
  | DropTable d s t => done (table_delete d s t c)
  | DropSchema d s => done (schema_delete d s c)
  | DropDb d => done (catalog_delete d c)
  | Vacuum d s t => done (table_delete_old_versions d s t c)
  | CreateFn d f r x => done (function_create d f r x c)
  | DropFn d i ns => done (function_delete be d i ns c)
  end.
Definition crun (lim : nat) (be : backend) (os : list cop) : catalog := fold_left (fun c o => fst (cstep lim be o c)) os empty.

(* 9. Listing: default.rs:101-137 the rows of the query (the version and column columns left out: they only multiply the rows of a
   table), catalog/repository.rs:114-151 the grouping of consecutive rows. [table]: None for a schema without tables (LEFT JOIN). *)
Record list_row := { lr_coll : string; lr_table : option (string * nat) }.
Definition collection_rows (c : catalog) (k : coll_row) (mult : tbl_row -> nat) : list list_row :=
  match filter (fun r => Nat.eqb (tb_coll r) (co_id k)) (tbls c) with
  | [] => [{| lr_coll := co_name k; lr_table := None |}]
  | l => flat_map (fun r => repeat {| lr_coll := co_name k; lr_table := Some (tb_name r, tb_uuid r) |} (S (mult r))) l
  end.
Definition query_rows (d : string) (mult : tbl_row -> nat) (c : catalog) : list list_row :=
  flat_map (fun k => if in_db d k c then collection_rows c k mult else []) (colls c).
(* itertools chunk_by: runs of equal keys *)
Fixpoint chunk_by {A K} (eqb : K -> K -> bool) (key : A -> K) (l : list A) : list (K * list A) :=
  match l with
  | [] => []
  | x :: l' =>
      match chunk_by eqb key l' with
      | (k, g) :: rest => if eqb (key x) k then (k, x :: g) :: rest else (key x, [x]) :: (k, g) :: rest
      | [] => [(key x, [x])]
      end
  end.
Definition table_eqb (a b : option (string * nat)) : bool :=
  match a, b with
  | None, None => true
  | Some (n, u), Some (n', u') => String.eqb n n' && Nat.eqb u u'
  | _, _ => false
  end.
Definition schema_list (rows : list list_row) : list (string * list (string * nat)) :=
  map (fun kg => (fst kg, flat_map (fun tg => match fst tg with Some x => [x] | None => [] end)
                            (chunk_by table_eqb lr_table (snd kg))))
      (chunk_by String.eqb lr_coll rows).
