(* The upgrade of a catalog when a server starts: /repo/src/repository/default.rs (61-98: setup), /repo/migrations/sqlite/*.up.sql and
   /repo/migrations/postgres/*.up.sql, with Migrator::run of sqlx 0.7 (a dependency): it refuses a catalog with migrations that it does
   not know, and applies each missing migration in a transaction, in order.

   Simplifications: names, type texts and locations are numbers (location 0 is the UUID of zeroes); databases, schemas and functions,
   which no migration touches, are left out; checksums agree; a text is one of the forms below. *)
From Coq Require Import List Arith Bool ZArith.
Import ListNotations.

(* table_column.type: the JSON of a type (before 20220921), of a field as Arrow's integration tests write it (until 0.5.7), of a field as
   serde writes it, or something else *)
Inductive form := Bare (t : nat) | Old (name t : nat) (nullable : bool) | Canonical (name t : nat) (nullable : bool) | Junk.
Record column := { c_id : nat; c_version : nat; c_name : nat; c_type : form }.
Record table := { t_id : nat; t_schema : nat; t_name : nat; t_legacy : option bool; t_uuid : option nat }.   (* None: there is no such column yet *)
Record tversion := { v_id : nat; v_table : nat; v_number : option Z }.
Record catalog := {
  applied : list nat;               (* _sqlx_migrations *)
  columns : list column;
  tables : list table;
  versions : list tversion;
  partitions : option (list nat);   (* physical_partition, table_partition, physical_partition_column: where the rows of tables were *)
  dropped : option (list nat)       (* dropped_table *)
}.
Definition fresh : catalog := {| applied := []; columns := []; tables := []; versions := []; partitions := None; dropped := None |}.

(* 20220728071524_create_tables (SQLite), 20220705072248_create_tables (PostgreSQL) *)
Definition create_tables (c : catalog) : catalog :=
  {| applied := applied c; columns := columns c; tables := tables c; versions := versions c; partitions := Some []; dropped := dropped c |}.
(* 20220921081323_arrow_datatype_storage *)
Definition wrap (x : column) : column :=
  {| c_id := c_id x; c_version := c_version x; c_name := c_name x;
     c_type := match c_type x with Bare t => Old (c_name x) t true | _ => Junk end |}.
Definition arrow_datatype_storage (c : catalog) : catalog :=
  {| applied := applied c; columns := map wrap (columns c); tables := tables c; versions := versions c; partitions := partitions c; dropped := dropped c |}.
(* 20230221081928_delta_lake_integration, 20230221081920_delta_lake_integration *)
Definition delta_lake_integration (c : catalog) : catalog :=
  {| applied := applied c; columns := columns c;
     tables := map (fun x => {| t_id := t_id x; t_schema := t_schema x; t_name := t_name x; t_legacy := Some true; t_uuid := Some 0 |}) (tables c);
     versions := map (fun x => {| v_id := v_id x; v_table := v_table x; v_number := Some (-1)%Z |}) (versions c);
     partitions := partitions c; dropped := Some [] |}.
(* 20230505071716_remove_legacy_tables, 20230505071708_remove_legacy_tables *)
Definition remove_legacy_tables (c : catalog) : catalog :=
  {| applied := applied c; columns := columns c;
     tables := map (fun x => {| t_id := t_id x; t_schema := t_schema x; t_name := t_name x; t_legacy := None; t_uuid := t_uuid x |}) (tables c);
     versions := versions c; partitions := None; dropped := dropped c |}.
Definition migration (n : nat) : catalog -> catalog :=
  match n with 1 => create_tables | 2 => arrow_datatype_storage | 3 => delta_lake_integration | 4 => remove_legacy_tables | _ => fun c => c end.
Definition known_migrations : list nat := [1; 2; 3; 4].

Section Reader.
Variable known : nat -> bool.   (* the types that arrow_integration_test::field_from_json can read from a field without children *)

(* default.rs:79-83: field_from_json, serde_json::to_string; field_from_json asks for "name", "nullable" and "type", which neither the JSON of a type nor that of serde has *)
Definition convert (f : form) : option form :=
  match f with Old n t b => if known t then Some (Canonical n t b) else None | _ => None end.

Inductive action := Update (id : nat) (f : form) | Migrate (n : nat).
Definition act (c : catalog) (a : action) : catalog :=
  match a with
  | Update id f =>                (* default.rs:85-89 *)
      {| applied := applied c;
         columns := map (fun x => if Nat.eqb (c_id x) id then {| c_id := c_id x; c_version := c_version x; c_name := c_name x; c_type := f |} else x) (columns c);
         tables := tables c; versions := versions c; partitions := partitions c; dropped := dropped c |}
  | Migrate n =>
      let c' := migration n c in
      {| applied := applied c' ++ [n]; columns := columns c'; tables := tables c'; versions := versions c'; partitions := partitions c'; dropped := dropped c' |}
  end.
Definition mem (n : nat) (l : list nat) : bool := existsb (Nat.eqb n) l.
(* default.rs:94-97: Migrator::run, validate_applied_migrations; a refusal is a panic ("error running migrations") *)
Definition refused (c : catalog) : bool := negb (forallb (fun n => mem n known_migrations) (applied c)).
(* default.rs:61-98: what setup does: the rows are read once, and the migrations follow *)
Definition setup (c : catalog) : list action :=
  flat_map (fun x => match convert (c_type x) with Some f => [Update (c_id x) f] | None => [] end) (columns c) ++
  (if refused c then [] else map Migrate (filter (fun n => negb (mem n (applied c))) known_migrations)).
(* a start that is interrupted after k of these actions *)
Definition start (k : nat) (c : catalog) : catalog := fold_left act (firstn k (setup c)) c.
Definition complete_start (c : catalog) : catalog := start (length (setup c)) c.
Definition starts (ks : list nat) (c : catalog) : catalog := fold_left (fun c k => start k c) ks c.
End Reader.
