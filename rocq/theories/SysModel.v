(* The system tables (src/system_tables.rs) and the queries behind them (src/repository/default.rs get_all_versions, get_dropped_tables),
   over the catalog of CatalogModel.v. See SysSpec.v for what the properties mean and SysProps.v for the theorems. *)
From Coq Require Import String List Arith Bool.
From Verif Require Import CatalogModel.
Import ListNotations.
Open Scope list_scope.

(* system_tables.rs 146-157: the columns of system.table_versions *)
Record tv_row := { tv_schema : string; tv_table : string; tv_id : nat; tv_version : nat; tv_time : nat }.
(* default.rs 341-385: table_version JOIN "table" JOIN collection JOIN database WHERE database.name = $1 [AND "table".name IN (...)]; no names
   at all and an empty list of names both mean every table *)
Definition wanted (names : option (list string)) (t : string) : bool :=
  match names with None | Some [] => true | Some l => existsb (String.eqb t) l end.
Definition get_all_versions (d : string) (names : option (list string)) (c : catalog) : list tv_row :=
  flat_map (fun v =>
    flat_map (fun t => if Nat.eqb (tb_id t) (ve_tbl v) then
      flat_map (fun k => if Nat.eqb (co_id k) (tb_coll t) then
        flat_map (fun b => if Nat.eqb (db_id b) (co_db k) && String.eqb (db_name b) d && wanted names (tb_name t)
          then [{| tv_schema := co_name k; tv_table := tb_name t; tv_id := ve_id v; tv_version := ve_version v; tv_time := ve_time v |}] else []) (dbs c)
      else []) (colls c)
    else []) (tbls c)) (vers c).
(* system_tables.rs 168-206: all of them, for the database of the query *)
Definition table_versions (d : string) (c : catalog) : list tv_row := get_all_versions d None c.

(* The table dropped_table (migrations/sqlite/20230221081928_delta_lake_integration.up.sql 17-25, migrations/postgres/20230221081920 the
   same): its rows carry names, not references. No statement adds rows to it any more: they come from earlier versions of the program.
   Simplified: deletion_status is never NULL, identities of tables are numbers *)
Inductive deletion := Pending | Retry | Failed.
Record dropped_row := { dr_db : string; dr_schema : string; dr_table : string; dr_uuid : nat; dr_status : deletion; dr_time : nat }.
(* interface.rs 72-78: Display and EnumString of the status (strum, serialize_all = "UPPERCASE"): what rows are decoded from and shown as *)
Definition shown (x : deletion) : string := match x with Pending => "PENDING" | Retry => "RETRY" | Failed => "FAILED" end.
(* ... and what sqlx writes for it (derive(sqlx::Type) without rename_all): the name of the variant *)
Definition variant (x : deletion) : string := match x with Pending => "Pending" | Retry => "Retry" | Failed => "Failed" end.
(* the CHECK constraint of the column *)
Definition check (x : string) : bool := existsb (String.eqb x) ["PENDING"; "RETRY"; "FAILED"]%string.
(* default.rs 545-572 *)
Definition get_dropped_tables (d : option string) (l : list dropped_row) : list dropped_row :=
  match d with None => l | Some d => filter (fun r => String.eqb (dr_db r) d) l end.
(* system_tables.rs 226-238, 248-290: without the database, the status as text *)
Definition dropped_tables (d : string) (l : list dropped_row) : list (string * string * nat * string * nat) :=
  map (fun r => (dr_schema r, dr_table r, dr_uuid r, shown (dr_status r), dr_time r)) (get_dropped_tables (Some d) l).
Definition with_status (x : deletion) (r : dropped_row) : dropped_row :=
  {| dr_db := dr_db r; dr_schema := dr_schema r; dr_table := dr_table r; dr_uuid := dr_uuid r; dr_status := x; dr_time := dr_time r |}.
(* default.rs 574-583; [enc] is how the status is written; a refused update leaves the table as it is (utils.rs 92-98 logs it) *)
Definition update_dropped_table (enc : deletion -> string) (u : nat) (x : deletion) (l : list dropped_row) : list dropped_row :=
  if check (enc x) then map (fun r => if Nat.eqb (dr_uuid r) u then with_status x r else r) l else l.
(* default.rs 585-593 *)
Definition delete_dropped_table (u : nat) (l : list dropped_row) : list dropped_row := filter (fun r => negb (Nat.eqb (dr_uuid r) u)) l.
(* utils.rs 83-87 *)
Definition next_status (x : deletion) : deletion := match x with Pending => Failed | _ => Retry end.
(* utils.rs 65-111: one table of the list that was read; [fails u]: its directory cannot be deleted now. Simplified: the metastore is
   reachable, and a directory fails or not for a whole cleanup *)
Definition gc_one (enc : deletion -> string) (fails : nat -> bool) (l : list dropped_row) (r : dropped_row) : list dropped_row :=
  match dr_status r with
  | Failed => l
  | x => if fails (dr_uuid r) then update_dropped_table enc (dr_uuid r) (next_status x) l else delete_dropped_table (dr_uuid r) l
  end.
(* utils.rs 50-111: main.rs 157-160 (at the start) and 245-252 (repeatedly) for all databases, physical.rs 708-716 (VACUUM DATABASE) for one *)
Definition gc_databases (enc : deletion -> string) (fails : nat -> bool) (d : option string) (l : list dropped_row) : list dropped_row :=
  fold_left (gc_one enc fails) (get_dropped_tables d l) l.
(* the directories that are deleted *)
Definition cleaned (fails : nat -> bool) (d : option string) (l : list dropped_row) : list nat :=
  flat_map (fun r => match dr_status r with Failed => [] | _ => if fails (dr_uuid r) then [] else [dr_uuid r] end) (get_dropped_tables d l).
(* utils.rs 113-125: the tables that the operator is told to delete by hand *)
Definition by_hand (fails : nat -> bool) (d : option string) (l : list dropped_row) : list nat :=
  flat_map (fun r => match dr_status r with Failed => [dr_uuid r] | Pending => if fails (dr_uuid r) then [dr_uuid r] else [] | Retry => [] end) (get_dropped_tables d l).
