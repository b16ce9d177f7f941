(* Statements on a catalog that is managed elsewhere: an external metastore (src/catalog/external.rs) or one that comes with the request
   (src/catalog/memory.rs). Such a catalog only lists its tables, all other operations of src/catalog/mod.rs 155-308 answer "not supported".
   Models the arms of src/context/physical.rs 122-766, src/context/delta.rs (create_delta_table, plan_to_delta_table, delete_delta_table) and
   src/context/mod.rs 151-215 (get_table_uuid, try_get_delta_table) for Delta tables. See ExtSpec.v and ExtProps.v. *)
From Coq Require Import String List Bool Arith.
Import ListNotations.
Open Scope list_scope.

(* Where things are: an object store (0: the configured one) and a directory in it *)
Record place := { site : nat; dir : list string }.
Definition place_dec (a b : place) : {a = b} + {a <> b}.
Proof. repeat decide equality. Defined.

Section Ext.
Variable row : Type.
(* The directories of the configured store and the names of UUIDs (Uuid::try_parse, Display) *)
Variable prefix : list string.
Variable uuid : Type.
Variable parse_uuid : string -> option uuid.
Variable print_uuid : uuid -> string.
(* InternalObjectStore::get_log_store (wrapped.rs 104-121) *)
Definition home (u : uuid) : place := {| site := 0; dir := prefix ++ [print_uuid u] |}.
(* mod.rs 186-215 get_table_uuid: the last part of the address of the table; the catalog is not asked *)
Definition uuid_of (p : place) : option uuid := match rev (dir p) with x :: _ => parse_uuid x | [] => None end.

(* The data files of a directory, the files that the latest version of its Delta log lists (None: no Delta table), and the files that it once listed *)
Record lake := { objects : place -> list (nat * list row); log : place -> option (list nat); tombstones : place -> list nat }.
Definition set {A} (f : place -> A) (p : place) (x : A) : place -> A := fun q => if place_dec q p then x else f q.
Definition put_object (l : lake) (p : place) (f : nat) (rows : list row) : lake := {| objects := set (objects l) p ((f, rows) :: objects l p); log := log l; tombstones := tombstones l |}.
Definition commit (l : lake) (p : place) (files : list nat) : lake := 
  {| objects := objects l; log := set (log l) p (Some files);
     tombstones := set (tombstones l) p (filter (fun f => negb (existsb (Nat.eqb f) files)) (match log l p with Some old => old | None => [] end) ++ tombstones l p) |}.
Definition object (l : lake) (p : place) (f : nat) : option (list row) := match find (fun o => Nat.eqb (fst o) f) (objects l p) with Some o => Some (snd o) | None => None end.
Fixpoint read_files (l : lake) (p : place) (fs : list nat) : option (list row) :=
  match fs with [] => Some [] | f :: fs => match object l p f, read_files l p fs with Some r, Some rs => Some (r ++ rs) | _, _ => None end end.
Definition read (l : lake) (p : place) : option (list row) := match log l p with Some fs => read_files l p fs | None => None end.

(* The session: the tables that the catalog lists, the lake, and the functions that can be called *)
Record session := { catalog : list ((string * string) * place); data : lake; functions : list string; configured : bool }.
Definition find_table (s : session) (schema table : string) : option place :=
  match find (fun e => String.eqb (fst (fst e)) schema && String.eqb (snd (fst e)) table)%bool (catalog s) with Some e => Some (snd e) | None => None end.
Definition with_data (s : session) (l : lake) : session := {| catalog := catalog s; data := l; functions := functions s; configured := configured s |}.

(* Statements. [f]: the name of the new file. Simplified: INSERT, UPDATE and DELETE write one file; UPDATE and DELETE with a condition rewrite all files
   (pruning is C29, C30); the rest are the statements that ask the catalog first. *)
Inductive statement :=
| Insert (schema table : string) (rows : list row) (f : nat)
| Update (schema table : string) (g : row -> row) (f : nat)
| Delete (schema table : string) (condition : option (row -> bool)) (f : nat)
| Truncate (schema table : string)
| DropTable (schema table : string)
| DropSchema (schema : string)
| Vacuum (schema table : string)
| CreateFunction (name : string)
| VacuumDatabase
| AsksFirst.   (* CREATE DATABASE, SCHEMA, TABLE, TABLE AS (physical.rs 122-192, 595-607), CONVERT (580-594), DROP FUNCTION (624-634), ALTER TABLE RENAME (635-665),
                  without IF [NOT] EXISTS *)

Inductive answer := Done | Refused.
(* A provider of a table loads the latest version of its log *)
Definition provider (s : session) (schema table : string) : option (place * list nat) :=
  match find_table s schema table with Some p => match log (data s) p with Some fs => Some (p, fs) | None => None end | None => None end.

(* delta.rs 443-459: everything under the table's root goes *)
Definition delete_all (l : lake) (p : place) : lake := {| objects := set (objects l) p []; log := set (log l) p None; tombstones := set (tombstones l) p [] |}.
Definition run (s : session) (x : statement) : session * answer :=
  match x with
  | Insert schema table rows f =>                       (* physical.rs 193-215, delta.rs 383-427 *)
      match provider s schema table with
      | None => (s, Refused)
      | Some (p, _) =>
          match uuid_of p with
          | None => (s, Refused)
          | Some u =>
              if configured s then
                let l := put_object (data s) (home u) f rows in
                match log l (home u) with
                | None => (with_data s l, Refused)
                | Some fs => (with_data s (commit l (home u) (fs ++ [f])), Refused)     (* create_new_version *)
                end
              else (s, Refused)
          end
      end
  | Update schema table g f =>                          (* physical.rs 216-369 *)
      if configured s then
        match provider s schema table with
        | None => (s, Refused)
        | Some (p, fs) =>
            match uuid_of p with
            | None => (s, Refused)
            | Some u =>
                match fs with
                | [] => (with_data s (commit (data s) p []), Refused)
                | _ => match read (data s) p with
                       | Some rows => (with_data s (commit (put_object (data s) (home u) f (map g rows)) p [f]), Refused)
                       | None => (s, Refused)
                       end
                end
            end
        end
      else (s, Refused)
  | Delete schema table condition f =>                  (* physical.rs 370-485 *)
      if configured s then
        match provider s schema table with
        | None => (s, Refused)
        | Some (p, fs) =>
            match uuid_of p with
            | None => (s, Refused)
            | Some u =>
                match condition, fs with
                | Some c, _ :: _ => match read (data s) p with
                                    | Some rows => (with_data s (commit (put_object (data s) (home u) f (filter (fun r => negb (c r)) rows)) p [f]), Refused)
                                    | None => (s, Refused)
                                    end
                | _, _ => (with_data s (commit (data s) p []), Refused)
                end
            end
        end
      else (s, Refused)
  | Truncate schema table =>                            (* physical.rs 666-702: the catalog is not asked at all *)
      match provider s schema table with Some (p, _) => (with_data s (commit (data s) p []), Done) | None => (s, Refused) end
  | DropTable schema table =>                           (* physical.rs 486-517: tables.delete comes last *)
      match provider s schema table with Some (p, _) => (with_data s (delete_all (data s) p), Refused) | None => (s, Refused) end
  | DropSchema schema =>                                (* physical.rs 518-572: stops at the first table (simplified: in the order of the catalog) *)
      match find (fun e => String.eqb (fst (fst e)) schema) (catalog s) with
      | Some ((_, table), _) => match provider s schema table with Some (p, _) => (with_data s (delete_all (data s) p), Refused) | None => (s, Refused) end
      | None => (s, Refused)
      end
  | Vacuum schema table =>                              (* physical.rs 703-766: delete_old_versions comes last *)
      match provider s schema table with
      | Some (p, fs) => (with_data s {| objects := set (objects (data s)) p (filter (fun o => existsb (Nat.eqb (fst o)) fs || negb (existsb (Nat.eqb (fst o)) (tombstones (data s) p)))%bool (objects (data s) p));
                            log := log (data s); tombstones := tombstones (data s) |}, Refused)
      | None => (s, Refused)
      end
  | CreateFunction name => ({| catalog := catalog s; data := data s; functions := name :: functions s; configured := configured s |}, Refused)    (* physical.rs 608-623 *)
  | VacuumDatabase => (s, if configured s then Done else Refused)      (* physical.rs 708-716, utils.rs gc_databases: errors are only logged *)
  | AsksFirst => (s, Refused)
  end.
End Ext.
