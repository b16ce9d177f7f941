(* What the properties of the system tables mean. *)
From Coq Require Import String List Arith Bool.
From Verif Require Import CatalogModel CatalogSpec SysModel.
Import ListNotations.
Open Scope list_scope.

(* Database d has a table s.t with a version: identity v, number n, recorded at time *)
Definition has_recorded (c : catalog) (d s t : string) (v n time : nat) : Prop := exists i u, has_table c d s t i u /\ has_version c i v time n.
(* ... and a user of database d sees it in system.table_versions *)
Definition listed (c : catalog) (d s t : string) (v n time : nat) : Prop :=
  In {| tv_schema := s; tv_table := t; tv_id := v; tv_version := n; tv_time := time |} (table_versions d c).
(* The database that an operation names; recording a version names none *)
Definition op_db (o : cop) : option string :=
  match o with
  | CreateDb d | CreateSchema d _ | CreateTable d _ _ _ _ _ | CreateTableCrash d _ _ _ _ | Rename d _ _ _ _ | DropTable d _ _ | DropSchema d _ | DropDb d
  | Vacuum d _ _ | CreateFn d _ _ _ | DropFn d _ _ => Some d
  | NewVersion _ _ _ | NewVersionCrash _ _ _ => None
  end.

(* Cleanups one after the other: for which database, and which directories cannot be deleted *)
Definition cleanups (enc : deletion -> string) (h : list (option string * (nat -> bool))) (l : list dropped_row) : list dropped_row :=
  fold_left (fun l x => gc_databases enc (snd x) (fst x) l) h l.
(* A cleanup for d looks at a row *)
Definition in_scope (d : option string) (r : dropped_row) : Prop := match d with None => True | Some d => dr_db r = d end.
