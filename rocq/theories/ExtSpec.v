(* What the properties C124 and C125 talk about: the rows that a directory holds, and the tables that a statement names. *)
From Coq Require Import String List Bool Arith.
From Verif Require Import ExtModel.
Import ListNotations.
Open Scope list_scope.

(* A directory has the file f with the rows r (the first of that name: later writes replace it) *)
Definition stored {row} (l : lake row) (p : place) (f : nat) (r : list row) : Prop :=
  exists a b, objects row l p = a ++ (f, r) :: b /\ forall r', ~ In (f, r') a.
(* The latest version of the Delta table in a directory lists files that are all there, and together they have these rows *)
Definition holds {row} (l : lake row) (p : place) (rows : list row) : Prop :=
  exists files parts, log row l p = Some files /\ Forall2 (stored l p) files parts /\ rows = concat parts.
Definition unreadable {row} (l : lake row) (p : place) : Prop := forall rows, ~ holds l p rows.
Definition no_file {row} (l : lake row) (p : place) (f : nat) : Prop := forall r, ~ In (f, r) (objects row l p).

(* The catalog lists a table there; names are unique *)
Definition lists {row} (s : session row) (schema table : string) (p : place) : Prop := In ((schema, table), p) (catalog row s).
Definition unique {row} (s : session row) : Prop := NoDup (map fst (catalog row s)).
(* The directory is called so *)
Definition named (p : place) (name : string) : Prop := exists d, dir p = d ++ [name].
(* Printed UUIDs are read back *)
Definition readable_names {uuid} (parse : string -> option uuid) (print : uuid -> string) : Prop := forall u, parse (print u) = Some u.

(* The table or schema that a statement names *)
Definition names {row} (x : statement row) (schema table : string) : Prop :=
  match x with
  | Insert _ sc t _ _ | Update _ sc t _ _ | Delete _ sc t _ _ | Truncate _ sc t | DropTable _ sc t | Vacuum _ sc t => sc = schema /\ t = table
  | DropSchema _ sc => sc = schema
  | CreateFunction _ _ | VacuumDatabase _ | AsksFirst _ => False
  end.
(* INSERT, UPDATE and DELETE *)
Definition writes {row} (x : statement row) (schema table : string) : Prop :=
  match x with Insert _ sc t _ _ | Update _ sc t _ _ | Delete _ sc t _ _ => sc = schema /\ t = table | _ => False end.
(* What a user expects of a statement: the rows of the table afterwards *)
Inductive asks {row} (schema table : string) : statement row -> list row -> list row -> Prop :=
| AInsert old rows f : asks schema table (Insert _ schema table rows f) old (old ++ rows)
| AUpdate old g f : asks schema table (Update _ schema table g f) old (map g old)
| ADelete old c f : asks schema table (Delete _ schema table (Some c) f) old (filter (fun r => negb (c r)) old)
| AEmpty old f : asks schema table (Delete _ schema table None f) old []
| ATruncate old : asks schema table (Truncate _ schema table) old [].
Definition new_file {row} (x : statement row) : option nat := match x with Insert _ _ _ _ f | Update _ _ _ _ f | Delete _ _ _ _ f => Some f | _ => None end.
