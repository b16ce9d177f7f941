(* What the properties of uploads mean. *)
From Coq Require Import Ascii String List Bool Arith NArith.
From Verif Require Import UploadModel.
Import ListNotations.
Open Scope list_scope.

(* ---- The form of the documentation ---- *)
Inductive kind := HeaderFlag | Schema | File | Unknown.
Definition kind_of (p : part) : kind :=
  if list_eq_dec ascii_dec (name p) (list_ascii_of_string "has_header") then HeaderFlag
  else if list_eq_dec ascii_dec (name p) (list_ascii_of_string "schema") then Schema
  else if list_eq_dec ascii_dec (name p) (list_ascii_of_string "data") then File
  else if list_eq_dec ascii_dec (name p) (list_ascii_of_string "file") then File else Unknown.
(* No two parts of one kind *)
Fixpoint one_each (l : list part) : Prop := match l with [] => True | p :: l => (forall q, In q l -> kind_of q = kind_of p -> kind_of p = Unknown) /\ one_each l end.
Definition header_part (t : list ascii) : part := {| name := list_ascii_of_string "has_header"; filename := None; content := t |}.
Definition flag (b : bool) : list ascii := list_ascii_of_string (if b then "true" else "false").
Definition schema_part (t : list ascii) : part := {| name := list_ascii_of_string "schema"; filename := None; content := t |}.
Definition file_part (f bytes : list ascii) : part := {| name := list_ascii_of_string "file"; filename := Some f; content := bytes |}.
(* The header flag, the schema if there is one, and the file *)
Definition request (header : bool) (schema : option (list ascii)) (f bytes : list ascii) : list part :=
  header_part (flag header) :: match schema with Some s => [schema_part s] | None => [] end ++ [file_part f bytes].
(* A name with an extension *)
Definition named (base : list ascii) (ext : string) (f : list ascii) : Prop := f = base ++ "."%char :: list_ascii_of_string ext.

Section Meaning.
Variable E : engine.
(* The texts "true" and "false" are UTF-8 *)
Definition sane : Prop := forall b, utf8 E (flag b) = true.
(* What a cell of a CSV file means in a column of type t: nothing at all is null *)
Inductive cell_means (t : ty E) : list ascii -> option (val E) -> Prop :=
| Empty : cell_means t [] None
| Parsed : forall x v, x <> [] -> parse E t x = Some v -> cell_means t x (Some v).
(* A record by the order of the columns *)
Definition record_means (cs : list (list ascii * ty E)) (record : list (list ascii)) (r : list (option (val E))) : Prop :=
  length record = length cs /\ length r = length cs /\
  forall i n t x, nth_error cs i = Some (n, t) -> nth_error record i = Some x -> exists v, nth_error r i = Some v /\ cell_means t x v.
(* The value of the column n in a row of a table, or in a record under a header *)
Fixpoint under {A} (names : list (list ascii)) (r : list A) (n : list ascii) : option A :=
  match names, r with m :: names, x :: r => if list_eq_dec ascii_dec m n then Some x else under names r n | _, _ => None end.
(* The columns in the schema part, if there is one; None: it cannot be read *)
Definition given_of (s : option (list ascii)) : option (option (list (list ascii * ty E))) :=
  match s with None => Some None | Some t => if utf8 E t then match read_schema E t with Some cs => Some (Some cs) | None => None end else None end.
(* The columns of the table that a file is to be appended to: those of the table, or else those that were given *)
Definition target (st : state E) (given : option (list (list ascii * ty E))) : option (list (list ascii * ty E)) :=
  if has_schema E st then match table E st with Some (cs, _) => Some cs | None => given end else given.
Definition old_rows (st : state E) : list (list (option (val E))) := if has_schema E st then match table E st with Some (_, rows) => rows | None => [] end else [].
(* A column that the file and the table both have: its values can be converted *)
Definition types_fit (file tab : list (list ascii * ty E)) : Prop := forall n t u, In (n, t) tab -> In (n, u) file -> castable E u t = true.
Definition exists_table (st : state E) : Prop := has_schema E st = true /\ table E st <> None.
End Meaning.
