(* CREATE TABLE ... AS (src/context/physical.rs 163-192, 857-885; src/context/delta.rs 274-430) with the types and values of the query.
   See CtasSpec.v for what the property means and CtasProps.v for the theorems. *)
From Coq Require Import String List ZArith Bool.
Import ListNotations.
Open Scope Z_scope.
Open Scope list_scope.

(* Arrow types: timestamps with their unit and time zone, types with children (lists, structs, maps), and the others *)
Inductive unit_ := Sec | Ms | Us | Ns.
Inductive ty := Timestamp (u : unit_) (tz : option string) | Nested (kind : nat) (children : list ty) | Plain (kind : nat).
(* Values: a timestamp is a count of its unit since 1970 *)
Inductive value := Null | Moment (z : Z) | Tree (children : list value) | Other (n : nat).
Notation field := (string * ty)%type (only parsing).
Notation row := (list value) (only parsing).
(* What planning a query gives: its columns, and what running it gives: None is an error while it runs *)
Record query := { q_fields : list field; q_run : option (list row) }.

(* physical.rs 857-885 coerce_plan: a column of nanoseconds is cast to microseconds; the cast (crate arrow-cast) divides the integers,
   which rounds towards zero *)
Definition coerce_type (t : ty) : ty := match t with Timestamp Ns tz => Timestamp Us tz | _ => t end.
Definition coerce_value (t : ty) (v : value) : value :=
  match t, v with Timestamp Ns _, Moment z => Moment (Z.quot z 1000) | _, _ => v end.
Fixpoint coerce_row (fs : list field) (r : row) : row :=
  match fs, r with f :: fs, v :: r => coerce_value (snd f) v :: coerce_row fs r | _, _ => [] end.
Definition incompatible (f : field) : bool := match snd f with Timestamp Ns _ => true | _ => false end.
Definition coerce_plan (q : query) : query :=
  if existsb incompatible (q_fields q) then
    {| q_fields := map (fun f => (fst f, coerce_type (snd f))) (q_fields q); q_run := option_map (map (coerce_row (q_fields q))) (q_run q) |}
  else q.

(* The types that a Delta table can have (crate deltalake, DeltaSchema::try_from in delta.rs 302): timestamps in microseconds; [zone] says
   which time zones, [plain] which other types *)
Section Delta.
  Variable zone : option string -> bool.
  Variable plain : nat -> bool.
  Fixpoint delta_type (t : ty) : bool :=
    match t with
    | Timestamp Us tz => zone tz
    | Timestamp _ _ => false
    | Nested k cs => plain k && forallb delta_type cs
    | Plain k => plain k
    end.

  (* A table: its columns, its rows, and the numbers of its recorded versions *)
  Record table := { t_fields : list field; t_rows : list row; t_versions : list nat }.
  (* The tables of a schema that exists; simplified: names are resolved (DdlModel.v has the databases and schemas), and the metastore is
     reachable *)
  Definition tables := string -> option table.
  Definition put (n : string) (t : table) (w : tables) : tables := fun m => if String.eqb m n then Some t else w m.
  (* delta.rs 274-381: refused for types that Delta does not have, before anything is stored, and for a name that is taken *)
  Definition create_delta_table (n : string) (fs : list field) (w : tables) : option tables :=
    if negb (forallb (fun f => delta_type (snd f)) fs) then None
    else match w n with Some _ => None | None => Some (put n {| t_fields := fs; t_rows := []; t_versions := [0%nat] |} w) end.
  (* delta.rs 383-430: the plan runs first, then its files are committed and the version is recorded *)
  Definition plan_to_delta_table (n : string) (q : query) (w : tables) : option tables :=
    match w n, q_run q with
    | Some t, Some rows => Some (put n {| t_fields := t_fields t; t_rows := t_rows t ++ rows; t_versions := t_versions t ++ [length (t_versions t)] |} w)
    | _, _ => None
    end.
  (* physical.rs 163-192: the tables afterwards and whether it reports success; [q] is None if the query cannot be planned. or_replace is
     not looked at *)
  Definition create_table_as (or_replace if_not_exists : bool) (n : string) (q : option query) (w : tables) : tables * bool :=
    if if_not_exists && match w n with Some _ => true | None => false end then (w, true)
    else match q with
         | None => (w, false)
         | Some q =>
             let q := coerce_plan q in
             match create_delta_table n (q_fields q) w with
             | None => (w, false)
             | Some w1 => match plan_to_delta_table n q w1 with None => (w1, false) | Some w2 => (w2, true) end
             end
         end.
  (* physical.rs 990-1005: an upload to a table that does not exist yet does the same with the scan of the file, without the cast *)
  Definition upload_new (n : string) (q : query) (w : tables) : tables * bool :=
    match create_delta_table n (q_fields q) w with
    | None => (w, false)
    | Some w1 => match plan_to_delta_table n q w1 with None => (w1, false) | Some w2 => (w2, true) end
    end.
End Delta.
