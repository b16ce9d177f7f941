(* Uploads of files over HTTP: the parts of the form and the rows of the table (src/frontend/http.rs upload, src/context/physical.rs
   file_to_table). See UploadSpec.v for what the properties mean and UploadProps.v for the theorems.
   Which table is meant (the schema of the path and the default one) is the subject of C51; here the name is resolved as it should be. *)
From Coq Require Import Ascii String List Bool Arith NArith.
Import ListNotations.
Open Scope list_scope.
Notation text := (list ascii) (only parsing).
Definition s_ (s : string) : text := list_ascii_of_string s.
Definition teqb (a b : text) : bool := if list_eq_dec ascii_dec a b then true else false.

(* Types and values of columns, and what the crates do with them *)
Record engine := {
  ty : Type; val : Type;
  parse : ty -> text -> option val;                 (* arrow-csv: the value of a cell; None: an error *)
  castable : ty -> ty -> bool;                      (* arrow-cast can_cast_types: file, table *)
  cast : ty -> val -> option val;                   (* arrow-cast cast of one value; None: it does not fit *)
  utf8 : text -> bool;
  read_schema : text -> option (list (text * ty));  (* serde_json, schema part *)
  records : text -> list (list text);               (* crate csv *)
  infer_csv : list (list text) -> list (text * ty); (* arrow-csv Format::infer_schema, of the header (if any) and a sample of the rows *)
  parquet : text -> option (list (text * ty) * list (list (option val))); (* crate parquet: columns and rows *)
  supported : list (text * ty) -> bool              (* delta-rs: the table can be created *)
}.

Section Upload.
Variable E : engine.
Notation columns := (list (text * ty E)) (only parsing).
Notation row := (list (option (val E))) (only parsing).

(* ---- The form: http.rs 383-453 ---- *)
Record part := { name : text; filename : option text; content : text }.
Record form := { has_header : bool; schema : option columns; file_name : text; file_type : text; file : text }.
Definition empty_form : form := {| has_header := true; schema := None; file_name := []; file_type := []; file := [] |}.
Fixpoint starts_with (p t : text) : bool := match p, t with [], _ => true | x :: p, y :: t => Ascii.eqb x y && starts_with p t | _, [] => false end.
(* filename.split('.').last() *)
Fixpoint extension (t : text) : text :=
  match t with [] => [] | c :: r => if existsb (Ascii.eqb ".") r then extension r else if Ascii.eqb c "." then r else c :: r end.
(* One part; None: the request is refused *)
Definition add_part (f : form) (p : part) : option form :=
  if teqb (name p) (s_ "has_header") then
    if utf8 E (content p) then Some {| has_header := starts_with (s_ "true") (content p); schema := schema f; file_name := file_name f; file_type := file_type f; file := file f |} else None
  else if teqb (name p) (s_ "schema") then
    if utf8 E (content p) then
      match read_schema E (content p) with
      | Some s => Some {| has_header := has_header f; schema := Some s; file_name := file_name f; file_type := file_type f; file := file f |}
      | None => None
      end
    else None
  else if (teqb (name p) (s_ "data") || teqb (name p) (s_ "file"))%bool then
    match filename p with
    | Some (c :: n) => Some {| has_header := has_header f; schema := schema f; file_name := c :: n; file_type := extension (c :: n); file := content p |}
    | _ => None
    end
  else Some f.
Fixpoint add_parts (f : form) (l : list part) : option form :=
  match l with [] => Some f | p :: l => match add_part f p with Some f' => add_parts f' l | None => None end end.

(* ---- Reading the file ---- *)
Fixpoint all_some {A B} (f : A -> option B) (l : list A) : option (list B) :=
  match l with [] => Some [] | x :: l => match f x, all_some f l with Some y, Some r => Some (y :: r) | _, _ => None end end.
(* arrow-csv: an empty cell is null; the cells belong to the columns in order. None: an error *)
Fixpoint csv_row (cs : columns) (r : list text) : option row :=
  match cs, r with
  | [], [] => Some []
  | (_, t) :: cs, [] :: r => match csv_row cs r with Some l => Some (None :: l) | None => None end
  | (_, t) :: cs, x :: r => match parse E t x, csv_row cs r with Some v, Some l => Some (Some v :: l) | _, _ => None end
  | _, _ => None
  end.
(* The header is skipped *)
Definition csv_rows (cs : columns) (header : bool) (b : text) : option (list row) := all_some (csv_row cs) (if header then tl (records E b) else records E b).
(* DataFusion's SchemaMapping: columns by their names, null for those that are not in the file; cast is safe: a value that does not fit is null.
   Simplified: the columns of a file have different names *)
Fixpoint find_column (n : text) (cs : columns) (r : row) : option (ty E * option (val E)) :=
  match cs, r with (m, t) :: cs, v :: r => if teqb m n then Some (t, v) else find_column n cs r | _, _ => None end.
Definition parquet_cell (cs : columns) (r : row) (c : text * ty E) : option (val E) :=
  match find_column (fst c) cs r with Some (_, Some v) => cast E (snd c) v | _ => None end.
Definition compatible (file table : columns) : bool :=
  forallb (fun c => match find (fun d => teqb (fst d) (fst c)) file with Some d => castable E (snd d) (snd c) | None => true end) table.
Definition parquet_rows (cs : columns) (b : text) : option (list row) :=
  match parquet E b with
  | Some (fcs, rows) => if compatible fcs cs then Some (map (fun r => map (parquet_cell fcs r) cs) rows) else None
  | None => None
  end.
(* CsvFormat and ParquetFormat infer_schema: of a CSV file the header and at most 1000 rows are read *)
Definition sample : nat := 1000.
Definition infer (csv : bool) (header : bool) (b : text) : option columns :=
  if csv then Some (infer_csv E (firstn (if header then S sample else sample) (records E b))) else match parquet E b with Some (cs, _) => Some cs | None => None end.

(* ---- The table: physical.rs 906-1005 file_to_table ---- *)
(* The schema of the path exists or not; the table, if it exists, with its columns and rows *)
Record state := { has_schema : bool; table : option (columns * list row) }.
Inductive answer := Refused | Appended (file_name : text).
Definition file_to_table (st : state) (csv : bool) (given : option columns) (header : bool) (b : text) : state * option (list row) :=
  let st := {| has_schema := true; table := if has_schema st then table st else None |} in
  match (match table st with Some (cs, _) => Some cs | None => match given with Some cs => Some cs | None => infer csv header b end end) with
  | None => (st, None)
  | Some cs =>
      let created := match table st with Some _ => true | None => supported E cs end in
      if created then
        let st := {| has_schema := true; table := Some (match table st with Some t => t | None => (cs, []) end) |} in
        match (if csv then csv_rows cs header b else parquet_rows cs b) with
        | Some rows => ({| has_schema := true; table := Some (cs, match table st with Some t => snd t | None => [] end ++ rows) |}, Some rows)
        | None => (st, None)
        end
      else (st, None)
  end.
(* http.rs 454-478 *)
Definition upload (st : state) (parts : list part) : state * answer :=
  match add_parts empty_form parts with
  | None => (st, Refused)
  | Some f =>
      if (teqb (file_type f) (s_ "csv") || teqb (file_type f) (s_ "parquet"))%bool then
        match file_to_table st (teqb (file_type f) (s_ "csv")) (schema f) (has_header f) (file f) with
        | (st', Some _) => (st', Appended (file_name f))
        | (st', None) => (st', Refused)
        end
      else (st, Refused)
  end.
(* http.rs 629: the limit of the body in bytes, from the setting in mebibytes, as u64 *)
Definition limit (setting : N) : N := (setting * 1048576 mod 2 ^ 64)%N.
Definition accepts (setting : N) (size : N) : bool := N.leb size (limit setting).
End Upload.
