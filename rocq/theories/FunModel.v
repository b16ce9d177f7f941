(* Model of the definitions of functions: what CREATE FUNCTION reads, what is stored and what is read back (src/wasm_udf/data_types.rs,
   src/repository/default.rs, src/catalog/metastore.rs). See FunSpec.v and FunProps.v. *)
From Coq Require Import Ascii String List ZArith Bool.
From Verif Require Import UdfModel.
Import ListNotations.
Open Scope string_scope.

(* str::to_ascii_uppercase *)
Definition upper_ascii (c : ascii) : ascii :=
  let n := nat_of_ascii c in if (Nat.leb 97 n && Nat.leb n 122)%bool then ascii_of_nat (n - 32) else c.
Fixpoint upper (s : string) : string := match s with EmptyString => EmptyString | String c r => String (upper_ascii c) (upper r) end.

(* A JSON document as serde_json reads it. [plain]: the text is written without escapes, so that it can be borrowed from the input. *)
Inductive json := JText (plain : bool) (s : string) | JNumber (z : Z) | JNull | JList (l : list json) | JObject (l : list (string * json)).

(* data_types.rs 36-75, the names strum gives (Display, FromStr): the identifiers of the constructors *)
Definition type_name (t : ftype) : string :=
  match t with
  | FI32 => "I32" | FI64 => "I64" | FF32 => "F32" | FF64 => "F64" | FSMALLINT => "SMALLINT" | FINT => "INT" | FBIGINT => "BIGINT"
  | FCHAR => "CHAR" | FVARCHAR => "VARCHAR" | FTEXT => "TEXT" | FDECIMAL _ _ => "DECIMAL" | FFLOAT => "FLOAT" | FREAL => "REAL"
  | FDOUBLE => "DOUBLE" | FBOOLEAN => "BOOLEAN" | FDATE => "DATE" | FTIMESTAMP => "TIMESTAMP"
  end.
(* strum fills the fields of a variant with their defaults *)
Definition all_types : list ftype :=
  [FI32; FI64; FF32; FF64; FSMALLINT; FINT; FBIGINT; FCHAR; FVARCHAR; FTEXT; FDECIMAL 0 0; FFLOAT; FREAL; FDOUBLE; FBOOLEAN; FDATE; FTIMESTAMP].
Definition type_from_str (s : string) : option ftype := find (fun t => String.eqb (type_name t) s) all_types.
(* data_types.rs 85-89 parse_create_function_data_type *)
Definition parse_type (raw : string) : option ftype := type_from_str (upper raw).
(* data_types.rs 91-134: the elements of input_types are read as &str, return_type as String *)
Definition read_input_type (j : json) : option ftype := match j with JText true s => parse_type s | _ => None end.
Definition read_return_type (j : json) : option ftype := match j with JText _ s => parse_type s | _ => None end.

Inductive volatility := Immutable | Stable | Volatile.
Inductive language := Wasm | WasmMessagePack.
(* data_types.rs 65-83: serde (camelCase; the form {"name": null} of a variant is left out) *)
Definition read_volatility (j : json) : option volatility :=
  match j with
  | JText _ s => if String.eqb s "immutable" then Some Immutable else if String.eqb s "stable" then Some Stable else if String.eqb s "volatile" then Some Volatile else None
  | _ => None
  end.
Definition read_language (j : json) : option language :=
  match j with JText _ s => if String.eqb s "wasm" then Some Wasm else if String.eqb s "wasmMessagePack" then Some WasmMessagePack else None | _ => None end.
(* ... and strum *)
Definition volatility_name (v : volatility) : string := match v with Immutable => "Immutable" | Stable => "Stable" | Volatile => "Volatile" end.
Definition volatility_from_str (s : string) : option volatility := find (fun v => String.eqb (volatility_name v) s) [Immutable; Stable; Volatile].
Definition language_name (l : language) : string := match l with Wasm => "Wasm" | WasmMessagePack => "WasmMessagePack" end.
Definition language_from_str (s : string) : option language := find (fun l => String.eqb (language_name l) s) [Wasm; WasmMessagePack].

(* data_types.rs 138-149 CreateFunctionDetails *)
Record details := { entrypoint : string; lang : language; input_types : list ftype; return_type : ftype; data : string; vol : volatility }.
Fixpoint all_some {A} (l : list (option A)) : option (list A) :=
  match l with [] => Some [] | None :: _ => None | Some x :: r => match all_some r with Some r => Some (x :: r) | None => None end end.
(* A field of a struct: serde refuses it twice, ignores unknown ones. The form of a struct as a list is left out. *)
Inductive field_value := Absent | Once (j : json) | Twice.
Definition field (k : string) (l : list (string * json)) : field_value :=
  match filter (fun kv => String.eqb (fst kv) k) l with [] => Absent | [(_, j)] => Once j | _ => Twice end.
Definition required {A} (read : json -> option A) (f : field_value) : option A := match f with Once j => read j | _ => None end.
Definition defaulted {A} (read : json -> option A) (d : A) (f : field_value) : option A := match f with Once j => read j | Absent => Some d | Twice => None end.
Definition read_text (j : json) : option string := match j with JText _ s => Some s | _ => None end.
Definition read_input_types (j : json) : option (list ftype) := match j with JList l => all_some (map read_input_type l) | _ => None end.
(* logical.rs 235-238: serde_json::from_str::<CreateFunctionDetails> *)
Definition parse_details (j : json) : option details :=
  match j with
  | JObject l =>
      match required read_text (field "entrypoint" l), defaulted read_language WasmMessagePack (field "language" l),
            required read_input_types (field "input_types" l), required read_return_type (field "return_type" l),
            required read_text (field "data" l), defaulted read_volatility Volatile (field "volatility" l) with
      | Some e, Some g, Some i, Some r, Some d, Some v => Some {| entrypoint := e; lang := g; input_types := i; return_type := r; data := d; vol := v |}
      | _, _, _, _, _, _ => None
      end
  | _ => None
  end.

(* default.rs 407-451 create_function: the columns of a row. The JSON of the input types as a document: the text of serde_json is not modelled. *)
Record row := { r_entrypoint : string; r_language : string; r_input_types : json; r_return_type : string; r_data : string; r_volatility : string }.
(* Serialize with rename_all = "lowercase", data_types.rs 36-63 *)
Definition lower_name (t : ftype) : string :=
  match t with
  | FI32 => "i32" | FI64 => "i64" | FF32 => "f32" | FF64 => "f64" | FSMALLINT => "smallint" | FINT => "int" | FBIGINT => "bigint"
  | FCHAR => "char" | FVARCHAR => "varchar" | FTEXT => "text" | FDECIMAL _ _ => "decimal" | FFLOAT => "float" | FREAL => "real"
  | FDOUBLE => "double" | FBOOLEAN => "boolean" | FDATE => "date" | FTIMESTAMP => "timestamp"
  end.
Definition write_type (t : ftype) : json :=
  match t with
  | FDECIMAL p s => JObject [("decimal", JObject [("precision", JNumber p); ("scale", JNumber s)])]
  | _ => JText true (lower_name t)
  end.
Definition store (d : details) : row :=
  {| r_entrypoint := entrypoint d; r_language := language_name (lang d); r_input_types := JList (map write_type (input_types d));
     r_return_type := type_name (return_type d); r_data := data d; r_volatility := volatility_name (vol d) |}.
(* The derived Deserialize of CreateFunctionDataType, which metastore.rs 290-292 uses (not the one of CREATE FUNCTION) *)
Definition in_u8 (z : Z) : bool := ((0 <=? z) && (z <? 256))%Z.
Definition in_i8 (z : Z) : bool := ((-128 <=? z) && (z <? 128))%Z.
Definition read_number (ok : Z -> bool) (j : json) : option Z := match j with JNumber z => if ok z then Some z else None | _ => None end.
Definition plain_types : list ftype := [FI32; FI64; FF32; FF64; FSMALLINT; FINT; FBIGINT; FCHAR; FVARCHAR; FTEXT; FFLOAT; FREAL; FDOUBLE; FBOOLEAN; FDATE; FTIMESTAMP].
Definition read_stored_type (j : json) : option ftype :=
  match j with
  | JText _ s => find (fun t => String.eqb (lower_name t) s) plain_types
  | JObject [(k, JObject l)] =>
      if String.eqb k "decimal" then
        match required (read_number in_u8) (field "precision" l), required (read_number in_i8) (field "scale" l) with
        | Some p, Some s => Some (FDECIMAL p s)
        | _, _ => None
        end
      else None
  | _ => None
  end.
(* metastore.rs 273-300 parse_create_function_details *)
Definition load (r : row) : option details :=
  match language_from_str (r_language r), (match r_input_types r with JList l => all_some (map read_stored_type l) | _ => None end),
        type_from_str (upper (r_return_type r)), volatility_from_str (r_volatility r) with
  | Some g, Some i, Some t, Some v => Some {| entrypoint := r_entrypoint r; lang := g; input_types := i; return_type := t; data := r_data r; vol := v |}
  | _, _, _, _ => None
  end.
(* metastore.rs 250-271 build_functions: all functions of a database or none *)
Definition load_all (rows : list (string * row)) : option (list (string * details)) :=
  all_some (map (fun nr => match load (snd nr) with Some d => Some (fst nr, d) | None => None end) rows).
