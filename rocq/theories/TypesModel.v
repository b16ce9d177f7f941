(* The columns of CREATE TABLE: types, names, nullability and what else the statement says. Models src/datafusion/utils.rs and the CREATE
   TABLE arms of src/context/logical.rs. Types that the code refuses one by one are one constructor here. *)
From Coq Require Import String List ZArith Bool.
Import ListNotations.
From Verif Require DdlModel.
Open Scope Z_scope.

(* sqlparser's TimezoneInfo and ExactNumberInfo (u64 numbers) as the code matches them, src/datafusion/utils.rs 67-104 *)
Inductive timezone := TzNone | WithTimeZone | WithoutTimeZone | Tz.
Inductive exact_number := ExactNone | Precision (p : Z) | PrecisionAndScale (p s : Z).
(* sqlparser's DataType, src/datafusion/utils.rs 47-178. Display widths and lengths are kept as option Z; all of 110-175 (refused) is Other. *)
Inductive sql_type :=
| Boolean | Bool | TinyInt (w : option Z) | SmallInt (w : option Z) | Int2 (w : option Z) | Int (w : option Z) | Integer (w : option Z) | Int4 (w : option Z)
| BigInt (w : option Z) | Int8 (w : option Z) | UnsignedTinyInt (w : option Z) | UnsignedSmallInt (w : option Z) | UnsignedInt2 (w : option Z)
| UnsignedInt (w : option Z) | UnsignedInteger (w : option Z) | UnsignedInt4 (w : option Z) | UnsignedBigInt (w : option Z) | UnsignedInt8 (w : option Z)
| Float (p : option Z) | Real | Float4 | Double | DoublePrecision | Float8 | Char (n : option Z) | Varchar (n : option Z) | Text | SString (n : option Z)
| Timestamp (p : option Z) (tz : timezone) | Date | Time (p : option Z) (tz : timezone) | Numeric (e : exact_number) | Decimal (e : exact_number)
| Bytea | Interval | Other (name : string).
(* Arrow's DataType, as far as the code produces it, src/datafusion/utils.rs 47-208 *)
Inductive arrow_type :=
| ABoolean | AInt (bits : Z) (signed : bool) | AFloat32 | AFloat64 | AUtf8 | ATimestampMicro (tz : option string) | ADate32 | ATime64Nano
| ADecimal128 (precision scale : Z) | ABinary | AIntervalMonthDayNano.

(* Rust's `as u8` and `as i8` of a u64 *)
Definition as_u8 (n : Z) : Z := n mod 256.
Definition as_i8 (n : Z) : Z := let m := n mod 256 in if m <? 128 then m else m - 256.
(* make_decimal_type, src/datafusion/utils.rs 182-209. None: error. DECIMAL128_MAX_PRECISION = 38 and DECIMAL_DEFAULT_SCALE = 10 are Arrow's. *)
Definition make_decimal_type (p s : option Z) : option arrow_type :=
  match (match p, s with
         | Some p, Some s => Some (as_u8 p, as_i8 s)
         | Some p, None => Some (as_u8 p, 0)
         | None, Some _ => None
         | None, None => Some (38, 10)
         end) with
  | None => None
  | Some (p, s) => if ((p =? 0) || (38 <? p) || (p <? Z.abs s))%bool then None else Some (ADecimal128 p s)
  end.
(* ConfigOptions::default().execution.time_zone of DataFusion, used in src/datafusion/utils.rs 74 *)
Definition default_time_zone : option string := Some "+00:00"%string.
(* convert_simple_data_type, src/datafusion/utils.rs 47-180 *)
Definition convert_simple_data_type (t : sql_type) : option arrow_type :=
  match t with
  | Boolean | Bool => Some ABoolean
  | TinyInt _ => Some (AInt 8 true)
  | SmallInt _ | Int2 _ => Some (AInt 16 true)
  | Int _ | Integer _ | Int4 _ => Some (AInt 32 true)
  | BigInt _ | Int8 _ => Some (AInt 64 true)
  | UnsignedTinyInt _ => Some (AInt 8 false)
  | UnsignedSmallInt _ | UnsignedInt2 _ => Some (AInt 16 false)
  | UnsignedInt _ | UnsignedInteger _ | UnsignedInt4 _ => Some (AInt 32 false)
  | UnsignedBigInt _ | UnsignedInt8 _ => Some (AInt 64 false)
  | Float _ => Some AFloat32
  | Real | Float4 => Some AFloat32
  | Double | DoublePrecision | Float8 => Some AFloat64
  | Char _ | Varchar _ | Text | SString _ => Some AUtf8
  | Timestamp None tz => Some (ATimestampMicro (match tz with Tz | WithTimeZone => default_time_zone | _ => None end))
  | Date => Some ADate32
  | Time None tz => match tz with TzNone | WithoutTimeZone => Some ATime64Nano | _ => None end
  | Numeric e | Decimal e =>
      match e with
      | ExactNone => make_decimal_type None None
      | Precision p => make_decimal_type (Some p) None
      | PrecisionAndScale p s => make_decimal_type (Some p) (Some s)
      end
  | Bytea => Some ABinary
  | Interval => Some AIntervalMonthDayNano
  | Timestamp (Some _) _ | Time (Some _) _ | Other _ => None
  end.

(* sqlparser's ColumnOption (the constructors that tell columns apart; the rest is OtherOption) and ColumnDef *)
Inductive column_option := Null | NotNull | Default (e : nat) | PrimaryKey | Unique | References (table : string) | Check (e : nat) | OtherOption (o : nat).
Record column := { c_name : string * bool (* value, quoted? *); c_type : sql_type; c_options : list column_option }.
Record field := { f_name : string; f_type : arrow_type; f_nullable : bool }.
(* normalize_ident, src/datafusion/utils.rs 15-20 *)
Definition normalize_ident (i : string * bool) : string := if snd i then fst i else DdlModel.lower (fst i).
Definition is_not_null (o : column_option) : bool := match o with NotNull => true | _ => false end.
(* build_schema, src/datafusion/utils.rs 23-42 *)
Definition build_field (c : column) : option field :=
  match convert_simple_data_type (c_type c) with
  | None => None
  | Some t => Some {| f_name := normalize_ident (c_name c); f_type := t; f_nullable := negb (existsb is_not_null (c_options c)) |}
  end.
Fixpoint build_schema (cs : list column) : option (list field) :=
  match cs with
  | [] => Some []
  | c :: cs => match build_field c with None => None | Some f => match build_schema cs with None => None | Some fs => Some (f :: fs) end end
  end.

(* sqlparser's CreateTable without a query: the fields that the code looks at, and some of those that it skips with `..` *)
Record create_table := {
  ct_name : string; ct_columns : list column; ct_constraints : list nat; ct_table_properties : list nat; ct_with_options : list nat; ct_if_not_exists : bool;
  ct_temporary : bool; ct_transient : bool; ct_like : option string; ct_clone : option string; ct_partition_by : option nat; ct_order_by : option (list nat); ct_comment : option string }.
Record created := { d_name : string; d_fields : list field; d_if_not_exists : bool }.
(* create_logical_plan_from_statement, src/context/logical.rs 164-187 (CREATE TABLE without a query); if the guard is false the arm at 294 is
   reached: not implemented *)
Definition is_nil {A} (l : list A) : bool := match l with [] => true | _ => false end.
Definition plan_create_table (c : create_table) : option created :=
  if (is_nil (ct_constraints c) && is_nil (ct_table_properties c) && is_nil (ct_with_options c))%bool then
    match build_schema (ct_columns c) with
    | None => None
    | Some fs => Some {| d_name := ct_name c; d_fields := fs; d_if_not_exists := ct_if_not_exists c |}
    end
  else None.
