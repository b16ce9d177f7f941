(* What the properties of function definitions mean. *)
From Coq Require Import Ascii String List ZArith Bool.
From Verif Require UdfModel TypesModel.
Import ListNotations.
Open Scope string_scope.

(* How the SQL parser reads the name of a type in CREATE TABLE (the names that both CREATE TABLE and CREATE FUNCTION have; in upper case) *)
Inductive named : string -> TypesModel.sql_type -> Prop :=
| n_smallint : named "SMALLINT" (TypesModel.SmallInt None) | n_int : named "INT" (TypesModel.Int None) | n_bigint : named "BIGINT" (TypesModel.BigInt None)
| n_char : named "CHAR" (TypesModel.Char None) | n_varchar : named "VARCHAR" (TypesModel.Varchar None) | n_text : named "TEXT" TypesModel.Text
| n_decimal : named "DECIMAL" (TypesModel.Decimal TypesModel.ExactNone) | n_float : named "FLOAT" (TypesModel.Float None) | n_real : named "REAL" TypesModel.Real
| n_double : named "DOUBLE" TypesModel.Double | n_boolean : named "BOOLEAN" TypesModel.Boolean | n_date : named "DATE" TypesModel.Date
| n_timestamp : named "TIMESTAMP" (TypesModel.Timestamp None TypesModel.TzNone).

(* The kinds of values of a column of a table or an argument of a function *)
Inductive unit_of_time := Microseconds | Nanoseconds.
Inductive kind :=
| Bits | Whole (bits : Z) (signed : bool) | Floating (bits : Z) | Letters | Days | Instant (u : unit_of_time) (zone : option string)
| Fixed (precision scale : Z) | Something.
Definition kind_of_argument (a : UdfModel.atype) : kind :=
  match a with
  | UdfModel.AInt16 => Whole 16 true | UdfModel.AInt32 => Whole 32 true | UdfModel.AInt64 => Whole 64 true | UdfModel.AFloat32 => Floating 32
  | UdfModel.AFloat64 => Floating 64 | UdfModel.AUtf8 => Letters | UdfModel.ADecimal p s => Fixed p s | UdfModel.ABoolean => Bits | UdfModel.ADate32 => Days
  | UdfModel.ATimestamp => Instant Nanoseconds None
  end.
Definition kind_of_column (a : TypesModel.arrow_type) : kind :=
  match a with
  | TypesModel.ABoolean => Bits | TypesModel.AInt b s => Whole b s | TypesModel.AFloat32 => Floating 32 | TypesModel.AFloat64 => Floating 64
  | TypesModel.AUtf8 => Letters | TypesModel.ATimestampMicro z => Instant Microseconds z | TypesModel.ADate32 => Days
  | TypesModel.ADecimal128 p s => Fixed p s | _ => Something
  end.

(* A field of a JSON object that is given once, or not at all *)
Definition given_once {A} (k : string) (l : list (string * A)) (v : A) : Prop := exists before after, l = (before ++ (k, v) :: after)%list /\ ~ In k (map fst (before ++ after)%list).
Definition not_given {A} (k : string) (l : list (string * A)) : Prop := ~ In k (map fst l).
