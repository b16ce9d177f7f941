(* What the columns of CREATE TABLE should mean, in terms of the values they can hold. *)
From Coq Require Import String List ZArith.
Import ListNotations.
From Verif Require Import TypesModel.
From Verif Require DdlSpec.
Open Scope Z_scope.

(* Values: a decimal is m / 10^s and a float is m * 2^e; dates count days, times nanoseconds and timestamps microseconds, with or without a zone. *)
Inductive value := VBool (b : bool) | VInt (n : Z) | VDecimal (m s : Z) | VFloat (m e : Z) | VText (t : string) | VBytes (t : string)
| VDate (d : Z) | VTime (ns : Z) | VTimestamp (zoned : bool) (us : Z) | VInterval (months days ns : Z).
Definition from_to (lo hi : Z) (v : value) : Prop := exists n, v = VInt n /\ lo <= n <= hi.
Definition decimal (p s : Z) (v : value) : Prop := exists m, v = VDecimal m s /\ Z.abs m < 10 ^ p.
Definition single (v : value) : Prop := exists m e, v = VFloat m e /\ Z.abs m < 2 ^ 24 /\ -149 <= e <= 104.
Definition double (v : value) : Prop := exists m e, v = VFloat m e /\ Z.abs m < 2 ^ 53 /\ -1074 <= e <= 971.
Definition text (v : value) : Prop := exists t, v = VText t.
Definition short_text (n : Z) (v : value) : Prop := exists t, v = VText t /\ Z.of_nat (String.length t) <= n.
(* 32 and 64 bit *)
Definition i32 (n : Z) : Prop := -2147483648 <= n <= 2147483647.
Definition i64 (n : Z) : Prop := -9223372036854775808 <= n <= 9223372036854775807.

(* The values of a column of an SQL type. Widths of integers are for display. CHAR is CHAR(1); DECIMAL is DECIMAL(38, 10); FLOAT(p) has p binary digits. *)
Definition sql_value (t : sql_type) (v : value) : Prop :=
  match t with
  | Boolean | Bool => exists b, v = VBool b
  | TinyInt _ => from_to (-128) 127 v
  | SmallInt _ | Int2 _ => from_to (-32768) 32767 v
  | Int _ | Integer _ | Int4 _ => from_to (-2147483648) 2147483647 v
  | BigInt _ | Int8 _ => from_to (-9223372036854775808) 9223372036854775807 v
  | UnsignedTinyInt _ => from_to 0 255 v
  | UnsignedSmallInt _ | UnsignedInt2 _ => from_to 0 65535 v
  | UnsignedInt _ | UnsignedInteger _ | UnsignedInt4 _ => from_to 0 4294967295 v
  | UnsignedBigInt _ | UnsignedInt8 _ => from_to 0 18446744073709551615 v
  | Float None | Real | Float4 => single v
  | Float (Some p) => if p <=? 24 then single v else double v
  | Double | DoublePrecision | Float8 => double v
  | Char None => short_text 1 v
  | Char (Some n) | Varchar (Some n) | SString (Some n) => short_text n v
  | Varchar None | SString None | Text => text v
  | Timestamp None (Tz | WithTimeZone) => exists us, v = VTimestamp true us /\ i64 us
  | Timestamp None (TzNone | WithoutTimeZone) => exists us, v = VTimestamp false us /\ i64 us
  | Date => exists d, v = VDate d /\ i32 d
  | Time None (TzNone | WithoutTimeZone) => exists ns, v = VTime ns /\ i64 ns
  | Numeric ExactNone | Decimal ExactNone => decimal 38 10 v
  | Numeric (Precision p) | Decimal (Precision p) => decimal p 0 v
  | Numeric (PrecisionAndScale p s) | Decimal (PrecisionAndScale p s) => decimal p s v
  | Bytea => exists t, v = VBytes t
  | Interval => exists mo d ns, v = VInterval mo d ns /\ i32 mo /\ i32 d /\ i64 ns
  | Timestamp (Some _) _ | Time _ _ | Other _ => False                          (* types that are refused *)
  end.
(* The values of an Arrow column *)
Definition arrow_value (a : arrow_type) (v : value) : Prop :=
  match a with
  | ABoolean => exists b, v = VBool b
  | AInt bits true => exists n, v = VInt n /\ - 2 ^ (bits - 1) <= n < 2 ^ (bits - 1)
  | AInt bits false => exists n, v = VInt n /\ 0 <= n < 2 ^ bits
  | AFloat32 => single v
  | AFloat64 => double v
  | AUtf8 => text v
  | ATimestampMicro tz => exists us, v = VTimestamp (match tz with Some _ => true | None => false end) us /\ i64 us
  | ADate32 => exists d, v = VDate d /\ i32 d
  | ATime64Nano => exists ns, v = VTime ns /\ i64 ns
  | ADecimal128 p s => decimal p s v
  | ABinary => exists t, v = VBytes t
  | AIntervalMonthDayNano => exists mo d ns, v = VInterval mo d ns /\ i32 mo /\ i32 d /\ i64 ns
  end.
Definition honoured (t : sql_type) (a : arrow_type) : Prop := forall v, sql_value t v <-> arrow_value a v.

(* The types of which the code keeps everything *)
Definition kept_type (t : sql_type) : Prop :=
  match t with
  | Char _ | Varchar (Some _) | SString (Some _) => False
  | Float (Some p) => p <= 24
  | Numeric (Precision p) | Decimal (Precision p) => p < 256
  | Numeric (PrecisionAndScale p s) | Decimal (PrecisionAndScale p s) => p < 256 /\ s < 128
  | _ => True
  end.
(* The numbers in types are not negative. *)
Definition numbers (t : sql_type) : Prop :=
  match t with
  | Numeric (Precision p) | Decimal (Precision p) => 0 <= p
  | Numeric (PrecisionAndScale p s) | Decimal (PrecisionAndScale p s) => 0 <= p /\ 0 <= s
  | _ => True
  end.

(* The name that a column is created with: as written if quoted, in lower case otherwise *)
Definition column_name (i : string * bool) (n : string) : Prop := if snd i then n = fst i else DdlSpec.lower_case (fst i) n.
(* Two lists of columns that differ only in options other than NOT NULL *)
Definition same_but_options (c c' : column) : Prop := c_name c = c_name c' /\ c_type c = c_type c' /\ (In NotNull (c_options c) <-> In NotNull (c_options c')).
