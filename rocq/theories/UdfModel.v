(** Model of user defined functions written in WebAssembly:
    src/wasm_udf/wasm.rs and src/wasm_udf/data_types.rs.

    A WebAssembly module is a parameter: a state with a linear memory, and the
    functions the host calls ([alloc], [dealloc] and the function itself, or the
    exported function with its WebAssembly type).  Bytes are integers in [Z];
    the host is a 64-bit little-endian machine, which [to_ne_bytes] depends on.
    Floating point values are their bit patterns. *)
From Coq Require Import List ZArith Lia Bool.
Import ListNotations.
Open Scope Z_scope.

(** The three ways a Rust function of this file ends: a value, a
    [DataFusionError], or a panic ([unwrap] on [None], [panic!], an index out of
    bounds, [assert_eq!]). *)
Inductive outcome (A : Type) : Type :=
| UOk (a : A)
| UErr
| UPanic.
Arguments UOk {A} a.
Arguments UErr {A}.
Arguments UPanic {A}.

(** The [?] operator: errors and panics end the calling function. *)
Definition obind {A B : Type} (x : outcome A) (f : A -> outcome B) : outcome B :=
  match x with UOk a => f a | UErr => UErr | UPanic => UPanic end.

(* ------------------------------------------------------------------ *)
(** * Bytes *)

(** [to_ne_bytes] on a little-endian machine: the [k] low bytes, least first
    (wasm.rs 196: [len().to_ne_bytes()]). *)
Fixpoint le (k : nat) (z : Z) : list Z :=
  match k with
  | O => []
  | S k' => z mod 256 :: le k' (z / 256)
  end.

(** [from_ne_bytes] without sign (wasm.rs 140). *)
Fixpoint unle (l : list Z) : Z :=
  match l with
  | [] => 0
  | b :: t => b + 256 * unle t
  end.

(** Big-endian bytes, used by MessagePack for every multi-byte number. *)
Definition be (k : nat) (z : Z) : list Z := rev (le k z).
Definition unbe (l : list Z) : Z := unle (rev l).

(** Two's complement reading of an unsigned number of [bits] bits. *)
Definition signed (bits : Z) (z : Z) : Z :=
  if z <? 2 ^ (bits - 1) then z else z - 2 ^ bits.

Definition zlen {A : Type} (l : list A) : Z := Z.of_nat (length l).

(* ------------------------------------------------------------------ *)
(** * MessagePack *)

(** [rmpv::Value], the kinds the code builds or accepts (wasm.rs 263-538).  The
    other kinds (binary, maps, extensions) are rejected by every arm of
    [messagepack_decode_results]; reading one is modelled as a decoding error,
    which gives the same outcome. *)
Inductive mval : Type :=
| MNil
| MBool (b : bool)
| MInt (z : Z)
| MF32 (bits : Z)
| MF64 (bits : Z)
| MStr (s : list Z)
| MArr (l : list mval).

(** Compact integers: [rmp::encode::write_uint] and [write_sint], called by the
    serializer of wasm.rs 171-177. *)
Definition enc_int (z : Z) : list Z :=
  if 0 <=? z then
    if z <? 128 then [z]
    else if z <? 256 then 204 :: be 1 z
    else if z <? 65536 then 205 :: be 2 z
    else if z <? 4294967296 then 206 :: be 4 z
    else 207 :: be 8 z
  else
    if -32 <=? z then [256 + z]
    else if -128 <=? z then 208 :: be 1 z
    else if -32768 <=? z then 209 :: be 2 z
    else if -2147483648 <=? z then 210 :: be 4 z
    else 211 :: be 8 z.

(** The header of a string of [n] bytes. *)
Definition enc_str_head (n : Z) : list Z :=
  if n <? 32 then [160 + n]
  else if n <? 256 then 217 :: be 1 n
  else if n <? 65536 then 218 :: be 2 n
  else 219 :: be 4 n.

(** The header of an array of [n] elements. *)
Definition enc_arr_head (n : Z) : list Z :=
  if n <? 16 then [144 + n]
  else if n <? 65536 then 220 :: be 2 n
  else 221 :: be 4 n.

(** [input.serialize(&mut Serializer::new(&mut udf_input_buf))], wasm.rs
    170-177. *)
Fixpoint enc (v : mval) : list Z :=
  match v with
  | MNil => [192]
  | MBool false => [194]
  | MBool true => [195]
  | MInt z => enc_int z
  | MF32 b => 202 :: be 4 b
  | MF64 b => 203 :: be 8 b
  | MStr s => enc_str_head (zlen s) ++ s
  | MArr l => enc_arr_head (zlen l) ++ flat_map enc l
  end.

(** The first [n] bytes and the rest, if there are that many. *)
Definition take (n : Z) (l : list Z) : option (list Z * list Z) :=
  if (n <=? zlen l) then Some (firstn (Z.to_nat n) l, skipn (Z.to_nat n) l)
  else None.

(** A number of [k] bytes and the rest. *)
Definition take_num (k : Z) (l : list Z) : option (Z * list Z) :=
  match take k l with
  | Some (h, t) => Some (unbe h, t)
  | None => None
  end.

(** [n] values one after the other, read with [d]. *)
Fixpoint dec_many (d : list Z -> option (mval * list Z)) (n : nat) (l : list Z)
  : option (list mval * list Z) :=
  match n with
  | O => Some ([], l)
  | S n' =>
      match d l with
      | None => None
      | Some (v, l') =>
          match dec_many d n' l' with
          | None => None
          | Some (vs, l'') => Some (v :: vs, l'')
          end
      end
  end.

(** [rmp_serde::from_slice] (wasm.rs 157-162), one value from the front of the
    buffer; the fuel bounds the nesting, which cannot exceed the number of bytes.
    Simplification: the library's own nesting limit is not modelled. *)
Fixpoint dec (fuel : nat) (l : list Z) : option (mval * list Z) :=
  match fuel with
  | O => None
  | S f =>
      match l with
      | [] => None
      | b :: t =>
          let str k := match take_num k t with
                       | None => None
                       | Some (n, t') =>
                           match take n t' with
                           | None => None
                           | Some (s, t'') => Some (MStr s, t'')
                           end
                       end in
          let uint k := match take_num k t with
                        | None => None
                        | Some (n, t') => Some (MInt n, t')
                        end in
          let sint k := match take_num k t with
                        | None => None
                        | Some (n, t') => Some (MInt (signed (8 * k) n), t')
                        end in
          let many n t' := if n <=? zlen t' then
                             match dec_many (dec f) (Z.to_nat n) t' with
                             | None => None
                             | Some (vs, t'') => Some (MArr vs, t'')
                             end
                           else None in
          let arr k := match take_num k t with
                       | None => None
                       | Some (n, t') => many n t'
                       end in
          if b <? 128 then Some (MInt b, t)
          else if b <? 144 then None
          else if b <? 160 then many (b - 144) t
          else if b <? 192 then
            match take (b - 160) t with
            | None => None
            | Some (s, t') => Some (MStr s, t')
            end
          else if b =? 192 then Some (MNil, t)
          else if b =? 194 then Some (MBool false, t)
          else if b =? 195 then Some (MBool true, t)
          else if b =? 202 then
            match take_num 4 t with
            | None => None
            | Some (n, t') => Some (MF32 n, t')
            end
          else if b =? 203 then
            match take_num 8 t with
            | None => None
            | Some (n, t') => Some (MF64 n, t')
            end
          else if b =? 204 then uint 1
          else if b =? 205 then uint 2
          else if b =? 206 then uint 4
          else if b =? 207 then uint 8
          else if b =? 208 then sint 1
          else if b =? 209 then sint 2
          else if b =? 210 then sint 4
          else if b =? 211 then sint 8
          else if b =? 217 then str 1
          else if b =? 218 then str 2
          else if b =? 219 then str 4
          else if b =? 220 then arr 2
          else if b =? 221 then arr 4
          else if b <? 224 then None
          else Some (MInt (b - 256), t)
      end
  end.

Definition decode_buffer (buf : list Z) : option mval :=
  match dec (S (length buf)) buf with
  | Some (v, _) => Some v
  | None => None
  end.

(* ------------------------------------------------------------------ *)
(** * Types *)

(** [CreateFunctionDataType], data_types.rs 39-63. *)
Inductive ftype : Type :=
| FI32 | FI64 | FF32 | FF64
| FSMALLINT | FINT | FBIGINT
| FCHAR | FVARCHAR | FTEXT
| FDECIMAL (precision scale : Z)
| FFLOAT | FREAL | FDOUBLE
| FBOOLEAN | FDATE | FTIMESTAMP.

(** The Arrow types a column of a function can have, wasm.rs 38-64. *)
Inductive atype : Type :=
| AInt16 | AInt32 | AInt64 | AFloat32 | AFloat64
| AUtf8 | ADecimal (precision scale : Z) | ABoolean | ADate32 | ATimestamp.

(** [sql_type_to_arrow_type], wasm.rs 38-64. *)
Definition arrow_type (t : ftype) : atype :=
  match t with
  | FI32 | FINT => AInt32
  | FI64 | FBIGINT => AInt64
  | FF32 | FFLOAT | FREAL => AFloat32
  | FF64 | FDOUBLE => AFloat64
  | FSMALLINT => AInt16
  | FCHAR | FVARCHAR | FTEXT => AUtf8
  | FDECIMAL p s => ADecimal p s
  | FBOOLEAN => ABoolean
  | FDATE => ADate32
  | FTIMESTAMP => ATimestamp
  end.

(** One element of a value buffer. *)
Inductive scal : Type :=
| XInt (z : Z)
| XF32 (bits : Z)
| XF64 (bits : Z)
| XText (s : list Z)
| XBool (b : bool)
| XDec (z : Z).

(** One row of an Arrow array: the validity bit, and what the value buffer holds
    at that position, which exists for NULL rows too. *)
Record slot : Type := mkSlot { s_valid : bool; s_val : scal }.

(** An Arrow array, and [ColumnarValue]. *)
Record array : Type := mkArray { a_type : atype; a_slots : list slot }.
Inductive cval : Type :=
| CArray (a : array)
| CScalar (t : atype) (s : slot).

(** Facts about text and floating point the code gets from elsewhere:
    [Utf8String::as_str] is [Some] only for valid UTF-8, and [Value::as_f64]
    converts integers and 32-bit floats. *)
Record world : Type := mkWorld {
  w_utf8 : list Z -> bool;
  w_f64_of_int : Z -> Z;
  w_f64_of_f32 : Z -> Z
}.

(* ------------------------------------------------------------------ *)
(** * From columns to MessagePack *)

Definition atype_eqb (a b : atype) : bool :=
  match a, b with
  | AInt16, AInt16 | AInt32, AInt32 | AInt64, AInt64 => true
  | AFloat32, AFloat32 | AFloat64, AFloat64 => true
  | AUtf8, AUtf8 | ABoolean, ABoolean | ADate32, ADate32 | ATimestamp, ATimestamp => true
  | ADecimal _ _, ADecimal _ _ => true   (* the downcast ignores the parameters *)
  | _, _ => false
  end.

(** [get_arrow_value] (wasm.rs 242-261) and the same steps for text and booleans
    (289-315): the column is cast to an array of the expected type, and
    [arr.value(row_ix)] reads the value buffer; an index outside it panics.  The
    validity bit is not looked at. *)
Definition get_value (t : atype) (args : list array) (row col : nat) : outcome scal :=
  match nth_error args col with
  | None => UPanic
  | Some a =>
      if atype_eqb (a_type a) t then
        match nth_error (a_slots a) row with
        | None => UPanic
        | Some s => UOk (s_val s)
        end
      else UErr
  end.

Definition two64 : Z := 2 ^ 64.

(** [v as i64]: the low 64 bits, in two's complement. *)
Definition as_i64 (z : Z) : Z := signed 64 (z mod two64).

(** [Value::from] for each kind of element; a decimal becomes precision, scale,
    high half and low half (wasm.rs 329-343). *)
Definition value_from (t : ftype) (x : scal) : mval :=
  match t, x with
  | FDECIMAL p s, XDec v =>
      MArr [MInt p; MInt s; MInt (as_i64 (v / two64)); MInt (as_i64 v)]
  | _, XInt z => MInt z
  | _, XF32 b => MF32 b
  | _, XF64 b => MF64 b
  | _, XText s => MStr s
  | _, XBool b => MBool b
  | _, XDec z => MInt z
  end.

(** [messagepack_encode_input_value], wasm.rs 263-355. *)
Definition encode_input (t : ftype) (args : list array) (row col : nat)
  : outcome mval :=
  obind (get_value (arrow_type t) args row col) (fun x => UOk (value_from t x)).

(* ------------------------------------------------------------------ *)
(** * From MessagePack to columns *)

(** [Value::as_i64], [as_u64]. *)
Definition m_i64 (v : mval) : option Z :=
  match v with
  | MInt z => if (- 2 ^ 63 <=? z) && (z <? 2 ^ 63) then Some z else None
  | _ => None
  end.
Definition m_u64 (v : mval) : option Z :=
  match v with
  | MInt z => if (0 <=? z) && (z <? 2 ^ 64) then Some z else None
  | _ => None
  end.

(** [as_i64().ok_or(..)], then [iN::try_from], wasm.rs 376-420, 437-463. *)
Definition dec_int (bits : Z) (v : mval) : outcome scal :=
  match m_i64 v with
  | None => UErr
  | Some z =>
      if (- 2 ^ (bits - 1) <=? z) && (z <? 2 ^ (bits - 1)) then UOk (XInt z)
      else UErr
  end.

(** [(low as i128) + ((high as i128) << 64)], wasm.rs 524, in 128-bit arithmetic. *)
Definition join_halves (high low : Z) : Z :=
  signed 128 ((low + high * two64) mod 2 ^ 128).

(** One decimal result, wasm.rs 497-526. *)
Definition dec_decimal (p s : Z) (v : mval) : outcome scal :=
  match v with
  | MArr [vp; vs; vh; vl] =>
      match m_u64 vp with
      | None => UErr
      | Some p' =>
          if negb (p' <? 256) then UErr
          else if negb (p' =? p) then UErr
          else
            match m_u64 vs with
            | None => UErr
            | Some s' =>
                if negb (s' <? 128) then UErr
                else if negb (s' =? s) then UErr
                else
                  match m_i64 vh with
                  | None => UErr
                  | Some h =>
                      match m_i64 vl with
                      | None => UErr
                      | Some l => UOk (XDec (join_halves h l))
                      end
                  end
            end
      end
  | _ => UErr
  end.

(** One result of each type, wasm.rs 371-538. *)
Definition decode_value (w : world) (t : ftype) (v : mval) : outcome scal :=
  match t with
  | FSMALLINT => dec_int 16 v
  | FI32 | FINT => dec_int 32 v
  | FI64 | FBIGINT => dec_int 64 v
  | FCHAR | FVARCHAR | FTEXT =>
      match v with
      | MStr s => if w_utf8 w s then UOk (XText s) else UErr
      | _ => UErr
      end
  | FDATE => dec_int 32 v
  | FTIMESTAMP => dec_int 64 v
  | FBOOLEAN => match v with MBool b => UOk (XBool b) | _ => UErr end
  | FF64 | FDOUBLE =>
      match v with
      | MF64 b => UOk (XF64 b)
      | MF32 b => UOk (XF64 (w_f64_of_f32 w b))
      | MInt z => UOk (XF64 (w_f64_of_int w z))
      | _ => UErr
      end
  | FF32 | FREAL | FFLOAT => match v with MF32 b => UOk (XF32 b) | _ => UErr end
  | FDECIMAL p s => dec_decimal p s v
  end.

(** [collect::<Result<..>>]: the first error ends it. *)
Fixpoint omap {A B : Type} (f : A -> outcome B) (l : list A) : outcome (list B) :=
  match l with
  | [] => UOk []
  | x :: t => obind (f x) (fun y => obind (omap f t) (fun ys => UOk (y :: ys)))
  end.

(** [Decimal128Array::with_precision_and_scale] accepts a precision from 1 to 38
    and a scale up to 38 and up to the precision when positive. *)
Definition decimal_ok (p s : Z) : bool :=
  (1 <=? p) && (p <=? 38) && (s <=? 38) && (negb (0 <? s) || (s <=? p)).

(** [messagepack_decode_results], wasm.rs 371-538: every row of the result is
    valid ([Some(..)]). *)
Definition decode_results (w : world) (t : ftype) (vs : list mval) : outcome array :=
  obind (omap (decode_value w t) vs) (fun xs =>
    let a := mkArray (arrow_type t) (map (mkSlot true) xs) in
    match t with
    | FDECIMAL p s => if decimal_ok p s then UOk a else UErr
    | _ => UOk a
    end).

(* ------------------------------------------------------------------ *)
(** * Calling a module *)

(** What a module instance consists of between two calls: its linear memory and
    whatever else it keeps (globals, allocator state). *)
Record store (G : Type) : Type := mkStore { st_mem : list Z; st_glob : G }.
Arguments mkStore {G} st_mem st_glob.
Arguments st_mem {G} s.
Arguments st_glob {G} s.

(** [Memory::read] and [Memory::write]: an error if the range is not inside the
    memory. *)
Definition mread (m : list Z) (p n : Z) : option (list Z) :=
  if p + n <=? zlen m then Some (firstn (Z.to_nat n) (skipn (Z.to_nat p) m)) else None.
Definition mwrite (m : list Z) (p : Z) (bs : list Z) : option (list Z) :=
  if p + zlen bs <=? zlen m then
    Some (firstn (Z.to_nat p) m ++ bs ++ skipn (Z.to_nat p + length bs) m)
  else None.

(** The functions the host calls, wasm.rs 84-90; [None] is a trap. *)
Record wmodule (G : Type) : Type := mkModule {
  m_init : store G;
  m_alloc : store G -> Z -> option (store G * Z);
  m_dealloc : store G -> Z -> Z -> option (store G);
  m_udf : store G -> Z -> option (store G * Z)
}.
Arguments m_init {G} w.
Arguments m_alloc {G} w s n.
Arguments m_dealloc {G} w s p n.
Arguments m_udf {G} w s p.

Definition two31 : Z := 2 ^ 31.

(** [SIZE_BYTE_COUNT], wasm.rs 37: four bytes of [i32]. *)
Definition size_bytes : Z := 4.

(** [write_udf_input], wasm.rs 168-213: the size that is allocated has four
    bytes for the length, the length is written as eight bytes of [usize]. *)
Definition write_udf_input {G : Type} (m : wmodule G) (st : store G) (v : mval)
  : outcome (store G * Z * Z) :=
  let buf := enc v in
  let size := zlen buf + size_bytes in
  if negb (size <? two31) then UPanic
  else
    match m_alloc m st size with
    | None => UErr
    | Some (st1, p) =>
        if p <? 0 then UPanic
        else
          match mwrite (st_mem st1) p (le 8 (zlen buf)) with
          | None => UErr
          | Some mem2 =>
              match mwrite mem2 (p + size_bytes) buf with
              | None => UErr
              | Some mem3 => UOk (mkStore mem3 (st_glob st1), p, size)
              end
          end
    end.

(** [read_udf_output], wasm.rs 130-166. *)
Definition read_udf_output {G : Type} (st : store G) (p : Z) : outcome (mval * Z) :=
  if p <? 0 then UPanic
  else
    match mread (st_mem st) p size_bytes with
    | None => UErr
    | Some b4 =>
        let size := signed 32 (unle b4) in
        if size <? 0 then UErr
        else
          match mread (st_mem st) (p + size_bytes) size with
          | None => UErr
          | Some buf =>
              match decode_buffer buf with
              | None => UErr
              | Some v =>
                  if size + size_bytes <? two31 then UOk (v, size + size_bytes)
                  else UPanic
              end
          end
    end.

(** [call], wasm.rs 215-240. *)
Definition call {G : Type} (m : wmodule G) (st : store G) (input : list mval)
  : outcome (store G * mval) :=
  obind (write_udf_input m st (MArr input)) (fun '(st1, p, size) =>
    match m_udf m st1 p with
    | None => UErr
    | Some (st2, q) =>
        obind (read_udf_output st2 q) (fun '(v, osize) =>
          match m_dealloc m st2 p size with
          | None => UErr
          | Some st3 =>
              match m_dealloc m st3 q osize with
              | None => UErr
              | Some st4 => UOk (st4, v)
              end
          end)
    end).

(* ------------------------------------------------------------------ *)
(** * Applying a function to columns *)

(** [columnar_values_to_array], wasm.rs 540-555: the length is the largest one,
    a scalar counts as one row; arrays keep their own length. *)
Definition cval_len (c : cval) : nat :=
  match c with CArray a => length (a_slots a) | CScalar _ _ => 1%nat end.
Definition inferred_length (args : list cval) : nat :=
  fold_right Nat.max 0%nat (map cval_len args).
Definition into_array (n : nat) (c : cval) : array :=
  match c with CArray a => a | CScalar t s => mkArray t (repeat s n) end.
Definition to_arrays (args : list cval) : list array :=
  map (into_array (inferred_length args)) args.

(** The values of one row, wasm.rs 596-606. *)
Definition encode_row (tys : list ftype) (args : list array) (row : nat)
  : outcome (list mval) :=
  omap (fun '(col, t) => encode_input t args row col)
       (combine (seq 0 (length args)) tys).

(** The loop over the rows, wasm.rs 593-613: one instance serves all of them. *)
Fixpoint run_rows {G : Type} (m : wmodule G) (tys : list ftype) (args : list array)
         (rows : list nat) (st : store G) : outcome (list mval) :=
  match rows with
  | [] => UOk []
  | r :: rs =>
      obind (encode_row tys args r) (fun params =>
      obind (call m st params) (fun '(st', v) =>
      obind (run_rows m tys args rs st') (fun vs => UOk (v :: vs))))
  end.

(** The closure of [make_scalar_function_wasm_messagepack], wasm.rs 574-620: a
    fresh instance for every batch. *)
Definition udf_messagepack {G : Type} (w : world) (m : wmodule G)
           (tys : list ftype) (ret : ftype) (args : list cval) : outcome array :=
  if negb (length args =? length tys)%nat then UErr
  else
    let arrays := to_arrays args in
    match arrays with
    | [] => UPanic
    | a :: _ =>
        obind (run_rows m tys arrays (seq 0 (length (a_slots a))) (m_init m)) (fun vs =>
          decode_results w ret vs)
    end.

(* ------------------------------------------------------------------ *)
(** * Functions of language 'wasm' *)

(** [wasmtime::ValType] and [Val], the four kinds in use. *)
Inductive vtype : Type := VI32 | VI64 | VF32 | VF64.
Inductive wval : Type := WI32 (z : Z) | WI64 (z : Z) | WF32 (b : Z) | WF64 (b : Z).
Definition wval_type (v : wval) : vtype :=
  match v with WI32 _ => VI32 | WI64 _ => VI64 | WF32 _ => VF32 | WF64 _ => VF64 end.
Definition vtype_eqb (a b : vtype) : bool :=
  match a, b with
  | VI32, VI32 | VI64, VI64 | VF32, VF32 | VF64, VF64 => true
  | _, _ => false
  end.
Fixpoint vtypes_eqb (a b : list vtype) : bool :=
  match a, b with
  | [], [] => true
  | x :: a', y :: b' => vtype_eqb x y && vtypes_eqb a' b'
  | _, _ => false
  end.

(** [get_wasm_type], data_types.rs 11-29. *)
Definition get_wasm_type (t : ftype) : option vtype :=
  match t with
  | FI32 | FINT => Some VI32
  | FI64 | FBIGINT => Some VI64
  | FF32 | FFLOAT | FREAL => Some VF32
  | FF64 | FDOUBLE => Some VF64
  | _ => None
  end.

(** An exported function: the type it has in the module, and what it does to the
    instance; [None] is a trap.  By validation of the module the results have the
    declared types. *)
Record nfunc (G : Type) : Type := mkFunc {
  n_params : list vtype;
  n_results : list vtype;
  n_run : G -> list wval -> option (G * list wval)
}.
Arguments n_params {G} n.
Arguments n_results {G} n.
Arguments n_run {G} n g l.

(** A module: [None] for bytes that cannot be loaded or instantiated; otherwise
    the state of a new instance and its exports. *)
Record nmodule (G Name : Type) : Type := mkNModule {
  nm_init : G;
  nm_export : Name -> option (nfunc G)
}.
Arguments nm_init {G Name} n.
Arguments nm_export {G Name} n x.

(** [func.call] with room for one result (wasm.rs 717): wasmtime compares the
    arguments and the number of results with the type of the function. *)
Definition func_call {G : Type} (f : nfunc G) (g : G) (ps : list wval)
  : outcome (G * wval) :=
  if negb (vtypes_eqb (map wval_type ps) (n_params f)) then UErr
  else if negb (length (n_results f) =? 1)%nat then UErr
  else
    match n_run f g ps with
    | Some (g', [v]) => UOk (g', v)
    | _ => UErr
    end.

(** One argument, wasm.rs 688-713. *)
Definition to_wval (t : vtype) (args : list array) (row col : nat) : outcome wval :=
  match t with
  | VI32 => obind (get_value AInt32 args row col)
                  (fun x => match x with XInt z => UOk (WI32 z) | _ => UErr end)
  | VI64 => obind (get_value AInt64 args row col)
                  (fun x => match x with XInt z => UOk (WI64 z) | _ => UErr end)
  | VF32 => obind (get_value AFloat32 args row col)
                  (fun x => match x with XF32 b => UOk (WF32 b) | _ => UErr end)
  | VF64 => obind (get_value AFloat64 args row col)
                  (fun x => match x with XF64 b => UOk (WF64 b) | _ => UErr end)
  end.

Definition native_row (tys : list vtype) (args : list array) (row : nat)
  : outcome (list wval) :=
  omap (fun '(col, t) => to_wval t args row col)
       (combine (seq 0 (length args)) tys).

(** The loop, wasm.rs 683-722. *)
Fixpoint native_rows {G : Type} (f : nfunc G) (tys : list vtype) (args : list array)
         (rows : list nat) (g : G) : outcome (list wval) :=
  match rows with
  | [] => UOk []
  | r :: rs =>
      obind (native_row tys args r) (fun ps =>
      obind (func_call f g ps) (fun '(g', v) =>
      obind (native_rows f tys args rs g') (fun vs => UOk (v :: vs))))
  end.

(** [unwrap_i32] and so on, wasm.rs 729-756: a value of another kind panics. *)
Definition unwrap_val (t : vtype) (v : wval) : outcome scal :=
  match t, v with
  | VI32, WI32 z => UOk (XInt z)
  | VI64, WI64 z => UOk (XInt z)
  | VF32, WF32 b => UOk (XF32 b)
  | VF64, WF64 b => UOk (XF64 b)
  | _, _ => UPanic
  end.
Definition vtype_arrow (t : vtype) : atype :=
  match t with VI32 => AInt32 | VI64 => AInt64 | VF32 => AFloat32 | VF64 => AFloat64 end.

(** The closure of [make_scalar_function_from_wasm], wasm.rs 654-762. *)
Definition udf_native {G Name : Type} (m : nmodule G Name) (name : Name)
           (tys : list vtype) (ret : vtype) (args : list cval) : outcome array :=
  match nm_export m name with
  | None => UErr
  | Some f =>
      if negb (length args =? length tys)%nat then UPanic
      else
        let arrays := to_arrays args in
        match arrays with
        | [] => UPanic
        | a :: _ =>
            obind (native_rows f tys arrays (seq 0 (length (a_slots a))) (nm_init m))
              (fun vs =>
                obind (omap (unwrap_val ret) vs) (fun xs =>
                  UOk (mkArray (vtype_arrow ret) (map (mkSlot true) xs))))
        end
  end.

(** [input_types.iter().map(|t| get_wasm_type(t).unwrap())], wasm.rs 783-786. *)
Fixpoint convert_types (tys : list ftype) : outcome (list vtype) :=
  match tys with
  | [] => UOk []
  | t :: r =>
      match get_wasm_type t with
      | None => UPanic
      | Some v => obind (convert_types r) (fun vs => UOk (v :: vs))
      end
  end.

(** [create_udf_from_wasm] for language 'wasm', wasm.rs 767-794 and 628-648: what
    is checked before the function is registered; the result is the function
    that queries call. *)
Definition create_native {G Name : Type} (m : option (nmodule G Name)) (name : Name)
           (tys : list ftype) (ret : ftype)
  : outcome (list cval -> outcome array) :=
  obind (convert_types tys) (fun vtys =>
    match get_wasm_type ret with
    | None => UErr
    | Some vret =>
        match m with
        | None => UErr
        | Some nm =>
            match nm_export nm name with
            | None => UErr
            | Some _ => UOk (udf_native nm name vtys vret)
            end
        end
    end).

(** The types a statement can name: [CreateFunctionDataType::from_str] on the
    upper-case text (data_types.rs 86-90).  The variant [DECIMAL] has fields, and
    the derived parser fills them with their defaults, zero. *)
Definition named_decimal : ftype := FDECIMAL 0 0.
