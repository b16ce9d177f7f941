(** Specification vocabulary for user defined functions (C58, C59, C60, C89,
    C90), independent of how the host passes values. *)
From Coq Require Import List ZArith Bool.
From Verif Require Import UdfModel.
Import ListNotations.
Open Scope Z_scope.

(** The values a column of each SQL type can hold.  Text is valid UTF-8 of less
    than 4 GB; a decimal of precision [p] has at most [p] digits. *)
Definition fits (w : world) (t : ftype) (x : scal) : Prop :=
  match t, x with
  | FSMALLINT, XInt z => - 2 ^ 15 <= z < 2 ^ 15
  | (FI32 | FINT | FDATE), XInt z => - 2 ^ 31 <= z < 2 ^ 31
  | (FI64 | FBIGINT | FTIMESTAMP), XInt z => - 2 ^ 63 <= z < 2 ^ 63
  | (FF32 | FFLOAT | FREAL), XF32 b => 0 <= b < 2 ^ 32
  | (FF64 | FDOUBLE), XF64 b => 0 <= b < 2 ^ 64
  | (FCHAR | FVARCHAR | FTEXT), XText s => w_utf8 w s = true /\ zlen s < 2 ^ 32
  | FBOOLEAN, XBool _ => True
  | FDECIMAL p _, XDec v => - 10 ^ p < v < 10 ^ p
  | _, _ => False
  end.

Definition is_decimal (t : ftype) : bool :=
  match t with FDECIMAL _ _ => true | _ => false end.

(** What SQL sees in a row of an array: NULL or a value. *)
Definition sql_value (s : slot) : option scal :=
  if s_valid s then Some (s_val s) else None.
Definition sql_column (a : array) : list (option scal) := map sql_value (a_slots a).

(** A column of type [t] made of the given values. *)
Definition column (t : ftype) (xs : list (option scal)) (filler : scal) : array :=
  mkArray (arrow_type t)
          (map (fun o => match o with
                         | Some x => mkSlot true x
                         | None => mkSlot false filler
                         end) xs).

(** At address [p] the memory holds the four byte length of [bs], an [i32], least
    byte first, then [bs]. *)
Definition holds (mem : list Z) (p : Z) (bs : list Z) : Prop :=
  0 <= p /\ p + 4 + zlen bs <= zlen mem /\ zlen bs < 2 ^ 31 /\
  (forall i, (i < 4)%nat ->
     nth_error mem (Z.to_nat p + i)
     = Some ((zlen bs / 256 ^ Z.of_nat i) mod 256)) /\
  (forall i, (i < length bs)%nat ->
     nth_error mem (Z.to_nat p + 4 + i) = nth_error bs i).

(** The MessagePack values the format can represent. *)
Inductive representable : mval -> Prop :=
| rep_nil : representable MNil
| rep_bool b : representable (MBool b)
| rep_int z : - 2 ^ 63 <= z < 2 ^ 64 -> representable (MInt z)
| rep_f32 b : 0 <= b < 2 ^ 32 -> representable (MF32 b)
| rep_f64 b : 0 <= b < 2 ^ 64 -> representable (MF64 b)
| rep_str s : zlen s < 2 ^ 32 -> representable (MStr s)
| rep_arr l : zlen l < 2 ^ 32 -> Forall representable l -> representable (MArr l).

(** The module computes [F]: whenever it is called with a pointer to the
    length-prefixed encoding of an argument list, and returns, it returns a
    pointer to the length-prefixed encoding of the value of [F]. *)
Definition computes {G : Type} (m : wmodule G) (F : list mval -> mval) : Prop :=
  (forall args, Forall representable args -> zlen args < 2 ^ 32 -> representable (F args)) /\
  forall st st' p q args,
    Forall representable args ->
    holds (st_mem st) p (enc (MArr args)) ->
    m_udf m st p = Some (st', q) ->
    holds (st_mem st') q (enc (F args)).

(** The module returns its (first) argument unchanged. *)
Definition echoes {G : Type} (m : wmodule G) : Prop :=
  forall st st' p q v,
    representable v ->
    holds (st_mem st) p (enc (MArr [v])) ->
    m_udf m st p = Some (st', q) ->
    holds (st_mem st') q (enc v).

(** A batch: every array has [n] rows; scalars stand for every row. *)
Definition batch_of (n : nat) (args : list cval) : Prop :=
  Forall (fun c => match c with
                   | CArray a => length (a_slots a) = n
                   | CScalar _ _ => True
                   end) args.

(** The value an argument has in row [i]: scalars are broadcast. *)
Definition arg_at (c : cval) (i : nat) : option slot :=
  match c with
  | CArray a => nth_error (a_slots a) i
  | CScalar _ s => Some s
  end.
Definition cval_type (c : cval) : atype :=
  match c with CArray a => a_type a | CScalar t _ => t end.

Definition is_scalar (c : cval) : bool :=
  match c with CScalar _ _ => true | CArray _ => false end.

(** The number of rows of the result: one if there are only scalars. *)
Definition out_rows (n : nat) (args : list cval) : nat :=
  if forallb is_scalar args then 1%nat else n.

(** The arguments of row [i], as the function receives them: for each column the
    value in that row, in the wire form of the declared type. *)
Definition row_is (tys : list ftype) (args : list cval) (i : nat) (vs : list mval) : Prop :=
  Forall2 (fun '(c, t) v => exists s, arg_at c i = Some s /\ v = value_from t (s_val s))
          (combine args tys) vs.

(** A module that never misbehaves in its bookkeeping: pointers are not negative
    and its memory stays under 2 GB. *)
Definition tame {G : Type} (m : wmodule G) : Prop :=
  (forall st n st' p, m_alloc m st n = Some (st', p) -> 0 <= p) /\
  (forall st p st' q, m_udf m st p = Some (st', q) -> 0 <= q /\ zlen (st_mem st') < 2 ^ 31).

(** The scalar of a native value and the native value of a scalar. *)
Definition native_is (t : vtype) (x : scal) (v : wval) : Prop :=
  match t, x, v with
  | VI32, XInt z, WI32 z' => z = z'
  | VI64, XInt z, WI64 z' => z = z'
  | VF32, XF32 b, WF32 b' => b = b'
  | VF64, XF64 b, WF64 b' => b = b'
  | _, _, _ => False
  end.

(** A function that does not depend on earlier calls: it always terminates with
    the value [F] gives, of the result type the module declares. *)
Definition pure_func {G : Type} (f : nfunc G) (r : vtype) (F : list wval -> wval) : Prop :=
  n_results f = [r] /\
  (forall ps, wval_type (F ps) = r) /\
  forall g ps, exists g', n_run f g ps = Some (g', [F ps]).

(** Validation of a module: results have the declared types. *)
Definition well_typed_func {G : Type} (f : nfunc G) : Prop :=
  forall g ps g' rs, n_run f g ps = Some (g', rs) -> map wval_type rs = n_results f.
