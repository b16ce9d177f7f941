(** The bytes of MessagePack, as its published format describes them, for C159:
    which byte sequences stand for a value.  Nothing here refers to how the host
    writes or reads them: only the type of values [mval] is taken from the model. *)
From Coq Require Import List ZArith.
From Verif Require Import UdfModel UdfSpec.
Import ListNotations.
Open Scope Z_scope.

Definition byte (b : Z) : Prop := 0 <= b <= 255.

(** [bs] are [k] bytes that spell [n], the most significant first. *)
Definition big (k : nat) (n : Z) (bs : list Z) : Prop :=
  length bs = k /\ Forall byte bs /\ n = fold_left (fun a b => 256 * a + b) bs 0.

(** [n] is the number of [k] bytes [u] read in two's complement. *)
Definition twos (k : nat) (u n : Z) : Prop :=
  (u < 2 ^ (8 * Z.of_nat k - 1) /\ n = u) \/
  (2 ^ (8 * Z.of_nat k - 1) <= u /\ n = u - 2 ^ (8 * Z.of_nat k)).

(** The format.  A value may have several encodings: a small number may be
    written with many bytes. *)
Inductive packed : mval -> list Z -> Prop :=
| pk_nil : packed MNil [192]
| pk_false : packed (MBool false) [194]
| pk_true : packed (MBool true) [195]
| pk_small n : 0 <= n <= 127 -> packed (MInt n) [n]
| pk_negative n : -32 <= n <= -1 -> packed (MInt n) [256 + n]
| pk_unsigned tag k n bs :
    In (tag, k) [(204, 1%nat); (205, 2%nat); (206, 4%nat); (207, 8%nat)] ->
    big k n bs -> packed (MInt n) (tag :: bs)
| pk_signed tag k n u bs :
    In (tag, k) [(208, 1%nat); (209, 2%nat); (210, 4%nat); (211, 8%nat)] ->
    big k u bs -> twos k u n -> packed (MInt n) (tag :: bs)
| pk_f32 n bs : big 4 n bs -> packed (MF32 n) (202 :: bs)
| pk_f64 n bs : big 8 n bs -> packed (MF64 n) (203 :: bs)
| pk_short s : zlen s <= 31 -> packed (MStr s) (160 + zlen s :: s)
| pk_text tag k s bs :
    In (tag, k) [(217, 1%nat); (218, 2%nat); (219, 4%nat)] ->
    big k (zlen s) bs -> packed (MStr s) (tag :: bs ++ s)
| pk_few l body : zlen l <= 15 -> packs l body -> packed (MArr l) (144 + zlen l :: body)
| pk_list tag k l bs body :
    In (tag, k) [(220, 2%nat); (221, 4%nat)] ->
    big k (zlen l) bs -> packs l body -> packed (MArr l) (tag :: bs ++ body)
with packs : list mval -> list Z -> Prop :=
| pks_nil : packs [] []
| pks_cons v l bs body : packed v bs -> packs l body -> packs (v :: l) (bs ++ body).

(** What a function receives for a value of a declared type: numbers, floating
    point numbers, text and truth values as they are, and a decimal as the list of
    its precision, its scale and the two 64 bit words of its two's complement,
    the high word first. *)
Inductive wire : ftype -> scal -> mval -> Prop :=
| wi_int t z : In t [FI32; FI64; FSMALLINT; FINT; FBIGINT; FDATE; FTIMESTAMP] ->
    wire t (XInt z) (MInt z)
| wi_f32 t b : In t [FF32; FFLOAT; FREAL] -> wire t (XF32 b) (MF32 b)
| wi_f64 t b : In t [FF64; FDOUBLE] -> wire t (XF64 b) (MF64 b)
| wi_text t s : In t [FCHAR; FVARCHAR; FTEXT] -> wire t (XText s) (MStr s)
| wi_bool b : wire FBOOLEAN (XBool b) (MBool b)
| wi_dec p s v high low u :
    (* [v] is [high] times 2^64 plus the word [u], shown signed as [low] *)
    v = high * 2 ^ 64 + u -> 0 <= u < 2 ^ 64 -> twos 8 u low ->
    wire (FDECIMAL p s) (XDec v) (MArr [MInt p; MInt s; MInt high; MInt low]).

(** A module that follows the protocol and computes [F]: called with a pointer to
    the length and some encoding of a list of arguments, it answers, if it
    answers, with a pointer to the length and some encoding of the value. *)
Definition speaks {G : Type} (m : wmodule G) (F : list mval -> mval) : Prop :=
  forall st st' p q args bs,
    packed (MArr args) bs ->
    holds (st_mem st) p bs ->
    m_udf m st p = Some (st', q) ->
    exists bs', packed (F args) bs' /\ holds (st_mem st') q bs'.

(** The arguments of row [i], in wire form. *)
Definition row_on_wire (tys : list ftype) (args : list cval) (i : nat)
  (vs : list mval) : Prop :=
  Forall2 (fun '(c, t) v => exists s, arg_at c i = Some s /\ wire t (s_val s) v)
          (combine args tys) vs.

(** What a row of the result is, for a value the function returned: the scalar the
    value stands for, of the declared type; a DOUBLE may also come as an integer or
    a 32-bit number. *)
Definition answer (w : world) (t : ftype) (v : mval) (x : scal) : Prop :=
  (wire t x v /\ match t, x with
                 | (FF32 | FFLOAT | FREAL | FF64 | FDOUBLE), _ => True
                 | _, _ => fits w t x \/ exists s, x = XText s /\ w_utf8 w s = true
                 end) \/
  (In t [FF64; FDOUBLE] /\
   ((exists z, v = MInt z /\ x = XF64 (w_f64_of_int w z)) \/
    (exists b, v = MF32 b /\ x = XF64 (w_f64_of_f32 w b)))).
