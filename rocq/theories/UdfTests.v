(* The vectors of the unit tests of functions in WebAssembly (/repo/src/wasm_udf/wasm.rs:1082-1545, data_types.rs:157-185), replayed through
   UdfModel.v and FunModel.v. These are tests of the model, not proofs. The module of the tests, messagepack_rust.wasm, is replaced by modules that
   do the same to the values. Floating point numbers are left out: the model has only their bits. *)
From Coq Require Import Ascii String List ZArith Bool.
From Verif Require FunModel.
From Verif Require Import UdfModel UdfSpec.
Import ListNotations.
Local Open Scope Z_scope.
(* A module that reads its arguments, calls [f] and writes the answer, as functions written with the project's Rust crate do *)
Definition answer (st : store unit) (buf : list Z) : option (store unit * Z) :=
  Some (mkStore (st_mem st ++ le 4 (zlen buf) ++ buf) tt, zlen (st_mem st)).
Definition module_of (f : list mval -> option (list Z)) : wmodule unit :=
  mkModule unit (mkStore [] tt)
    (fun st n => Some (mkStore (st_mem st ++ repeat 0 (Z.to_nat n + 8)) tt, zlen (st_mem st)))
    (fun st _ _ => Some st)
    (fun st p => match read_udf_output st p with
                 | UOk (MArr l, _) => match f l with Some buf => answer st buf | None => None end
                 | _ => None
                 end).
Definition w1 : world := mkWorld (fun _ => true) (fun z => z) (fun z => z).
Definition ints (t : ftype) (l : list Z) : cval := CArray (column t (map (fun z => Some (XInt z)) l) (XInt 0)).
Definition add (l : list mval) : option (list Z) := match l with [MInt a; MInt b] => Some (enc (MInt (a + b))) | _ => None end.
(* panic_if_negative(-1): a trap; write_garbage_output: a buffer that is not MessagePack (0xc1 is the byte that no value starts with) *)
Example trap :
  udf_messagepack w1 (module_of (fun l => match l with [MInt z] => if z <? 0 then None else Some (enc (MInt z)) | _ => None end)) [FINT] FINT
    [CScalar AInt32 (mkSlot true (XInt (-1)))] = UErr.
Proof. vm_compute. reflexivity. Qed.
Example unparseable_output :
  udf_messagepack w1 (module_of (fun _ => Some [193; 255])) [FINT] FINT [CScalar AInt32 (mkSlot true (XInt 1))] = UErr.
Proof. vm_compute. reflexivity. Qed.
(* add_i64 declared to return TEXT *)
Example unexpected_response_type :
  udf_messagepack w1 (module_of add) [FBIGINT; FBIGINT] FTEXT [CScalar AInt64 (mkSlot true (XInt 1)); CScalar AInt64 (mkSlot true (XInt 2))] = UErr.
Proof. vm_compute. reflexivity. Qed.
Example unexpected_arity :
  udf_messagepack w1 (module_of add) [FBIGINT; FBIGINT] FBIGINT [ints FBIGINT [1]; ints FBIGINT [2]; ints FBIGINT [3]] = UErr.
Proof. vm_compute. reflexivity. Qed.
Example add_integers :
  forallb (fun t => match udf_messagepack w1 (module_of add) [t; t] t [ints t [1; 3; 5; 7; 9]; ints t [2; 4; 6; 8; 10]] with
                    | UOk a => match map s_val (a_slots a) with
                               | [XInt 3; XInt 7; XInt 11; XInt 15; XInt 19] => forallb s_valid (a_slots a)
                               | _ => false
                               end
                    | _ => false
                    end) [FBIGINT; FINT; FSMALLINT] = true.
Proof. vm_compute. reflexivity. Qed.
(* add_hours: 2022-11-22T14:38:40.543717 and the epoch, in nanoseconds *)
Example timestamp :
  udf_messagepack w1 (module_of (fun l => match l with [MInt a; MInt b] => Some (enc (MInt (a + b * 3600000000000))) | _ => None end))
    [FTIMESTAMP; FINT] FTIMESTAMP [ints FTIMESTAMP [1669127920543717000; 1669127920543717000; 0]; ints FINT [2; 4; 6]] =
  UOk (column FTIMESTAMP [Some (XInt 1669135120543717000); Some (XInt 1669142320543717000); Some (XInt 21600000000000)] (XInt 0)).
Proof. vm_compute. reflexivity. Qed.
Example date :
  udf_messagepack w1 (module_of add) [FDATE; FINT] FDATE [ints FDATE [0; 19318; 19318]; ints FINT [2; 0; 1]] =
  UOk (column FDATE [Some (XInt 2); Some (XInt 19318); Some (XInt 19319)] (XInt 0)).
Proof. vm_compute. reflexivity. Qed.
Definition bools (l : list bool) : cval := CArray (column FBOOLEAN (map (fun b => Some (XBool b)) l) (XBool false)).
Example boolean :
  udf_messagepack w1 (module_of (fun l => match l with [MBool a; MBool b] => Some (enc (MBool (xorb a b))) | _ => None end))
    [FBOOLEAN; FBOOLEAN] FBOOLEAN [bools [true; true; false; false]; bools [true; false; true; false]] =
  UOk (column FBOOLEAN [Some (XBool false); Some (XBool true); Some (XBool true); Some (XBool false)] (XBool false)).
Proof. vm_compute. reflexivity. Qed.
(* increment_decimal: 0.01 and 16691927.02 of DECIMAL(20, 2) *)
Example increment_decimal :
  udf_messagepack w1 (module_of (fun l => match l with [MArr [p; s; h; MInt v]] => Some (enc (MArr [p; s; h; MInt (v + 100)])) | _ => None end))
    [FDECIMAL 20 2] (FDECIMAL 20 2) [CArray (column (FDECIMAL 20 2) [Some (XDec 1); Some (XDec 1669192702)] (XDec 0))] =
  UOk (column (FDECIMAL 20 2) [Some (XDec 101); Some (XDec 1669192802)] (XDec 0)).
Proof. vm_compute. reflexivity. Qed.
(* ('foo', 'bar'), ('big', 'int'), ('con', 'gress') *)
Definition bytes (s : string) : list Z := map (fun c => Z.of_nat (nat_of_ascii c)) (list_ascii_of_string s).
Definition texts (l : list string) : array := column FTEXT (map (fun s => Some (XText (bytes s))) l) (XText []).
Example concat2 :
  udf_messagepack w1 (module_of (fun l => match l with [MStr a; MStr b] => Some (enc (MStr (a ++ b))) | _ => None end))
    [FTEXT; FTEXT] FTEXT [CArray (texts ["foo"; "big"; "con"]%string); CArray (texts ["bar"; "int"; "gress"]%string)] =
  UOk (texts ["foobar"; "bigint"; "congress"]%string).
Proof. vm_compute. reflexivity. Qed.
(* test_create_function_details_parsing; the type names of test_register_udf (/repo/src/context/mod.rs) *)
Import FunModel.
Local Open Scope string_scope.
Example details_parsing :
  FunModel.parse_details (JObject [("entrypoint", JText true "some_function"); ("language", JText true "wasm");
                          ("input_types", JList [JText true "bigint"; JText true "bigint"; JText true "bigint"]);
                          ("return_type", JText true "bigint"); ("data", JText true "AGFzbQEAAAABGAVgA35")]) =
  Some {| entrypoint := "some_function"; lang := Wasm; input_types := [FBIGINT; FBIGINT; FBIGINT]; return_type := FBIGINT;
          data := "AGFzbQEAAAABGAVgA35"; vol := Volatile |}.
Proof. vm_compute. reflexivity. Qed.
Example register_udf :
  map FunModel.parse_type ["float"; "f32"; "FLOAT"; "REAL"; "int"] = [Some FFLOAT; Some FF32; Some FFLOAT; Some FREAL; Some FINT].
Proof. vm_compute. reflexivity. Qed.
