(* The vectors of the unit tests of is_schema_aligned (/repo/src/context/iceberg.rs:421-620), replayed through IceModel.v. These are tests of the
   model, not proofs. Types: 0 string, 1 int, 2 boolean. Names: numbers. *)
From Coq Require Import List Bool.
From Verif Require Import IceModel.
Import ListNotations.
(* Field::new(name, type, nullable); NestedField::{required, optional}(id, name, type) *)
Definition arrow (name type : nat) (nullable : bool) : column := {| c_name := name; c_required := negb nullable; c_type := type |}.
Definition ice (id name type : nat) (req : bool) : field := {| fid := id; fname := name; required := req; ftype := type |}.
Definition abc (a b c : bool) : list field := [ice 1 10 0 a; ice 2 11 1 b; ice 3 12 2 c].
Example aligned :
  is_schema_aligned [arrow 10 0 false; arrow 11 1 false; arrow 12 2 false] (abc false true false) = true /\        (* positive *)
  is_schema_aligned [arrow 20 0 false; arrow 21 1 false; arrow 22 2 false] (abc true true true) = true /\          (* positive_renamed *)
  is_schema_aligned [arrow 10 0 false; arrow 11 1 false; arrow 12 2 false] (abc false false false) = true /\       (* positive_nonnullable *)
  is_schema_aligned [arrow 10 0 false; arrow 11 1 false; arrow 12 2 false; arrow 13 2 false] (abc true true true) = false /\   (* negative_added_field *)
  is_schema_aligned [arrow 10 0 false; arrow 11 1 false; arrow 12 1 false] (abc true true true) = false /\         (* negative_different_type *)
  is_schema_aligned [arrow 11 1 false; arrow 10 0 false; arrow 12 2 false] (abc true true true) = false /\         (* negative_reordered *)
  is_schema_aligned [arrow 10 0 true; arrow 11 1 false; arrow 12 2 false] (abc true true true) = false.            (* negative_nullable *)
Proof. repeat split. Qed.
