(* What the properties of the cache of object stores mean (the types of StoreModel.v are used). *)
From Coq Require Import Ascii String List NArith Bool.
From Verif Require Import StoreModel.
Import ListNotations.

(* A HashMap has every key once *)
Definition is_map (o : list (string * string)) : Prop := NoDup (map fst o).
(* The same options, in whatever order: every name has the same value in both, or is in neither *)
Definition same_options (a b : list (string * string)) : Prop := forall name value, In (name, value) a <-> In (name, value) b.
Definition same_request (a b : key) : Prop := url a = url b /\ same_options (opts a) (opts b).
(* The requests of a schedule are made with maps *)
Definition requests_ok (l : list event) : Prop := forall k, In (Ask k) l -> is_map (opts k).
