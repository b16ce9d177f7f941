(* What C145 means: a table created from a query holds the result of the query, or there is no table. *)
From Coq Require Import String List ZArith Bool.
From Verif Require Import CtasModel.
Import ListNotations.
Open Scope Z_scope.
Open Scope list_scope.

(* Nanoseconds per unit *)
Definition scale (u : unit_) : Z := match u with Sec => 1000000000 | Ms => 1000000 | Us => 1000 | Ns => 1 end.
(* What a value of a column means: a timestamp is a moment, in nanoseconds since 1970 *)
Inductive meaning := At (z : Z) | Value (v : value).
Definition means (t : ty) (v : value) : meaning := match t, v with Timestamp u _, Moment z => At (z * scale u) | _, _ => Value v end.
(* The rows of a query have a value for each column *)
Definition fits (fs : list (string * ty)) (rows : list (list value)) : Prop := Forall (fun r => length r = length fs) rows.
(* a column and a value in it, by position *)
Definition cell (fs : list (string * ty)) (rows : list (list value)) (i j : nat) (n : string) (t : ty) (v : value) : Prop :=
  nth_error fs j = Some (n, t) /\ exists r, nth_error rows i = Some r /\ nth_error r j = Some v.
(* A type with nanoseconds somewhere *)
Fixpoint has_ns (t : ty) : bool := match t with Timestamp Ns _ => true | Nested _ cs => existsb has_ns cs | _ => false end.
