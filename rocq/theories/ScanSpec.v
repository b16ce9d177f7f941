(* What a user expects of a remote table: a column is the remote column of the same name, with its values converted to the declared
   type, of the rows that the filter keeps. *)
From Coq Require Import List Arith Bool.
From Verif Require Import ScanModel.
Import ListNotations.

Section S.
Variable can_cast : nat -> nat -> bool.
Variable convert : nat -> nat -> nat -> option nat.
(* [v] of type [a], as a value of type [b]; None: not possible *)
Definition as_type (a b : nat) (v : option nat) : option (option nat) :=
  match v with
  | None => Some None
  | Some x => if Nat.eqb a b then Some (Some x) else option_map Some (convert a b x)
  end.
(* in [r], the remote column named [n] holds [v], and its type is [ty] *)
Definition holds (t : remote) (r : list (option nat)) (n ty : nat) (v : option nat) : Prop :=
  exists i, nth_error (r_columns t) i = Some (n, ty) /\ nth_error r i = Some v.
(* [out] is what the fields [fs] show of the remote row [r] *)
Definition shows (t : remote) (fs : list field) (r out : list (option nat)) : Prop :=
  Forall2 (fun f w => exists ty v, holds t r (f_name f) ty v /\ as_type ty (f_type f) v = Some w) fs out.
(* the rows that are asked for: those that the filter keeps, up to the limit *)
Definition selected (keep : list (option nat) -> bool) (t : remote) (limit : option nat) : list (list (option nat)) :=
  let rows := filter keep (r_rows t) in match limit with None => rows | Some n => firstn n rows end.
(* the remote table is a table: names are unique, rows are as long as its list of columns *)
Definition regular (t : remote) : Prop :=
  NoDup (map fst (r_columns t)) /\ Forall (fun r => length r = length (r_columns t)) (r_rows t).
(* the remote table has a column for each of the fields, of a type that can be converted *)
Definition offers (t : remote) (fs : list field) : Prop :=
  Forall (fun f => exists ty, In (f_name f, ty) (r_columns t) /\ (ty = f_type f \/ can_cast ty (f_type f) = true)) fs.
(* a row keeps to the NOT NULL of its fields *)
Definition respects (fs : list field) (out : list (option nat)) : Prop :=
  Forall2 (fun f w => f_nullable f = false -> w <> None) fs out.
End S.
