(* What a scan of a remote table returns: /repo/datafusion_remote_tables/src/provider.rs (36-66: RemoteTable::new, 118-222: scan). The text of
   the query is the subject of PushModel.v (C56, C57, C88); here the remote database answers the query that the text means.

   Simplifications: names, types and values are numbers, the conversion of values a parameter; the remote table has a name once, and one
   session sees one state of it; connections do not fail. *)
From Coq Require Import List Arith Bool.
Import ListNotations.

Record field := { f_name : nat; f_type : nat; f_nullable : bool }.
Definition field_eqb (a b : field) : bool := Nat.eqb (f_name a) (f_name b) && Nat.eqb (f_type a) (f_type b) && Bool.eqb (f_nullable a) (f_nullable b).
Fixpoint fields_eqb (a b : list field) : bool :=
  match a, b with
  | [], [] => true
  | x :: a', y :: b' => field_eqb x y && fields_eqb a' b'
  | _, _ => false
  end.
(* a value, or NULL *)
Notation value := (option nat) (only parsing).
Notation row := (list (option nat)) (only parsing).

(* the remote table, as connectorx describes it: names, Arrow types; every column may hold NULL, whatever the database says *)
Record remote := { r_columns : list (nat * nat); r_rows : list row }.
Definition described (c : nat * nat) : field := {| f_name := fst c; f_type := snd c; f_nullable := true |}.

Section Scan.
Variable lenient : bool.                 (* SQLite: a quoted name that no column has is a text *)
Variable text_type : nat.                (* the Arrow type of texts *)
Variable text_of : nat -> nat.           (* a name as a text *)
Variable can_cast : nat -> nat -> bool.  (* arrow's can_cast_types *)
Variable convert : nat -> nat -> nat -> option nat.   (* arrow's cast of a value that is not NULL; None: an error *)
Variable keep : row -> bool.             (* the WHERE clause of the query, at the remote database *)

(* the first column of that name: Schema::index_of and the remote database *)
Fixpoint index_of (n : nat) (l : list nat) : option nat :=
  match l with
  | [] => None
  | x :: r => if Nat.eqb x n then Some 0 else option_map S (index_of n r)
  end.
(* what one item of the column list means: its description and its value in a row *)
Definition item (t : remote) (n : nat) : option (field * (row -> value)) :=
  match index_of n (map fst (r_columns t)) with
  | Some i => match nth_error (r_columns t) i with
              | Some c => Some (described c, fun r => nth i r None)
              | None => None
              end
  | None => if lenient then Some ({| f_name := n; f_type := text_type; f_nullable := true |}, fun _ => Some (text_of n)) else None
  end.
Fixpoint all {A B} (f : A -> option B) (l : list A) : option (list B) :=
  match l with
  | [] => Some []
  | x :: r => match f x, all f r with Some y, Some ys => Some (y :: ys) | _, _ => None end
  end.
Definition limited {A} (limit : option nat) (l : list A) : list A := match limit with Some n => firstn n l | None => l end.
(* the answer to SELECT columns FROM t WHERE .. LIMIT ..: None: the database refuses the query *)
Definition answer (t : remote) (names : option (list nat)) (limit : option nat) : option (list field * list row) :=
  let rows := limited limit (filter keep (r_rows t)) in
  match names with
  | None => Some (map described (r_columns t), rows)
  | Some ns => match all (item t) ns with
               | Some items => Some (map fst items, map (fun r => map (fun x => snd x r) items) rows)
               | None => None
               end
  end.

(* a physical expression: a column by its position, and the types of a cast *)
Record expr := { e_index : nat; e_cast : option (nat * nat) }.
(* 196-207: one column of the result. [schema]: the requested fields; [src]: the fields of the answer *)
Definition cast_expr (schema src : list field) (f src_f : field) : option expr :=
  match index_of (f_name f) (map f_name schema) with
  | None => None
  | Some i =>
      if field_eqb src_f f then Some {| e_index := i; e_cast := None |}
      else match nth_error src i with
           | None => None
           | Some s =>
               if Nat.eqb (f_type s) (f_type f) then Some {| e_index := i; e_cast := None |}
               else if can_cast (f_type s) (f_type f) then Some {| e_index := i; e_cast := Some (f_type s, f_type f) |}
               else None
           end
  end.
Definition eval (e : expr) (r : row) : option value :=
  match nth_error r (e_index e) with
  | None => None
  | Some None => Some None
  | Some (Some v) => match e_cast e with
                     | None => Some (Some v)
                     | Some (a, b) => match convert a b v with Some w => Some (Some w) | None => None end
                     end
  end.
(* Schema::project *)
Definition project (schema : list field) (indices : list nat) : option (list field) := all (nth_error schema) indices.

(* 118-222. None: the scan or the stream of its rows fails. The fields are the requested ones *)
Definition scan (declared : list field) (t : remote) (projection : option (list nat)) (limit : option nat) : option (list field * list row) :=
  match (match projection with None => Some declared | Some is => project declared is end) with
  | None => None
  | Some schema =>
      match answer t (match projection with None => None | Some _ => Some (map f_name schema) end) limit with
      | None => None
      | Some (src, rows) =>
          if fields_eqb src schema then Some (schema, rows)
          else match all (fun p => cast_expr schema src (fst p) (snd p)) (combine schema src) with
               | None => None
               | Some es => match all (fun r => all (fun e => eval e r) es) rows with
                            | None => None
                            | Some out => Some (map fst (combine schema src), out)
                            end
               end
      end
  end.

(* 54-63: without declared columns the table has those of the remote table at that time *)
Definition introspect (declared : list field) (t : remote) : list field :=
  match declared with
  | [] => map described (r_columns t)
  | _ => declared
  end.
End Scan.
