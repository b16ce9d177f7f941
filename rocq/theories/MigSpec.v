(* What an upgrade of the catalog should keep. *)
From Coq Require Import List Arith Bool ZArith.
From Verif Require Import MigModel.
Import ListNotations.

(* tables, versions and columns by their names and keys *)
Definition listing (c : catalog) :=
  (map (fun x => (t_id x, t_schema x, t_name x)) (tables c), map (fun x => (v_id x, v_table x)) (versions c),
   map (fun x => (c_id x, c_version x, c_name x)) (columns c)).
(* what the text of a type says of a column: its name, its type, and whether it may be NULL *)
Definition says (x : column) : option (nat * nat * bool) :=
  match c_type x with Bare t => Some (c_name x, t, true) | Old n t b | Canonical n t b => Some (n, t, b) | Junk => None end.
Definition canonical (x : column) : Prop := exists n t b, c_type x = Canonical n t b.
Definition type_in (x : column) : option nat := match c_type x with Bare t | Old _ t _ | Canonical _ t _ => Some t | Junk => None end.
(* a catalog as an older version may have left it: the first e migrations, and the texts of that time *)
Definition of_age (e : nat) (c : catalog) : Prop :=
  e <= 4 /\ applied c = firstn e [1; 2; 3; 4] /\ NoDup (map c_id (columns c)) /\
  (e <= 1 -> forall x, In x (columns c) -> exists t, c_type x = Bare t) /\
  (2 <= e -> forall x t, In x (columns c) -> c_type x <> Bare t) /\
  (e = 0 -> columns c = [] /\ tables c = [] /\ versions c = []).
