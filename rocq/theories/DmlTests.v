(* The integration tests of DELETE and UPDATE (tests/statements/dml.rs), run through the models of WriteModel.v and DmlModel.v. They are tests of the
   models, not proofs: they show that the models give the rows and the files the project expects of the code. Files are pruned by their smallest and
   largest value, as Delta's statistics allow. Values are numbers, a missing value is None; 5555 and 5.555 are written 555, and so on. *)
From Coq Require Import List Arith Bool.
From Verif Require Import WriteModel DmlModel.
Import ListNotations.

Notation row := (list (option nat)) (only parsing).
(* some_time, some_value, some_other_value, some_bool_value, some_int_value *)
Definition r (a b c d e : option nat) : row := [a; b; c; d; e].
Definition value (x : row) : nat := match nth 1 x None with Some v => v | None => 0 end.
(* create_table_and_some_partitions (statements/mod.rs 212-330): the four files *)
Definition partition_1 : file row := {| path := (1, 0); rows :=
  [r (Some 101) (Some 42) (Some 1000) None (Some 111); r (Some 102) (Some 43) (Some 1000) None (Some 222); r (Some 103) (Some 44) (Some 1000) None (Some 333)] |}.
Definition part (p o : nat) (vs : list nat) : file row := {| path := (p, 0); rows := map (fun v => r None (Some v) (Some o) None None) vs |}.
Definition partition_2 := part 2 2000 [45; 46; 47].
Definition partition_3 := part 3 3000 [46; 47; 48].
Definition partition_4 := part 4 4000 [42; 41; 40].
Definition table_v4 : list (file row) := [partition_1; partition_2; partition_3; partition_4].
Definition lo (f : file row) : nat := fold_right Nat.min 4999 (map value (rows f)).
Definition hi (f : file row) : nat := fold_right Nat.max 0 (map value (rows f)).
Definition scan_of (t : list (file row)) (keep : list bool) : list (list (option (list row))) := map (fun f => [Some (rows f)]) (selected t keep).
Fixpoint sort (l : list nat) : list nat :=
  match l with
  | [] => []
  | x :: l' => (fix ins (m : list nat) : list nat := match m with [] => [x] | y :: m' => if Nat.leb x y then x :: m else y :: ins m' end) (sort l')
  end.
Definition values (o : outcome (list (file row))) : option (list nat) := match o with Ok t => Some (sort (map value (flat_map rows t))) | _ => None end.
Definition paths (o : outcome (list (file row))) : option (list (nat * nat)) := match o with Ok t => Some (map path t) | _ => None end.
Definition get (o : outcome (list (file row))) : list (file row) := match o with Ok t => t | _ => [] end.

(* ---- 50-258: test_delete_statement ---- *)
Definition del (uuid : nat) (t : list (file row)) (p : nat -> bool) (may : file row -> bool) : outcome (list (file row)) :=
  let keep := map may t in delete 100 1000 (fun _ => true) uuid t (Some (fun x => Some (p (value x)))) keep (scan_of t keep).
(* WHERE some_value > 46 *)
Definition d1 := del 5 table_v4 (fun v => Nat.ltb 46 v) (fun f => Nat.ltb 46 (hi f)).
Example delete_1 : values d1 = Some [40; 41; 42; 42; 43; 44; 45; 46; 46] /\ paths d1 = Some [(1, 0); (4, 0); (5, 0)].
Proof. vm_compute. split; reflexivity. Qed.
(* INSERT INTO test_table (some_value) VALUES (48), (49), (50) *)
Definition d2 := insert 100 1000 (fun _ => true) 6 (get d1) [[Some (map (fun v => r None (Some v) None None None) [48; 49; 50])]].
Example delete_2 : paths d2 = Some [(1, 0); (4, 0); (5, 0); (6, 0)].
Proof. vm_compute. reflexivity. Qed.
(* WHERE some_value IN (43, 45, 49) *)
Definition among (l : list nat) (v : nat) : bool := existsb (Nat.eqb v) l.
Definition may_hold (l : list nat) (f : file row) : bool := existsb (fun v => Nat.leb (lo f) v && Nat.leb v (hi f)) l.
Definition d3 := del 7 (get d2) (among [43; 45; 49]) (may_hold [43; 45; 49]).
Example delete_3 : values d3 = Some [40; 41; 42; 42; 44; 46; 46; 48; 50] /\ paths d3 = Some [(4, 0); (7, 0)].
Proof. vm_compute. split; reflexivity. Qed.
(* WHERE some_value < 35 *)
Definition d4 := del 8 (get d3) (fun v => Nat.ltb v 35) (fun f => Nat.ltb (lo f) 35).
Example delete_4 : values d4 = values d3 /\ paths d4 = paths d3.
Proof. vm_compute. split; reflexivity. Qed.
(* WHERE some_value < 41 OR some_value > 46 *)
Definition d5 := del 9 (get d4) (fun v => Nat.ltb v 41 || Nat.ltb 46 v) (fun f => Nat.ltb (lo f) 41 || Nat.ltb 46 (hi f)).
Example delete_5 : values d5 = Some [41; 42; 42; 44; 46; 46] /\ paths d5 = Some [(9, 0)].
Proof. vm_compute. split; reflexivity. Qed.
(* DELETE FROM test_table *)
Example delete_6 : delete 100 1000 (fun _ => true) 10 (get d5) None [] [] = Ok [].
Proof. vm_compute. reflexivity. Qed.

(* ---- 332-488: test_update_statement ---- *)
Definition tref0 : nat * nat := (0, 7).
Definition columns : list nat := [0; 1; 2; 3; 4].
Definition lit (n : nat) : expr (option nat) := Lit (Some n).
Definition col (c : nat) : expr (option nat) := Col tref0 c.
Definition op (f : nat -> nat -> nat) : option nat -> option nat -> option nat := fun a b => match a, b with Some x, Some y => Some (f x y) | _, _ => None end.
Definition eqn (a b : nat) : nat := if Nat.eqb a b then 1 else 0.
Definition truth (v : option nat) : option bool := match v with Some 0 => Some false | Some _ => Some true | None => None end.
Definition upd (uuid : nat) (t : list (file row)) (sets : list (nat * expr (option nat))) (w : option (expr (option nat))) (may : file row -> bool) :=
  let keep := map may t in
  update_from truth 100 1000 (fun _ => true) uuid tref0 columns t [] sets w keep
    (match w with Some _ => scan_of t keep | None => map (fun f => [Some (rows f)]) t end).
(* SET some_time = '2022-01-01 21:21:21Z', some_int_value = 5555, some_value = some_value - 10 WHERE some_value IN (41, 42, 43) *)
Definition in_list (l : list nat) : expr (option nat) := fold_right (fun v e => App (op (fun a b => Nat.max a b)) (App (op eqn) (col 1) (lit v)) e) (lit 0) l.
Definition u1 := upd 5 table_v4 [(0, lit 999); (4, lit 555); (1, App (op Nat.sub) (col 1) (lit 10))] (Some (in_list [41; 42; 43])) (may_hold [41; 42; 43]).
Definition stay (p o : nat) (vs : list nat) : list row := map (fun v => r None (Some v) (Some o) None None) vs.
Definition new_5 : list row :=
  [ r (Some 999) (Some 32) (Some 1000) None (Some 555); r (Some 999) (Some 33) (Some 1000) None (Some 555); r (Some 103) (Some 44) (Some 1000) None (Some 333);
    r (Some 999) (Some 32) (Some 4000) None (Some 555); r (Some 999) (Some 31) (Some 4000) None (Some 555); r None (Some 40) (Some 4000) None None ].
Example update_1 : u1 = Ok [partition_2; partition_3; {| path := (5, 0); rows := new_5 |}].
Proof. vm_compute. reflexivity. Qed.
(* SET some_bool_value = TRUE WHERE some_value = 200 *)
Definition u2 := upd 6 (get u1) [(3, lit 1)] (Some (App (op eqn) (col 1) (lit 200))) (may_hold [200]).
Example update_2 : u2 = u1.
Proof. vm_compute. reflexivity. Qed.
(* SET some_bool_value = FALSE, some_bool_value = (some_int_value = 5555), some_value = 42, some_other_value = CASE WHEN some_int_value = 5555 THEN 5.555
   WHEN some_int_value = 3333 THEN 3.333 ELSE 0 END *)
Definition case_int : expr (option nat) :=
  App (fun a _ => match a with Some v => if Nat.eqb v 555 then Some 555 else if Nat.eqb v 333 then Some 333 else Some 0 | None => Some 0 end) (col 4) (col 4).
Definition u3 := upd 7 (get u2) [(3, lit 0); (3, App (op eqn) (col 4) (lit 555)); (1, lit 42); (2, case_int)] None (fun _ => true).
Definition a5 : row := r (Some 999) (Some 42) (Some 555) (Some 1) (Some 555).
Definition a0 : row := r None (Some 42) (Some 0) None None.
Example update_3 : u3 = Ok [{| path := (7, 0); rows := [a0; a0; a0; a0; a0; a0; a5; a5; r (Some 103) (Some 42) (Some 333) (Some 0) (Some 333); a5; a5; a0] |}].
Proof. vm_compute. reflexivity. Qed.

(* ---- 492-529: test_update_statement_errors: a column that the table does not have, in the assignment or in the condition ---- *)
Example update_error : upd 5 table_v4 [(1, lit 42)] (Some (App (op eqn) (col 9) (lit 32))) (fun _ => true) = Fail.
Proof. vm_compute. reflexivity. Qed.
