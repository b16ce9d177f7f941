(* Statements that write to the same table at the same time: /repo/src/context/physical.rs (216-485: UPDATE and DELETE, 672-700:
   TRUNCATE) and /repo/src/context/delta.rs (383-442: plan_to_delta_table, commit_delta_table), with the check for conflicts
   that delta-rs (a dependency) makes when other versions were committed since the table was loaded.

   Simplifications: the rows that a statement writes are one file, named by the number of the statement (C26 for the splitting
   into files); a condition is true or false (C29 for unknown); the commit of a version is atomic (C32); a commit is retried
   until it is settled (delta-rs gives up after 15 losses, and the statement fails). *)
From Coq Require Import List Arith Bool.
Import ListNotations.

Section Conc.
Context {R : Type}.
Inductive stmt :=
| Insert (l : list R)                                            (* INSERT ... VALUES, uploads *)
| InsertSelect (q : list R -> list R)                            (* INSERT ... SELECT from the table itself *)
| Delete (p : R -> bool)                                         (* DELETE; TRUNCATE is DELETE of everything *)
| Update (p : R -> bool) (f : R -> R).
Record file := { fname : nat; rows : list R }.
Record commit := { by_ : nat; base : nat; adds : list file; removes : list nat }.

Definition mem (n : nat) (l : list nat) : bool := existsb (Nat.eqb n) l.
(* the files of the table after a version *)
Definition apply (t : list file) (c : commit) : list file := filter (fun f => negb (mem (fname f) (removes c))) t ++ adds c.
Definition table (log : list commit) : list file := fold_left apply log [].
Definition all_rows (t : list file) : list R := flat_map rows t.

Variable prog : nat -> stmt.                                     (* which statement a number stands for *)
Variable keep : nat -> file -> bool.                             (* PruningPredicate::prune: what each statement rewrites *)

(* what DELETE and UPDATE make of a row of a file that they rewrite: physical.rs:413-446, provider.rs:142-179 *)
Definition rewrite_row (s : stmt) (r : R) : list R :=
  match s with
  | Delete p => if p r then [] else [r]
  | Update p f => if p r then [f r] else [r]
  | _ => [r]
  end.
(* the actions of a statement, from the version of the table that it loaded *)
Definition plan (w : nat) (n : nat) (t : list file) : commit :=
  match prog w with
  | Insert l => {| by_ := w; base := n; adds := [{| fname := w; rows := l |}]; removes := [] |}
  | InsertSelect q => {| by_ := w; base := n; adds := [{| fname := w; rows := q (all_rows t) |}]; removes := [] |}
  | s =>
      let old := filter (keep w) t in
      match old with
      | [] => {| by_ := w; base := n; adds := []; removes := [] |}   (* physical.rs:412-415, 300: an empty version *)
      | _ => {| by_ := w; base := n; adds := [{| fname := w; rows := flat_map (rewrite_row s) (all_rows old) |}];
                removes := map fname old |}
      end
  end.
(* delta-rs ConflictChecker, with the operations that Seafowl passes: they have no predicate (physical.rs:353-357, 475:
   DeltaOperation::Write and Delete with predicate None), so the checks of what was read do not apply; what remains is that
   two transactions must not remove the same file *)
Definition conflict (log : list commit) (c : commit) : bool :=
  existsb (fun c' => existsb (fun n => mem n (removes c')) (removes c)) (skipn (base c) log).

Record state := { log : list commit; running : list commit; failed : list nat }.
Definition init : state := {| log := []; running := []; failed := [] |}.
Inductive event := Begin (w : nat) | Commit (w : nat).
Definition used (st : state) (w : nat) : bool := mem w (map by_ (log st) ++ map by_ (running st) ++ failed st).
Definition step (st : state) (e : event) : state :=
  match e with
  | Begin w =>
      if used st w then st
      else {| log := log st; running := plan w (length (log st)) (table (log st)) :: running st; failed := failed st |}
  | Commit w =>
      match find (fun c => Nat.eqb (by_ c) w) (running st) with
      | None => st
      | Some c =>
          let rest := filter (fun c' => negb (Nat.eqb (by_ c') w)) (running st) in
          if conflict (log st) c then {| log := log st; running := rest; failed := w :: failed st |}
          else {| log := log st ++ [c]; running := rest; failed := failed st |}
      end
  end.
Definition run (es : list event) : state := fold_left step es init.
End Conc.
Arguments stmt : clear implicits. Arguments file : clear implicits. Arguments commit : clear implicits. Arguments state : clear implicits.
