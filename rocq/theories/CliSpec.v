(* What the properties C109 to C111 talk about. *)
From Coq Require Import Ascii String List Bool Arith.
From Verif Require Import CliModel.
Import ListNotations.
Open Scope list_scope.

Section Engine.
  Context {R O : Type}.
  (* One statement: planned and run before the next one is looked at; after an error nothing more happens *)
  Inductive one_by_one : db R -> list (statement R O) -> result R O -> Prop :=
  | Finished s : one_by_one s [] {| after := s; printed := []; ok := true |}
  | NoPlan s st l : make_plan s st = None -> one_by_one s (st :: l) {| after := s; printed := []; ok := false |}
  | NoRun s st l s1 p : make_plan s st = Some (s1, p) -> run_plan s1 p = None -> one_by_one s (st :: l) {| after := s1; printed := []; ok := false |}
  | Went s st l s1 p o r : make_plan s st = Some (s1, p) -> run_plan s1 p = Some o -> one_by_one s1 l r ->
      one_by_one s (st :: l) {| after := after r; printed := print o (printed r); ok := ok r |}.
  (* The states that the statements lead to from an empty database *)
  Inductive reachable : db R -> Prop :=
  | Start : reachable (empty_db R)
  | Next s (st : statement R O) s1 p : reachable s -> make_plan s st = Some (s1, p) -> reachable s1.
  Definition is_vacuum (st : statement R O) : bool := match st with Vacuum _ | VacuumDatabase => true | _ => false end.
  (* The rows of a table *)
  Definition contents (s : db R) (t : string) : option (list R) := match find (catalog s) t with Some v => read (disk s) (files v) | None => None end.
End Engine.

(* Where statements end: semicolons that are not inside of quotes *)
Inductive quoted := Outside | Within (q : ascii).
Definition quote_step (s : quoted) (c : ascii) : quoted :=
  match s with
  | Outside => if (Ascii.eqb c "'" || Ascii.eqb c """")%char%bool then Within c else Outside
  | Within q => if Ascii.eqb c q then Outside else Within q
  end.
(* The blanks of ASCII: tab, line feed, vertical tab, form feed, carriage return and space *)
Definition white (c : ascii) : bool := existsb (Nat.eqb (nat_of_ascii c)) [9; 10; 11; 12; 13; 32].
(* The text is made of complete statements: it ends, apart from blanks, with a semicolon outside of quotes *)
Definition complete (t : list ascii) : Prop :=
  exists body rest, t = body ++ ";"%char :: rest /\ Forall (fun c => white c = true) rest /\ fold_left quote_step body Outside = Outside.
(* The parts of a text between such semicolons *)
Fixpoint parts (s : quoted) (t : list ascii) : list (list ascii) :=
  match t with
  | [] => [[]]
  | c :: r => match s with
              | Outside => if Ascii.eqb c ";" then [] :: parts Outside r else match parts (quote_step s c) r with w :: ws => (c :: w) :: ws | [] => [[c]] end
              | _ => match parts (quote_step s c) r with w :: ws => (c :: w) :: ws | [] => [[c]] end
              end
  end.
