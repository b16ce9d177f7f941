(* DELETE and UPDATE from the statement to the plan that is executed: /repo/src/context/logical.rs (107-163) and
   /repo/src/context/physical.rs (216-485), with /repo/src/provider.rs (142-179).
   The execution itself, given a predicate, is in WriteModel.v.

   DataFusion (version 44 in /repo/Cargo.toml) plans a DELETE as Dml(Filter(scan)), or Dml(scan) without WHERE, and an
   UPDATE as Dml(Projection(Filter(scan))). Its optimizer rules that decide about the Filter are written down here as
   [simp] and [delete_input]; they are code of a dependency and are not in /repo:
   - SimplifyExpressions folds constants,
   - EliminateFilter removes a Filter on the literal true, and replaces a Filter on false or NULL by EmptyRelation,
   - DecorrelatePredicateSubquery turns a conjunct [NOT] IN (SELECT ...) or [NOT] EXISTS (SELECT ...) into a semi or anti
     join, and PushDownFilter moves the Filter with the other conjuncts below that join. *)
From Coq Require Import List Arith Bool.
From Verif Require Import WriteModel.
Import ListNotations.

Section Forms.
Context {R : Type}.
(* A WHERE clause. [Atom]: a condition on the row alone. [Sub]: a condition that asks a subquery, [NOT] IN or [NOT] EXISTS;
   the function says what it is worth for a row, given the content of the other tables. *)
Inductive pred :=
| Const (b : option bool)
| Atom (f : R -> option bool)
| Sub (f : R -> option bool)
| And (p q : pred)
| Or (p q : pred)
| Not (p : pred).

(* SimplifyExpressions, the folding of constants (the rule does more; the rest keeps the form of the plan) *)
Fixpoint simp (p : pred) : pred :=
  match p with
  | And p q =>
      match simp p, simp q with
      | Const (Some false), _ | _, Const (Some false) => Const (Some false)
      | Const (Some true), q' => q'
      | p', Const (Some true) => p'
      | Const None, Const None => Const None
      | p', q' => And p' q'
      end
  | Or p q =>
      match simp p, simp q with
      | Const (Some true), _ | _, Const (Some true) => Const (Some true)
      | Const (Some false), q' => q'
      | p', Const (Some false) => p'
      | Const None, Const None => Const None
      | p', q' => Or p' q'
      end
  | Not p => match simp p with Const b => Const (not3 b) | p' => Not p' end
  | _ => p
  end.
(* the value of a condition: and, or, not of SQL *)
Definition and3 (a b : option bool) : option bool :=
  match a, b with Some false, _ | _, Some false => Some false | Some true, Some true => Some true | _, _ => None end.
Definition or3 (a b : option bool) : option bool :=
  match a, b with Some true, _ | _, Some true => Some true | Some false, Some false => Some false | _, _ => None end.
Fixpoint value (p : pred) (r : R) : option bool :=
  match p with
  | Const b => b
  | Atom f | Sub f => f r
  | And p q => and3 (value p r) (value q r)
  | Or p q => or3 (value p r) (value q r)
  | Not p => not3 (value p r)
  end.
Fixpoint has_sub (p : pred) : bool :=
  match p with
  | Sub _ => true
  | And p q | Or p q => has_sub p || has_sub q
  | Not p => has_sub p
  | _ => false
  end.
(* a conjunct of the condition is a subquery: DecorrelatePredicateSubquery makes a join of it *)
Fixpoint joins (p : pred) : bool :=
  match p with
  | Sub _ | Not (Sub _) => true
  | And p q => joins p || joins q
  | _ => false
  end.

(* what the Dml node of the optimised plan has as its input *)
Inductive input := IScan | IEmpty | IJoin | IFilter (p : pred).
(* logical.rs:159-163: DELETE, state.optimize runs all rules. [embedded]: what becomes of a condition in which subqueries
   stand only below OR, which is left open. *)
Definition delete_input (embedded : pred -> input) (w : option pred) : input :=
  match w with
  | None => IScan
  | Some p =>
      match simp p with
      | Const (Some true) => IScan
      | Const _ => IEmpty
      | p' => if joins p' then IJoin else if has_sub p' then embedded p' else IFilter p'
      end
  end.
(* physical.rs:370-485: only a Filter right below the Dml node is a WHERE clause; a subquery in it has no physical
   expression (create_physical_expr fails). Everything else is "no qualifier": all files go. *)
Definition delete_stmt (embedded : pred -> input) (fuel max : nat) (up : nat -> bool) (uuid : nat) (t : list (file R))
  (w : option pred) (keep : list bool) (scan : list (list (option (list R)))) : outcome (list (file R)) :=
  match delete_input embedded w with
  | IFilter p => if has_sub p then Fail else delete fuel max up uuid t (Some (value p)) keep scan
  | _ => delete fuel max up uuid t None keep scan
  end.
End Forms.
Arguments pred : clear implicits.
Arguments input : clear implicits.

(* UPDATE: logical.rs:120-157 runs the analyzer and SimplifyExpressions only, so a Filter stays a Filter *)
Section Upd.
Context {V : Type}.
Notation row := (list V) (only parsing).
Definition update_stmt (fuel max : nat) (up : nat -> bool) (uuid : nat) (t : list (file row)) (w : option (pred row))
  (es : list (row -> option V)) (keep : list bool) (scan : list (list (option (list row)))) : outcome (list (file row)) :=
  match w with
  | None => update fuel max up uuid t None es keep scan
  | Some p => if has_sub (simp p) then Fail else update fuel max up uuid t (Some (value (simp p))) es keep scan
  end.

(* UPDATE target SET ... FROM others WHERE ...: the pattern in logical.rs:120-125 does not look at FROM, so the statement is
   planned by DataFusion: Projection(Filter(cross join of the target and the others)), every table and every column with its
   qualifier, schema and name. A column is a number. *)
Notation tref := (nat * nat)%type (only parsing).
Record table := { name : tref; cols : list nat; content : list row }.
Inductive expr := Lit (v : V) | Col (q : tref) (c : nat) | App (f : V -> V -> V) (a b : expr).
Fixpoint find_col (c : nat) (cs : list nat) (r : row) : option V :=
  match cs, r with
  | c' :: cs', v :: r' => if Nat.eqb c c' then Some v else find_col c cs' r'
  | _, _ => None
  end.
(* DFSchema::try_from_qualified_schema(table_name.table(), ...) (physical.rs:231-234): the columns of the target, qualified
   with the name of the target without its schema; a reference is found if the name of its table is that name
   (TableReference::resolved_eq), whatever its schema *)
Definition in_target (target : tref) (cs : list nat) (q : tref) (c : nat) : bool :=
  Nat.eqb (snd q) (snd target) && existsb (Nat.eqb c) cs.
(* create_physical_expr succeeds: physical.rs:263-267, provider.rs:158-163 *)
Fixpoint physical (target : tref) (cs : list nat) (e : expr) : bool :=
  match e with
  | Lit _ => true
  | Col q c => in_target target cs q c
  | App _ a b => physical target cs a && physical target cs b
  end.
(* the value of the physical expression for a row of the target *)
Fixpoint run (cs : list nat) (r : row) (e : expr) : option V :=
  match e with
  | Lit v => Some v
  | Col _ c => find_col c cs r
  | App f a b => match run cs r a, run cs r b with Some x, Some y => Some (f x y) | _, _ => None end
  end.
(* the planner: every reference names a table of the statement and a column of it *)
Fixpoint known (ts : list (tref * list nat)) (e : expr) : bool :=
  match e with
  | Lit _ => true
  | Col q c => existsb (fun t => Nat.eqb (fst q) (fst (fst t)) && Nat.eqb (snd q) (snd (fst t)) && existsb (Nat.eqb c) (snd t)) ts
  | App _ a b => known ts a && known ts b
  end.
(* the projection: the assignment of a column, or the column itself. The planner (DataFusion) collects the assignments in a map by column:
   of several the last one stays; /repo/tests/statements/dml.rs:449-480 relies on it *)
Definition assignment (target : tref) (sets : list (nat * expr)) (c : nat) : expr :=
  match find (fun s => Nat.eqb (fst s) c) (rev sets) with Some s => snd s | None => Col target c end.
(* the statement. [test]: the truth of a value. *)
Definition update_from (test : V -> option bool) (fuel max : nat) (up : nat -> bool) (uuid : nat)
  (target : tref) (cs : list nat) (t : list (file row)) (others : list table) (sets : list (nat * expr)) (w : option expr)
  (keep : list bool) (scan : list (list (option (list row)))) : outcome (list (file row)) :=
  let ts := (target, cs) :: map (fun o => (name o, cols o)) others in
  let es := map (assignment target sets) cs in
  if negb (forallb (fun s => known ts (snd s)) sets && match w with Some e => known ts e | None => true end) then Fail
  else if negb (match w with Some e => physical target cs e | None => true end) then Fail
  else
    let where_ := match w with
                  | Some e => Some (fun r => match run cs r e with Some v => test v | None => None end)
                  | None => None end in
    match (match where_ with Some _ => selected t keep | None => t end) with
    | [] => Ok (commit t [] [])
    | _ => if negb (forallb (physical target cs) es) then Fail
           else update fuel max up uuid t where_ (map (fun e r => run cs r e) es) keep scan
    end.
End Upd.
Arguments expr : clear implicits.
Arguments table : clear implicits.
