(* What the property of the memory pool means (the types of PoolModel.v are used, and the pool inside). *)
From Coq Require Import Ascii String List ZArith Bool.
From Verif Require Import PoolModel.
Import ListNotations.
Open Scope Z_scope.

(* The pool inside, used directly: the bytes in use in the end and the answers to all calls *)
Fixpoint direct (p : pool) (used : Z) (l : list call) : Z * list (call * bool) :=
  match l with
  | [] => (used, [])
  | c :: r => let '(u, ok) := inner_call p used c in let '(u', a) := direct p u r in (u', (c, ok) :: a)
  end.
(* The calls of a schedule, in the order in which they reach the pool *)
Definition calls (l : list event) : list call := flat_map (fun e => match e with Begin c => [c] | Continue _ => [] end) l.

(* Consumers are counted under the part of their name before the first bracket *)
Definition counted_under (name label : string) : Prop :=
  (name = label \/ exists rest, name = (label ++ "[" ++ rest)%string) /\ ~ exists x y, label = (x ++ "[" ++ y)%string.

(* Bytes granted to, refused to and given back by the consumers counted under a label *)
Definition labelled (label : string) (name : string) : bool := String.eqb (extract_consumer_name name) label.
Fixpoint sum (f : call * bool -> Z) (l : list (call * bool)) : Z := match l with [] => 0 | x :: r => f x + sum f r end.
Definition is_shrink (c : call) : bool := match what c with Shrink => true | _ => false end.
Definition granted_bytes (x : call * bool) : Z := if (negb (is_shrink (fst x)) && snd x)%bool then size (fst x) else 0.
Definition refused_bytes (x : call * bool) : Z := if (negb (is_shrink (fst x)) && negb (snd x))%bool then size (fst x) else 0.
Definition freed_bytes (x : call * bool) : Z := if is_shrink (fst x) then size (fst x) else 0.
Definition under (label : string) (f : call * bool -> Z) (x : call * bool) : Z := if labelled label (consumer (fst x)) then f x else 0.
(* the total of a metric over some labels *)
Fixpoint over (labels : list string) (f : string -> Z) : Z := match labels with [] => 0 | n :: r => f n + over r f end.
