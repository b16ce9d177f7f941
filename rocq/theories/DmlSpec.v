(* What DELETE and UPDATE mean. *)
From Coq Require Import List Arith Bool Permutation.
From Verif Require Import WriteModel WriteSpec DmlModel.
Import ListNotations.

Section S.
Context {R : Type}.
(* the conditions as in SQL *)
Inductive means : pred R -> R -> option bool -> Prop :=
| m_const b r : means (Const b) r b
| m_atom f r : means (Atom f) r (f r)
| m_sub f r : means (Sub f) r (f r)
| m_and_false p q r : means p r (Some false) \/ means q r (Some false) -> means (And p q) r (Some false)
| m_and_true p q r : means p r (Some true) -> means q r (Some true) -> means (And p q) r (Some true)
| m_and_null p q r a b : means p r a -> means q r b -> a <> Some false -> b <> Some false -> (a = None \/ b = None) -> means (And p q) r None
| m_or_true p q r : means p r (Some true) \/ means q r (Some true) -> means (Or p q) r (Some true)
| m_or_false p q r : means p r (Some false) -> means q r (Some false) -> means (Or p q) r (Some false)
| m_or_null p q r a b : means p r a -> means q r b -> a <> Some true -> b <> Some true -> (a = None \/ b = None) -> means (Or p q) r None
| m_not_true p r : means p r (Some false) -> means (Not p) r (Some true)
| m_not_false p r : means p r (Some true) -> means (Not p) r (Some false)
| m_not_null p r : means p r None -> means (Not p) r None.
(* conditions on the row alone *)
Fixpoint plain (p : pred R) : Prop :=
  match p with
  | Sub _ => False
  | And p q | Or p q => plain p /\ plain q
  | Not p => plain p
  | _ => True
  end.
(* conditions without a constant in them *)
Fixpoint no_const (p : pred R) : Prop :=
  match p with
  | Const _ => False
  | And p q | Or p q => no_const p /\ no_const q
  | Not p => no_const p
  | _ => True
  end.
(* the rows of a table after DELETE WHERE p: those for which p is not true *)
Inductive remain (p : pred R) : list R -> list R -> Prop :=
| rem_nil : remain p [] []
| rem_gone r rs l : means p r (Some true) -> remain p rs l -> remain p (r :: rs) l
| rem_kept r rs l : ~ means p r (Some true) -> remain p rs l -> remain p (r :: rs) (r :: l).
End S.

(* UPDATE target SET ... FROM others WHERE ...: a row of the target for which there are rows of the others that satisfy the
   condition gets the values of the expressions for such rows; any other row stays *)
Section U.
Context {V : Type}.
Notation row := (list V) (only parsing).
Notation tref := (nat * nat)%type (only parsing).
(* a choice of one row in each table of FROM *)
Definition choice (others : list (table V)) (rs : list row) : Prop := Forall2 (fun o r => In r (content o)) others rs.
(* what a column is worth, given the tables with their columns and the row chosen in each *)
Inductive has_value : list (tref * list nat * row) -> expr V -> V -> Prop :=
| hv_lit env v : has_value env (Lit v) v
| hv_col env q c cs r i v : In (q, cs, r) env -> nth_error cs i = Some c -> nth_error r i = Some v -> has_value env (Col q c) v
| hv_app env f a b x y : has_value env a x -> has_value env b y -> has_value env (App f a b) (f x y).
Definition env_of (target : tref) (cs : list nat) (r : row) (others : list (table V)) (rs : list row) : list (tref * list nat * row) :=
  (target, cs, r) :: map (fun or => (name (fst or), cols (fst or), snd or)) (combine others rs).
Definition satisfies (test : V -> option bool) (w : option (expr V)) env : Prop :=
  match w with Some e => exists v, has_value env e v /\ test v = Some true | None => True end.
(* [e] is the last expression that SET assigns to the column [c] *)
Definition last_set (sets : list (nat * expr V)) (c : nat) (e : expr V) : Prop :=
  exists before after, sets = before ++ (c, e) :: after /\ ~ In c (map fst after).
(* column [c] of the new row: its (last) assignment, or as it was *)
Inductive new_value env (target : tref) (sets : list (nat * expr V)) (c : nat) (v : V) : Prop :=
| nv_set e : last_set sets c e -> has_value env e v -> new_value env target sets c v
| nv_same : ~ In c (map fst sets) -> has_value env (Col target c) v -> new_value env target sets c v.
Inductive updated_from test target cs others sets w (r : row) : row -> Prop :=
| uf_sel rs r' : choice others rs -> satisfies test w (env_of target cs r others rs) ->
    Forall2 (new_value (env_of target cs r others rs) target sets) cs r' -> updated_from test target cs others sets w r r'
| uf_not : (forall rs, choice others rs -> ~ satisfies test w (env_of target cs r others rs)) -> updated_from test target cs others sets w r r.
(* the expression names a column of a table whose name, without schema, is not that of the target *)
Inductive foreign (target : tref) : expr V -> Prop :=
| fo_col q c : snd q <> snd target -> foreign target (Col q c)
| fo_app1 f a b : foreign target a -> foreign target (App f a b)
| fo_app2 f a b : foreign target b -> foreign target (App f a b).
End U.
