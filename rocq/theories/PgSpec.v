(* C157, as a user reads it: servers share a catalog exactly if their configurations name the same schema. *)
From Coq Require Import Ascii String List Arith Bool.
From Verif Require Import CatalogModel PgModel.
Import ListNotations.
Local Open Scope list_scope.

(* a catalog after the given statements, if nothing else uses it *)
Definition alone (lim : nat) (os : list cop) : catalog := fold_left (fun c o => fst (cstep lim Postgres o c)) os empty.
Definition answers (lim : nat) (os : list cop) : list bool :=
  snd (fold_left (fun '(c, l) o => (fst (cstep lim Postgres o c), l ++ [snd (cstep lim Postgres o c)])) os (empty, [])).

(* statements of the servers for which [mine] holds of the name in their configuration *)
Definition of (mine : list ascii -> bool) (l : list (list ascii * cop * bool)) : list cop :=
  map (fun x => snd (fst x)) (filter (fun x => mine (fst (fst x))) l).
Definition answers_of (mine : list ascii -> bool) (l : list (list ascii * cop * bool)) : list bool :=
  map snd (filter (fun x => mine (fst (fst x))) l).

(* a name that PostgreSQL takes as it is: at most 63 lower-case letters, digits and underscores, not beginning with a digit or pg_, and no key word *)
Definition lower_char (c : ascii) : bool := existsb (Ascii.eqb c) (list_ascii_of_string "abcdefghijklmnopqrstuvwxyz_").
Definition digit (c : ascii) : bool := existsb (Ascii.eqb c) (list_ascii_of_string "0123456789").
Definition as_is (reserved : list ascii -> bool) (t : list ascii) : Prop :=
  (exists c r, t = c :: r /\ lower_char c = true /\ forallb (fun x => lower_char x || digit x)%bool r = true) /\
  length t <= 63 /\ reserved t = false /\ firstn 3 t <> list_ascii_of_string "pg_".

(* the same name in lower case *)
Definition in_lower_case (t : list ascii) : list ascii :=
  map (fun c => match find (fun p => Ascii.eqb (fst p) c) (combine (list_ascii_of_string "ABCDEFGHIJKLMNOPQRSTUVWXYZ") (list_ascii_of_string "abcdefghijklmnopqrstuvwxyz")) with
                | Some p => snd p
                | None => c
                end) t.
