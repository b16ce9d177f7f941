(* What time travel should do. *)
From Coq Require Import Ascii String List.
Import ListNotations.
From Verif Require Import TravelModel.
From Verif Require Import DdlSpec.
Open Scope string_scope.
Open Scope list_scope.

(* Names. A word is a letter or underscore followed by letters, digits and underscores. *)
Definition wordy (a : ascii) : Prop := capital a \/ small a \/ a = "_"%char.
Definition digital (a : ascii) : Prop := 48 <= nat_of_ascii a <= 57.
Definition word (w : string) : Prop := exists a s, w = String a s /\ wordy a /\ Forall (fun b => wordy b \/ digital b) (list_ascii_of_string s).
Definition lower_word (w : string) : Prop := word w /\ lower_case w w.
(* The names that are considered: words, and any text without quotes if it is in quotes; at most three parts *)
Definition wf_ident (i : ident) : Prop := if snd i then ~ In """"%char (list_ascii_of_string (fst i)) else word (fst i).
Definition wf (n : name) : Prop := Forall wf_ident n /\ 1 <= length n <= 3.
(* What a part of a name says: a quoted one itself, an unquoted one in lower case *)
Definition says (i : ident) (x : string) : Prop := if snd i then x = fst i else lower_case (fst i) x.
(* The table that a name stands for in a session with default catalog D and default schema S *)
Definition stands_for (D S : string) (n : name) (r : table) : Prop :=
  match n with
  | [t] => in_catalog r = D /\ in_schema r = S /\ says t (called r)
  | [s; t] => in_catalog r = D /\ says s (in_schema r) /\ says t (called r)
  | [c; s; t] => says c (in_catalog r) /\ says s (in_schema r) /\ says t (called r)
  | _ => False
  end.
(* Table p is there under the name r, in the session of catalog D *)
Definition there (D : string) (m : schema_map) (r : table) (p : provider) : Prop :=
  in_catalog r = D /\ exists ts, m (in_schema r) = Some ts /\ ts (called r) = Some p.

Section Spec.
Variable time : Type.
Variable datetime : string -> option time.
Variable load : nat -> time -> option nat.
(* What a reference reads: without arguments the table that its name stands for; with a version, that table at that time. *)
Definition at_time (D : string) (m : schema_map) (r : table) (v : string) (p : provider) : Prop :=
  exists u d ver, there D m r (Latest u) /\ datetime v = Some d /\ load u d = Some ver /\ p = AtVersion u ver.
Definition reads (D S : string) (m : schema_map) (f : factor) (p : provider) : Prop :=
  exists r, stands_for D S (fname f) r /\ ((fargs f = None /\ there D m r p) \/ exists v, fargs f = Some [Literal v] /\ at_time D m r v p).
(* The references for which the code gets it right *)
Definition travels_well (D S : string) (m : schema_map) (f : factor) : Prop :=
  wf (fname f) /\ forall r, stands_for D S (fname f) r ->
  (forall v v', fargs f = Some [Literal v] -> lower_case v v' ->
     (S = "public" \/ length (fname f) <> 1) /\ lower_word (in_catalog r) /\ lower_word (in_schema r) /\ lower_word (called r) /\
     forall p, ~ there D m {| in_catalog := in_catalog r; in_schema := in_schema r; called := called r ++ String ":"%char v' |} p) /\
  (fargs f = None -> ~ In ":"%char (list_ascii_of_string (called r))).
(* Versions of a query that differ in case only denote the same time. *)
Definition same_times (q : list factor) : Prop := forall f f' v v' x, In f q -> In f' q -> fargs f = Some [Literal v] -> fargs f' = Some [Literal v'] ->
  lower_case v x -> lower_case v' x -> datetime v = datetime v'.
End Spec.
(* No table of the session is a version of another: so it is after a reload. *)
Definition no_versions (m : schema_map) : Prop := forall s ts t u v, m s = Some ts -> ts t <> Some (AtVersion u v).
(* An order in which a set is walked *)
Definition walks (order : list (table * string) -> list (table * string)) : Prop := forall l x, In x (order l) <-> In x l.
(* The name by which columns may refer to a table reference: its alias, or the last part of its name *)
Definition reference_name (f : factor) (x : string) : Prop :=
  match falias f with Some a => says a x | None => says (last (fname f) (EmptyString, true)) x end.
