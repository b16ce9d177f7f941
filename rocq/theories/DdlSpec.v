(* What C43, C45-C47, C50-C52 and C73-C78 say about a world: names, locations, contents. *)
From Coq Require Import String List Arith Bool Ascii.
Import ListNotations.
From Verif Require Import CatalogModel CatalogSpec DdlModel.
Open Scope list_scope.

Definition exists_db (w : world) (d : string) : Prop := exists b, has_db (cat w) d b.
Definition exists_schema (w : world) (d s : string) : Prop := exists k, has_schema (cat w) d s k.
Definition exists_table (w : world) (d s t : string) : Prop := exists i u, has_table (cat w) d s t i u.
(* the table d.s.t is stored at u *)
Definition located (w : world) (d s t : string) (u : nat) : Prop := exists i, has_table (cat w) d s t i u.
(* the table d.s.t is at version v and consists of the writes ws *)
Definition holds (w : world) (d s t : string) (v : nat) (ws : list nat) : Prop := exists u, located w d s t u /\ data w u = Delta v ws.
(* the catalog (system.table_versions) lists version n of the table *)
Definition recorded (w : world) (d s t : string) (n : nat) : Prop :=
  exists i u v time, has_table (cat w) d s t i u /\ has_version (cat w) i v time n.
(* the columns that the catalog has for the table: those of some version of it *)
Definition column_of (w : world) (d s t : string) (name : string) (type : nat) : Prop :=
  exists i u v time n, has_table (cat w) d s t i u /\ has_version (cat w) i v time n /\ has_column (cat w) v name type.
(* a schema that is neither the in-memory one nor the one with the system tables *)
Definition ordinary (s : string) : Prop := s <> "staging"%string /\ s <> "system"%string.

(* nothing is stored differently, but at u *)
Definition other_data (u : nat) (w w' : world) : Prop := forall u', u' <> u -> data w' u' = data w u'.
Definition same_data (w w' : world) : Prop := forall u, data w' u = data w u.
(* no table appears, disappears or has other contents, but d.s.t *)
Definition other_tables (d s t : string) (w w' : world) : Prop :=
  forall d' s' t', (d', s', t') <> (d, s, t) ->
    (exists_table w' d' s' t' <-> exists_table w d' s' t') /\ forall v ws, holds w' d' s' t' v ws <-> holds w d' s' t' v ws.
Definition all_tables_same (w w' : world) : Prop :=
  forall d' s' t', (exists_table w' d' s' t' <-> exists_table w d' s' t') /\ forall v ws, holds w' d' s' t' v ws <-> holds w d' s' t' v ws.

(* Names. A plain name consists of letters and underscores. *)
Definition capital (a : ascii) : Prop := 65 <= nat_of_ascii a <= 90.                                   (* A-Z *)
Definition small (a : ascii) : Prop := 97 <= nat_of_ascii a <= 122.                                    (* a-z *)
Definition plain (t : string) : Prop := t <> EmptyString /\ Forall (fun a => capital a \/ small a \/ a = "_"%char) (list_ascii_of_string t).
(* t' is t in lower case: character by character, a capital letter is 32 before its small letter *)
Definition lower_case (t t' : string) : Prop :=
  Forall2 (fun a b => (capital a /\ nat_of_ascii b = nat_of_ascii a + 32) \/ (~ capital a /\ b = a)) (list_ascii_of_string t) (list_ascii_of_string t').
