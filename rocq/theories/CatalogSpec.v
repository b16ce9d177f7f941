(* What C41-C44, C48, C49 and C66 say about a catalog, by names and identities. *)
From Coq Require Import String List Arith Bool.
Import ListNotations.
From Verif Require Import CatalogModel.
Open Scope list_scope.

(* database d exists, with identity b; schema d.s exists, with identity k; table d.s.t exists, with identity i and location u;
   function d.f exists with definition x *)
Definition has_db (c : catalog) (d : string) (b : nat) : Prop := exists r, In r (dbs c) /\ db_name r = d /\ db_id r = b.
Definition has_schema (c : catalog) (d s : string) (k : nat) : Prop :=
  exists b r, has_db c d b /\ In r (colls c) /\ co_db r = b /\ co_name r = s /\ co_id r = k.
Definition has_table (c : catalog) (d s t : string) (i u : nat) : Prop :=
  exists k r, has_schema c d s k /\ In r (tbls c) /\ tb_coll r = k /\ tb_name r = t /\ tb_id r = i /\ tb_uuid r = u.
Definition has_function (c : catalog) (d f : string) (x : nat) : Prop :=
  exists b r, has_db c d b /\ In r (fns c) /\ fn_db r = b /\ fn_name r = f /\ fn_details r = x.
(* a version of the table with identity i: identity v, recorded at time, with the number n; column of a version *)
Definition has_version (c : catalog) (i v time n : nat) : Prop := In {| ve_id := v; ve_tbl := i; ve_time := time; ve_version := n |} (vers c).
Definition has_column (c : catalog) (v : nat) (name : string) (type : nat) : Prop := In {| cl_ver := v; cl_name := name; cl_type := type |} (cols c).

(* the catalogs that occur: after any history of operations, on either database, with any limit on the number of columns *)
Definition reachable (c : catalog) : Prop := exists lim be os, c = crun lim be os.

(* same databases, schemas, tables, functions (with their identities) *)
Definition same_dbs c c' := forall d b, has_db c' d b <-> has_db c d b.
Definition same_schemas c c' := forall d s k, has_schema c' d s k <-> has_schema c d s k.
Definition same_tables c c' := forall d s t i u, has_table c' d s t i u <-> has_table c d s t i u.
Definition same_functions c c' := forall d f x, has_function c' d f x <-> has_function c d f x.
Definition same_versions c c' := forall i v time n, has_version c' i v time n <-> has_version c i v time n.
Definition same_columns c c' := forall v name type, has_column c' v name type <-> has_column c v name type.

(* version w of table i is older than v: recorded earlier, or at the same time under a smaller identity *)
Definition newest_version (c : catalog) (i v : nat) : Prop :=
  exists time n, has_version c i v time n /\
    forall w time' n', has_version c i w time' n' -> w <> v -> time' < time \/ (time' = time /\ w < v).
(* the version recorded last (identities of versions are given in ascending order) *)
Definition last_version (c : catalog) (i v : nat) : Prop :=
  exists time n, has_version c i v time n /\ forall w time' n', has_version c i w time' n' -> w <= v.

(* C66: rows ordered by schema name, then table name, with respect to any order of names; a schema without tables has one row *)
Record name_order := { nle : string -> string -> Prop; nle_antisym : forall a b, nle a b -> nle b a -> a = b }.
Definition row_le (o : name_order) (a b : list_row) : Prop :=
  nle o (lr_coll a) (lr_coll b) /\
  (lr_coll a = lr_coll b -> match lr_table a, lr_table b with Some (x, _), Some (y, _) => nle o x y | _, _ => True end).
Fixpoint sorted (o : name_order) (l : list list_row) : Prop :=
  match l with [] => True | x :: l' => Forall (row_le o x) l' /\ sorted o l' end.

(* C42: from c to c' the tables with the identities in [gone] are removed, with their versions and columns, and nothing else of the
   tables, versions and columns *)
Definition removes_tables (c c' : catalog) (gone : nat -> Prop) : Prop :=
  (forall d s t i u, has_table c' d s t i u <-> has_table c d s t i u /\ ~ gone i) /\
  (forall i v time n, has_version c' i v time n <-> has_version c i v time n /\ ~ gone i) /\
  (forall v name type, has_column c' v name type <-> has_column c v name type /\ ~ exists i time n, gone i /\ has_version c i v time n).

(* C41: from c to c' exactly the table d.s.t is added, with a new identity i, the location u, and one version v with the number 0 *)
Definition adds_table (c c' : catalog) (d s t : string) (i u v now : nat) : Prop :=
  (forall d' s' t' u', ~ has_table c d' s' t' i u') /\ (forall i' time n, ~ has_version c i' v time n) /\
  (forall d' s' t' i' u', has_table c' d' s' t' i' u' <-> has_table c d' s' t' i' u' \/ (d' = d /\ s' = s /\ t' = t /\ i' = i /\ u' = u)) /\
  (forall i' v' time n, has_version c' i' v' time n <-> has_version c i' v' time n \/ (i' = i /\ v' = v /\ time = now /\ n = 0)).
(* the columns can be stored: no name twice, and not more than the database can bind *)
Definition fields_ok (lim : nat) (fields : list (string * nat)) : Prop := NoDup (map fst fields) /\ List.length fields <= lim.
(* C43: no table but i itself has the name *)
Definition target_free (c : catalog) (d s t : string) (i : nat) : Prop := forall i' u', has_table c d s t i' u' -> i' = i.
(* C44: the recorded times of the versions of a table never go back *)
Definition clock_ok (c : catalog) (i : nat) : Prop :=
  forall v time n w time' n', has_version c i v time n -> has_version c i w time' n' -> v < w -> time <= time'.
