(* What the properties of the configuration mean, independently of the checks in ConfigModel.v (only its types are used). *)
From Coq Require Import Ascii String List Arith NArith Bool.
From Verif Require Import ConfigModel.
Import ListNotations.
Open Scope string_scope.

(* ---- How SQLite's driver (sqlx, SqliteConnectOptions::from_str) reads the address of a database ----
   An optional scheme, the name of the database, and after a question mark parameters separated by "&".
   The database is kept in memory if its name is ":memory:" or if there is the parameter mode=memory.
   Simplified: parameters written with percent escapes are not considered. *)
Definition scheme (s : string) : Prop := s = "" \/ s = "sqlite:" \/ s = "sqlite://".
Definition has_char (a : ascii) (s : string) : Prop := exists x y, s = x ++ String a y.
Inductive address : string -> string -> list string -> Prop :=
| Without_parameters s name : scheme s -> ~ has_char "?" name -> address (s ++ name) name []
| With_parameters s name p params : scheme s -> ~ has_char "?" name -> address (s ++ name ++ "?" ++ String.concat "&" (p :: params)) name (p :: params).
(* an address can be read with several schemes; the driver always removes the longest one, so that the name does not start with a scheme *)
Definition reads_as (dsn name : string) (params : list string) : Prop :=
  address dsn name params /\ (forall r, name <> "sqlite:" ++ r) /\ (forall r, name <> "//" ++ r).
Definition kept_in_memory (dsn : string) : Prop :=
  exists name params, reads_as dsn name params /\ (name = ":memory:" \/ In "mode=memory" params).
Definition kept_in_a_file (dsn : string) : Prop :=
  exists name, reads_as dsn name [] /\ name <> ":memory:" /\ name <> "".

(* The metadata (the data) is lost when the process ends *)
Definition volatile_metadata (c : config) : Prop := exists dsn, cat c = Some (Sqlite dsn) /\ kept_in_memory dsn.
Definition volatile_data (c : config) : Prop := object_store c = Some Memory.
Definition persistent_metadata (c : config) : Prop :=
  match cat c with Some (Sqlite dsn) => kept_in_a_file dsn | Some _ => True | None => False end.
Definition persistent_data (c : config) : Prop := exists s, object_store c = Some s /\ s <> Memory.

(* An S3 store can be found *)
Definition s3_reachable (c : config) : Prop :=
  forall region endpoint bucket, object_store c = Some (AmazonS3 region endpoint bucket) -> region <> None \/ endpoint <> None.
Definition enough_memory (c : config) : Prop := forall m, max_memory c = Some m -> (64 <= m)%N.

(* The text ":memory:" is used in addresses only as the name of the database, and there are no parameters *)
Definition plain_address (dsn : string) : Prop :=
  ~ has_char "?" dsn /\ ((exists a b, dsn = a ++ ":memory:" ++ b) -> exists s, scheme s /\ dsn = s ++ ":memory:").
Definition plain (c : config) : Prop := forall dsn, cat c = Some (Sqlite dsn) -> plain_address dsn.

(* A SHA-256 hash in hexadecimal, as str_to_hex_hash writes it: 64 lower-case digits *)
Definition hex_digit (a : ascii) : Prop := (48 <= nat_of_ascii a <= 57)%nat \/ (97 <= nat_of_ascii a <= 102)%nat.
Definition hash_text (s : string) : Prop := String.length s = 64%nat /\ forall a, has_char a s -> hex_digit a.
