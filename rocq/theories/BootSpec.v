(* What the properties C112 to C115 talk about. *)
From Coq Require Import Ascii String List Bool Arith NArith.
Require Verif.ConfigModel.
From Verif Require Import BootModel.
Import ListNotations.
Open Scope list_scope.
Open Scope string_scope.

(* The settings say v at p: it is the last value given there *)
Definition says (s : list (list string * value)) (p : list string) (v : value) : Prop :=
  v <> Table /\ exists a b, s = (a ++ (p, v) :: b)%list /\ forall w, In (p, w) b -> w = Table.
Definition silent (s : list (list string * value)) (p : list string) : Prop := forall w, In (p, w) s -> w = Table.

(* ---- The documented settings ---- *)
Inductive shown := ST (s : string) | SN (n : N) | SB (b : bool) | SA (a : ConfigModel.access) | SJ (j : journal).
Inductive reading := RText | RNumber (bits : N) | RAccess | RTagText | RTagFlag | RJournal.
(* One setting: where it is given, what its values mean, the value if it is not given (None: there is none), and the field that it sets *)
Record row := { rpath : list string; rreading : reading; rdefault : option shown; rget : config -> option shown }.
Definition on {A B} (x : option A) (f : A -> option B) : option B := match x with Some a => f a | None => None end.
Definition text_of (o : option string) : option shown := option_map ST o.
Definition addresses (p : list string) (host port : string) (default : N) (get : config -> option address) : list row :=
  [{| rpath := p ++ [host]; rreading := RText; rdefault := Some (ST "127.0.0.1"); rget := fun c => option_map (fun a => ST (bind_host a)) (get c) |};
   {| rpath := p ++ [port]; rreading := RNumber 16; rdefault := Some (SN default); rget := fun c => option_map (fun a => SN (bind_port a)) (get c) |}]%list.
Definition number_row (p : list string) (bits default : N) (get : config -> option N) : row := {| rpath := p; rreading := RNumber bits; rdefault := Some (SN default); rget := fun c => option_map SN (get c) |}.
Definition plain_rows : list row :=
  (addresses ["frontend"; "flight"] "bind_host" "bind_port" 47470 flight ++
   addresses ["frontend"; "postgres"] "bind_host" "bind_port" 6432 postgres ++
   addresses ["frontend"; "http"] "bind_host" "bind_port" 8080 (fun c => option_map http_address (web c)) ++
   addresses ["misc"; "metrics"] "host" "port" 9090 (fun c => metrics (rest c)) ++
   [{| rpath := ["frontend"; "http"; "read_access"]; rreading := RAccess; rdefault := Some (SA ConfigModel.Any); rget := fun c => option_map (fun h => SA (read_access h)) (web c) |};
    {| rpath := ["frontend"; "http"; "write_access"]; rreading := RAccess; rdefault := Some (SA ConfigModel.Off); rget := fun c => option_map (fun h => SA (write_access h)) (web c) |};
    number_row ["frontend"; "http"; "upload_data_max_length"] 64 256 (fun c => option_map upload_data_max_length (web c));
    {| rpath := ["frontend"; "http"; "cache_control"]; rreading := RText; rdefault := Some (ST "max-age=43200, public"); rget := fun c => option_map (fun h => ST (cache_control h)) (web c) |};
    {| rpath := ["runtime"; "max_memory"]; rreading := RNumber 64; rdefault := None; rget := fun c => option_map SN (max_memory c) |};
    {| rpath := ["runtime"; "temp_dir"]; rreading := RText; rdefault := None; rget := fun c => text_of (temp_dir c) |};
    number_row ["misc"; "max_partition_size"] 32 1048576 (fun c => Some (max_partition_size (rest c)));
    number_row ["misc"; "gc_interval"] 16 0 (fun c => Some (gc_interval (rest c)));
    {| rpath := ["misc"; "ssl_cert_file"]; rreading := RText; rdefault := None; rget := fun c => text_of (ssl_cert_file (rest c)) |};
    number_row ["misc"; "object_store_cache"; "capacity"] 64 1073741824 (fun c => option_map capacity (object_store_cache (rest c)));
    number_row ["misc"; "object_store_cache"; "min_fetch_size"] 64 1048576 (fun c => option_map min_fetch_size (object_store_cache (rest c)));
    number_row ["misc"; "object_store_cache"; "ttl"] 64 180 (fun c => option_map ttl (object_store_cache (rest c)));
    number_row ["misc"; "sync_conf"; "max_in_memory_bytes"] 64 3221225472 (fun c => Some (max_in_memory_bytes (sync (rest c))));
    number_row ["misc"; "sync_conf"; "max_replication_lag_s"] 64 600 (fun c => Some (max_replication_lag_s (sync (rest c))));
    number_row ["misc"; "sync_conf"; "max_syncs_per_url"] 64 100 (fun c => Some (max_syncs_per_url (sync (rest c))));
    number_row ["misc"; "sync_conf"; "write_lock_timeout_s"] 64 3 (fun c => Some (write_lock_timeout_s (sync (rest c))));
    number_row ["misc"; "sync_conf"; "flush_task_interval_s"] 64 900 (fun c => Some (flush_task_interval_s (sync (rest c))))])%list.
(* The settings of one type of catalog or object store *)
Definition tag_text (p : list string) (d : option shown) (get : config -> option string) : row := {| rpath := p; rreading := RTagText; rdefault := d; rget := fun c => text_of (get c) |}.
Definition tag_flag (p : list string) (d : bool) (get : config -> option bool) : row := {| rpath := p; rreading := RTagFlag; rdefault := Some (SB d); rget := fun c => option_map SB (get c) |}.
Definition of_s3 {A} (f : s3 -> option A) (c : config) : option A := match object_store c with Some (AmazonS3 a) => f a | _ => None end.
(* (where the type is given, the type, the setting) *)
Definition tagged_rows : list (list string * string * row) :=
  [(["catalog"; "type"], "postgres", tag_text ["catalog"; "dsn"] None (fun c => match cat c with Some (Postgres d _) => Some d | _ => None end));
   (["catalog"; "type"], "postgres", tag_text ["catalog"; "schema"] (Some (ST "public")) (fun c => match cat c with Some (Postgres _ x) => Some x | _ => None end));
   (["catalog"; "type"], "sqlite", tag_text ["catalog"; "dsn"] None (fun c => match cat c with Some (Sqlite d _ _) => Some d | _ => None end));
   (["catalog"; "type"], "sqlite", {| rpath := ["catalog"; "journal_mode"]; rreading := RJournal; rdefault := Some (SJ JWal); rget := fun c => match cat c with Some (Sqlite _ j _) => Some (SJ j) | _ => None end |});
   (["catalog"; "type"], "sqlite", tag_flag ["catalog"; "read_only"] false (fun c => match cat c with Some (Sqlite _ _ r) => Some r | _ => None end));
   (["catalog"; "type"], "clade", tag_text ["catalog"; "dsn"] None (fun c => match cat c with Some (Clade d) => Some d | _ => None end));
   (["object_store"; "type"], "local", tag_text ["object_store"; "data_dir"] None (fun c => match object_store c with Some (Local d _) => Some d | _ => None end));
   (["object_store"; "type"], "local", tag_flag ["object_store"; "disable_hardlinks"] false (fun c => match object_store c with Some (Local _ h) => Some h | _ => None end));
   (["object_store"; "type"], "s3", tag_text ["object_store"; "region"] None (of_s3 region));
   (["object_store"; "type"], "s3", tag_text ["object_store"; "access_key_id"] None (of_s3 access_key_id));
   (["object_store"; "type"], "s3", tag_text ["object_store"; "secret_access_key"] None (of_s3 secret_access_key));
   (["object_store"; "type"], "s3", tag_text ["object_store"; "session_token"] None (of_s3 session_token));
   (["object_store"; "type"], "s3", tag_text ["object_store"; "endpoint"] None (of_s3 endpoint));
   (["object_store"; "type"], "s3", tag_text ["object_store"; "bucket"] None (of_s3 (fun a => Some (bucket a))));
   (["object_store"; "type"], "s3", tag_text ["object_store"; "prefix"] None (of_s3 prefix));
   (["object_store"; "type"], "s3", tag_flag ["object_store"; "allow_http"] true (of_s3 (fun a => Some (allow_http a))));
   (["object_store"; "type"], "s3", tag_flag ["object_store"; "skip_signature"] true (of_s3 (fun a => Some (skip_signature a))));
   (["object_store"; "type"], "gcs", tag_text ["object_store"; "bucket"] None (fun c => match object_store c with Some (Gcs b _ _) => Some b | _ => None end));
   (["object_store"; "type"], "gcs", tag_text ["object_store"; "prefix"] None (fun c => match object_store c with Some (Gcs _ x _) => x | _ => None end));
   (["object_store"; "type"], "gcs", tag_text ["object_store"; "google_application_credentials"] None (fun c => match object_store c with Some (Gcs _ _ k) => k | _ => None end))].
Definition journals : list (string * journal) := [("delete", JDelete); ("truncate", JTruncate); ("persist", JPersist); ("memory", JMemory); ("wal", JWal); ("off", JOff)].
(* What a value means: x is the meaning of v. Numbers mean themselves and have to fit. *)
Inductive means (to_text : value -> option string) (to_number : value -> option N) : reading -> value -> shown -> Prop :=
| MText v t : to_text v = Some t -> means to_text to_number RText v (ST t)
| MNumber bits v n : to_number v = Some n -> (n < 2 ^ bits)%N -> means to_text to_number (RNumber bits) v (SN n)
| MAny v : to_text v = Some "any" -> means to_text to_number RAccess v (SA ConfigModel.Any)
| MOff v : to_text v = Some "off" -> means to_text to_number RAccess v (SA ConfigModel.Off)
| MPassword v h : to_text v = Some h -> h <> "any" -> h <> "off" -> means to_text to_number RAccess v (SA (ConfigModel.Password h))
| MTagText t : means to_text to_number RTagText (VText t) (ST t)
| MTagFlag b : means to_text to_number RTagFlag (VBool b) (SB b)
| MJournal t j : In (t, j) journals -> means to_text to_number RJournal (VText t) (SJ j).
(* The crate refuses numbers that do not fit, or cuts them off *)
Definition refuses (narrow : N -> N -> option N) : Prop := forall bits n m, narrow bits n = Some m -> m = n /\ (n < 2 ^ bits)%N.
Definition cuts_off (narrow : N -> N -> option N) : Prop := forall bits n, narrow bits n = Some (n mod 2 ^ bits)%N.
(* Sections that are switched on by anything in them; paths that are looked at *)
Definition sections : list (list string) := [["object_store"]; ["catalog"]; ["frontend"; "flight"]; ["frontend"; "postgres"]; ["frontend"; "http"]; ["misc"; "metrics"]; ["misc"; "object_store_cache"]].
Definition known : list (list string) :=
  (map rpath plain_rows ++ map (fun r => rpath (snd r)) tagged_rows ++ [["catalog"; "type"]; ["object_store"; "type"]] ++ sections ++ [["frontend"]; ["runtime"]; ["misc"]; ["misc"; "sync_conf"]])%list.

(* What a type of catalog or object store cannot do without *)
Definition needed : list (list string * string * list string) :=
  [(["catalog"; "type"], "postgres", ["catalog"; "dsn"]); (["catalog"; "type"], "sqlite", ["catalog"; "dsn"]); (["catalog"; "type"], "clade", ["catalog"; "dsn"]);
   (["object_store"; "type"], "local", ["object_store"; "data_dir"]); (["object_store"; "type"], "s3", ["object_store"; "bucket"]); (["object_store"; "type"], "gcs", ["object_store"; "bucket"])].
(* Settings that follow the documentation: all values have a meaning, every catalog or store that is mentioned has a type and what this type needs, and no section is a value *)
Definition documented (to_text : value -> option string) (to_number : value -> option N) (s : list (list string * value)) : Prop :=
  (forall r v, In r plain_rows -> says s (rpath r) v -> exists x, means to_text to_number (rreading r) v x) /\
  (forall p t r v, In (p, t, r) tagged_rows -> says s p (VText t) -> says s (rpath r) v -> exists x, means to_text to_number (rreading r) v x) /\
  (forall p t q, In (p, t, q) needed -> says s p (VText t) -> exists v, says s q v) /\
  ((exists e, In e s /\ hd "" (fst e) = "catalog") -> exists t, In t ["postgres"; "sqlite"; "clade"] /\ says s ["catalog"; "type"] (VText t)) /\
  ((exists e, In e s /\ hd "" (fst e) = "object_store") -> exists t, In t ["local"; "memory"; "s3"; "gcs"] /\ says s ["object_store"; "type"] (VText t)) /\
  (forall p, In p (sections ++ [["frontend"]; ["runtime"]; ["misc"]; ["misc"; "sync_conf"]])%list -> silent s p).
(* The crate takes numbers that fit *)
Definition takes (narrow : N -> N -> option N) : Prop := forall bits n, (n < 2 ^ bits)%N -> narrow bits n = Some n.

(* The variable that sets a setting *)
Definition upper_char (c : ascii) : ascii := let n := nat_of_ascii c in if (Nat.leb 97 n && Nat.leb n 122)%bool then ascii_of_nat (n - 32) else c.
Fixpoint upper (s : string) : string := match s with EmptyString => "" | String c r => String (upper_char c) (upper r) end.
Definition variable_name (p : list string) : string := "SEAFOWL" ++ String.concat "" (map (fun k => "__" ++ upper k) p).

(* ---- The catalog ---- *)
Definition ready (r : records) : Prop := In "default" (databases r) /\ In ("default", "public") (schemas r).
(* Nothing but the default database and its schema is added, and nothing twice *)
Definition only_adds (r r' : records) : Prop :=
  (databases r' = databases r \/ ~ In "default" (databases r) /\ databases r' = databases r ++ ["default"])%list /\
  (schemas r' = schemas r \/ ~ In ("default", "public") (schemas r) /\ schemas r' = schemas r ++ [("default", "public")])%list.
Definition no_failures (schedule : list (nat * bool)) : Prop := Forall (fun e => snd e = false) schedule.
