(* The start of a server: how the configuration is put together (src/config/schema.rs, src/main.rs) and how the catalog is prepared
   (build_context of src/config/context.rs). See BootSpec.v for what the properties mean and BootProps.v for the theorems.
   All optional features are compiled in, as by default. *)
From Coq Require Import Ascii String List Bool Arith NArith.
Require Verif.ConfigModel.
Import ListNotations.
Open Scope list_scope.
Open Scope string_scope.

(* ---- Settings ---- *)
(* A value of a TOML file or of the environment, where every value is a text. Simplified: no floats, dates and arrays; Table: a header without a value *)
Inductive value := VText (s : string) | VInt (n : N) | VBool (b : bool) | Table.
Notation path := (list string) (only parsing).
Notation settings := (list (list string * value)) (only parsing).
Fixpoint path_eqb (p q : path) : bool := match p, q with [], [] => true | a :: p, b :: q => String.eqb a b && path_eqb p q | _, _ => false end.
Fixpoint below (p q : path) : bool := match p, q with [], _ => true | a :: p, b :: q => String.eqb a b && below p q | _, _ => false end.
Definition is_value (v : value) : bool := match v with Table => false | _ => true end.
(* Config::builder: later sources, and later entries, win. Simplified: no entry turns a table into a value or back *)
Fixpoint setting (s : settings) (p : path) : option value :=
  match s with [] => None | (q, v) :: s => match setting s p with Some w => Some w | None => if (path_eqb q p && is_value v)%bool then Some v else None end end.
Definition section (s : settings) (p : path) : bool := existsb (fun e => below p (fst e)) s.
Definition bind {A B} (x : option A) (f : A -> option B) : option B := match x with Some a => f a | None => None end.
Notation "'do' x <- a ; b" := (bind a (fun x => b)) (at level 200, x name, a at level 100, b at level 200).
Definition under (p : path) (k : string) : list string := (p ++ [k])%list.

(* ---- The environment ---- *)
Definition lower_char (c : ascii) : ascii := let n := nat_of_ascii c in if (Nat.leb 65 n && Nat.leb n 90)%bool then ascii_of_nat (n + 32) else c.
Fixpoint lower (s : string) : string := match s with EmptyString => "" | String c r => String (lower_char c) (lower r) end.
(* Splitting at the separator "__" (the crate replaces it by a dot and then splits there) *)
Fixpoint split_separator (s : string) : list string :=
  match s with
  | EmptyString => [""]
  | String c r =>
      match c, r with
      | "_"%char, String "_"%char r' => "" :: split_separator r'
      | _, _ => match split_separator r with w :: ws => String c w :: ws | [] => [String c ""] end
      end
  end.
(* schema.rs 24-28, Environment::with_prefix("SEAFOWL").separator("__"): the variables with this prefix, in any case, all of them texts *)
Definition variable (e : string * string) : list (list string * value) :=
  let k := lower (fst e) in
  if String.prefix "seafowl__" k then [(split_separator (String.substring 9 (String.length k - 9) k), VText (snd e))] else [].
Definition environment (env : list (string * string)) : settings := flat_map variable env.

(* ---- Reading the settings (serde, with the conversions of the crate config) ---- *)
Record address := { bind_host : string; bind_port : N }.
Record http := { http_address : address; read_access : ConfigModel.access; write_access : ConfigModel.access; upload_data_max_length : N; cache_control : string }.
Record cache := { capacity : N; min_fetch_size : N; ttl : N }.
Record sync_conf := { max_in_memory_bytes : N; max_replication_lag_s : N; max_syncs_per_url : N; write_lock_timeout_s : N; flush_task_interval_s : N }.
Record misc := { max_partition_size : N; gc_interval : N; ssl_cert_file : option string; metrics : option address; object_store_cache : option cache; sync : sync_conf }.
Inductive journal := JDelete | JTruncate | JPersist | JMemory | JWal | JOff.
Inductive catalog := Postgres (dsn schema : string) | Sqlite (dsn : string) (mode : journal) (read_only : bool) | Clade (dsn : string).
Record s3 := { region : option string; access_key_id : option string; secret_access_key : option string; session_token : option string; endpoint : option string;
               bucket : string; prefix : option string; allow_http : bool; skip_signature : bool }.
Inductive store := Local (data_dir : string) (disable_hardlinks : bool) | Memory | AmazonS3 (c : s3) | Gcs (bucket : string) (prefix credentials : option string).
Record config := { object_store : option store; cat : option catalog; flight : option address; postgres : option address; web : option http;
                   max_memory : option N; temp_dir : option string; rest : misc }.

Section Crate.
  (* Conversions of the crate config: Value::into_string and into_uint (64 bits), and what becomes of a number in fewer bits *)
  Variable to_text : value -> option string.
  Variable to_number : value -> option N.
  Variable narrow : N -> N -> option N.

  Definition optional {A} (s : settings) (p : path) (f : value -> option A) : option (option A) := match setting s p with Some v => option_map Some (f v) | None => Some None end.
  Definition with_default {A} (s : settings) (p : path) (f : value -> option A) (d : A) : option A := match setting s p with Some v => f v | None => Some d end.
  Definition required {A} (s : settings) (p : path) (f : value -> option A) : option A := match setting s p with Some v => f v | None => None end.
  Definition number (bits : N) (v : value) : option N := bind (to_number v) (narrow bits).
  (* schema.rs 218-236 *)
  Definition access (v : value) : option ConfigModel.access := option_map ConfigModel.read_access_settings (to_text v).
  (* Fields of tagged unions are read without conversions (serde's ContentDeserializer) *)
  Definition tagged_text (v : value) : option string := match v with VText t => Some t | _ => None end.
  Definition tagged_flag (v : value) : option bool := match v with VBool b => Some b | _ => None end.
  (* A struct that is optional is there if one of its fields or its header is; a value in its place is an error *)
  Definition struct {A} (s : settings) (p : path) (f : option A) : option A := match setting s p with Some _ => None | None => f end.
  Definition optional_struct {A} (s : settings) (p : path) (f : option A) : option (option A) := if section s p then struct s p (option_map Some f) else Some None.

  (* schema.rs 163-210, 291-305 FlightFrontend, PostgresFrontend, Metrics *)
  Definition read_address (s : settings) (p : path) (host port : string) (default : N) : option address :=
    do h <- with_default s (under p host) to_text "127.0.0.1"; do n <- with_default s (under p port) (number 16) default; Some {| bind_host := h; bind_port := n |}.
  (* schema.rs 244-267 HttpFrontend *)
  Definition read_http (s : settings) : option http :=
    let p := ["frontend"; "http"] in
    do a <- read_address s p "bind_host" "bind_port" 8080%N;
    do r <- with_default s (under p "read_access") access ConfigModel.Any;
    do w <- with_default s (under p "write_access") access ConfigModel.Off;
    do u <- with_default s (under p "upload_data_max_length") (number 64) 256%N;
    do c <- with_default s (under p "cache_control") to_text "max-age=43200, public";
    Some {| http_address := a; read_access := r; write_access := w; upload_data_max_length := u; cache_control := c |}.
  (* schema.rs 307-323; cache.rs DEFAULT_CACHE_CAPACITY, DEFAULT_MIN_FETCH_SIZE, DEFAULT_CACHE_ENTRY_TTL *)
  Definition read_cache (s : settings) : option cache :=
    let p := ["misc"; "object_store_cache"] in
    do c <- with_default s (under p "capacity") (number 64) 1073741824%N;
    do m <- with_default s (under p "min_fetch_size") (number 64) 1048576%N;
    do t <- with_default s (under p "ttl") (number 64) 180%N;
    Some {| capacity := c; min_fetch_size := m; ttl := t |}.
  (* schema.rs 325-346 *)
  Definition read_sync (s : settings) : option sync_conf :=
    let p := ["misc"; "sync_conf"] in
    do b <- with_default s (under p "max_in_memory_bytes") (number 64) 3221225472%N;
    do l <- with_default s (under p "max_replication_lag_s") (number 64) 600%N;
    do u <- with_default s (under p "max_syncs_per_url") (number 64) 100%N;
    do w <- with_default s (under p "write_lock_timeout_s") (number 64) 3%N;
    do f <- with_default s (under p "flush_task_interval_s") (number 64) 900%N;
    Some {| max_in_memory_bytes := b; max_replication_lag_s := l; max_syncs_per_url := u; write_lock_timeout_s := w; flush_task_interval_s := f |}.
  (* schema.rs 269-293 *)
  Definition read_misc (s : settings) : option misc :=
    do m <- with_default s ["misc"; "max_partition_size"] (number 32) 1048576%N;
    do g <- with_default s ["misc"; "gc_interval"] (number 16) 0%N;
    do c <- optional s ["misc"; "ssl_cert_file"] to_text;
    do e <- optional_struct s ["misc"; "metrics"] (read_address s ["misc"; "metrics"] "host" "port" 9090%N);
    do o <- optional_struct s ["misc"; "object_store_cache"] (read_cache s);
    do y <- struct s ["misc"; "sync_conf"] (read_sync s);
    Some {| max_partition_size := m; gc_interval := g; ssl_cert_file := c; metrics := e; object_store_cache := o; sync := y |}.
  (* schema.rs 101-160 Catalog, a union tagged by "type" *)
  Definition journal_mode (v : value) : option journal :=
    match v with
    | VText t => if t =? "delete" then Some JDelete else if t =? "truncate" then Some JTruncate else if t =? "persist" then Some JPersist else
                 if t =? "memory" then Some JMemory else if t =? "wal" then Some JWal else if t =? "off" then Some JOff else None
    | _ => None
    end.
  Definition read_catalog (s : settings) : option catalog :=
    do t <- required s ["catalog"; "type"] tagged_text;
    if t =? "postgres" then do d <- required s ["catalog"; "dsn"] tagged_text; do c <- with_default s ["catalog"; "schema"] tagged_text "public"; Some (Postgres d c)
    else if t =? "sqlite" then
      do d <- required s ["catalog"; "dsn"] tagged_text; do j <- with_default s ["catalog"; "journal_mode"] journal_mode JWal; do r <- with_default s ["catalog"; "read_only"] tagged_flag false; Some (Sqlite d j r)
    else if t =? "clade" then do d <- required s ["catalog"; "dsn"] tagged_text; Some (Clade d)
    else None.
  (* object_store_factory/src/{lib.rs 24-33, local.rs 6-15, aws.rs 19-36, google.rs 10-15}, a union tagged by "type" *)
  Definition read_store (s : settings) : option store :=
    let p := ["object_store"] in
    do t <- required s (under p "type") tagged_text;
    if t =? "local" then do d <- required s (under p "data_dir") tagged_text; do h <- with_default s (under p "disable_hardlinks") tagged_flag false; Some (Local d h)
    else if t =? "memory" then Some Memory
    else if t =? "s3" then
      do r <- optional s (under p "region") tagged_text; do a <- optional s (under p "access_key_id") tagged_text; do k <- optional s (under p "secret_access_key") tagged_text;
      do n <- optional s (under p "session_token") tagged_text; do e <- optional s (under p "endpoint") tagged_text; do b <- required s (under p "bucket") tagged_text;
      do x <- optional s (under p "prefix") tagged_text; do h <- with_default s (under p "allow_http") tagged_flag true; do g <- with_default s (under p "skip_signature") tagged_flag true;
      Some (AmazonS3 {| region := r; access_key_id := a; secret_access_key := k; session_token := n; endpoint := e; bucket := b; prefix := x; allow_http := h; skip_signature := g |})
    else if t =? "gcs" then
      do b <- required s (under p "bucket") tagged_text; do x <- optional s (under p "prefix") tagged_text; do c <- optional s (under p "google_application_credentials") tagged_text; Some (Gcs b x c)
    else None.
  (* schema.rs 42-55 SeafowlConfig *)
  Definition deserialize (s : settings) : option config :=
    do o <- optional_struct s ["object_store"] (read_store s);
    do c <- optional_struct s ["catalog"] (read_catalog s);
    do y <- struct s ["frontend"] (Some tt);
    do f <- optional_struct s ["frontend"; "flight"] (read_address s ["frontend"; "flight"] "bind_host" "bind_port" 47470%N);
    do g <- optional_struct s ["frontend"; "postgres"] (read_address s ["frontend"; "postgres"] "bind_host" "bind_port" 6432%N);
    do h <- optional_struct s ["frontend"; "http"] (read_http s);
    do z <- struct s ["runtime"] (Some tt);
    do m <- optional s ["runtime"; "max_memory"] (number 64);
    do t <- optional s ["runtime"; "temp_dir"] to_text;
    do x <- struct s ["misc"] (read_misc s);
    Some {| object_store := o; cat := c; flight := f; postgres := g; web := h; max_memory := m; temp_dir := t; rest := x |}.
  (* schema.rs 356-407: the part of the configuration that is checked, in the form of ConfigModel.v *)
  Definition checked (c : config) : ConfigModel.config :=
    {| ConfigModel.object_store := option_map (fun o => match o with
         | Local d _ => ConfigModel.Local d | Memory => ConfigModel.Memory | AmazonS3 a => ConfigModel.AmazonS3 (region a) (endpoint a) (bucket a)
         | Gcs b _ k => ConfigModel.GoogleCloudStorage k b end) (object_store c);
       ConfigModel.cat := option_map (fun x => match x with Postgres d _ => ConfigModel.Postgres d | Sqlite d _ _ => ConfigModel.Sqlite d | Clade d => ConfigModel.Clade d end) (cat c);
       ConfigModel.max_memory := max_memory c; ConfigModel.has_cache := match object_store_cache (rest c) with Some _ => true | None => false end;
       ConfigModel.gc_interval := gc_interval (rest c) |}.
  Definition validated (c : config) : option config := match ConfigModel.validate_config (checked c) with inl _ => Some c | inr _ => None end.
  (* schema.rs 409-436 load_config and load_config_from_string: the file and then the environment *)
  Definition load (file : settings) (env : list (string * string)) : option config := bind (deserialize (file ++ environment env)) validated.

  (* ---- Which file: main.rs 120-143. A disk has parsed files by their names; a file that cannot be parsed is left out ---- *)
  (* schema.rs 57-99: the settings of the file that build_default_config writes *)
  Definition default_file : settings :=
    [(["object_store"; "type"], VText "local"); (["object_store"; "data_dir"], VText "seafowl-data");
     (["catalog"; "type"], VText "sqlite"); (["catalog"; "dsn"], VText "seafowl-data/seafowl.sqlite");
     (["frontend"; "http"; "bind_host"], VText "127.0.0.1"); (["frontend"; "http"; "bind_port"], VInt 8080);
     (["frontend"; "http"; "read_access"], VText "any"); (["frontend"; "http"; "write_access"], VText "off")].
  Notation disk := (list (string * list (list string * value))) (only parsing).
  Fixpoint contents (d : disk) (name : string) : option (list (list string * value)) := match d with [] => None | (n, f) :: d => if n =? name then Some f else contents d name end.
  (* The configuration and the disk afterwards; None: the server does not start. File::required(false): a missing file has no settings.
     Simplified: the crate config also looks for other extensions of a missing file *)
  Definition start (name : string) (env : list (string * string)) (d : disk) : option config * list (string * list (list string * value)) :=
    match contents d name with
    | Some f => (load f env, d)
    | None => if name =? "seafowl.toml" then match load default_file env with Some c => (Some c, (d ++ [(name, default_file)])%list) | None => (None, d) end
              else (load [] env, d)
    end.
End Crate.

(* ---- The catalog: context.rs 168-182 ---- *)
(* What a catalog records, as far as the start is concerned *)
Record records := { databases : list string; schemas : list (string * string) }.
(* Repositories may refuse to write; other catalogs (external, inline, none) implement neither get nor create *)
Inductive kind := Writable | ReadOnly | NotImplemented.
Definition mem (x : string) (l : list string) : bool := existsb (String.eqb x) l.
Definition mem2 (x : string * string) (l : list (string * string)) : bool := existsb (fun y => (String.eqb (fst x) (fst y) && String.eqb (snd x) (snd y))%bool) l.
(* Where a starting server is; each step is one access to the catalog *)
Inductive stage := LookDatabase | MakeDatabase | LookSchema | MakeSchema | Running | Dead.
(* A step; [broken]: the access fails for another reason, such as a lost connection. SchemaStore::get and create look up the database first;
   a missing database is then CatalogDoesNotExist, which is not SchemaDoesNotExist *)
Definition boot_step (k : kind) (broken : bool) (r : records) (g : stage) : records * stage :=
  match g with
  | LookDatabase => (r, match k with NotImplemented => LookSchema | _ => if broken then LookSchema else if mem "default" (databases r) then LookSchema else MakeDatabase end)
  | MakeDatabase =>
      match k with
      | Writable => if (broken || mem "default" (databases r))%bool then (r, Dead) else ({| databases := databases r ++ ["default"]; schemas := schemas r |}, LookSchema)
      | _ => (r, Dead)
      end
  | LookSchema =>
      (r, match k with NotImplemented => Running | _ => if broken then Running else if negb (mem "default" (databases r)) then Running else if mem2 ("default", "public") (schemas r) then Running else MakeSchema end)
  | MakeSchema =>
      match k with
      | Writable => if (broken || negb (mem "default" (databases r)) || mem2 ("default", "public") (schemas r))%bool then (r, Dead)
                    else ({| databases := databases r; schemas := schemas r ++ [("default", "public")] |}, Running)
      | _ => (r, Dead)
      end
  | _ => (r, g)
  end.
(* Several servers start on one catalog: (which server steps, does the access fail) *)
Definition stages_at (l : list stage) (i : nat) (g : stage) : list stage := (firstn i l ++ match skipn i l with [] => [] | _ :: r => g :: r end)%list.
Fixpoint boots (k : kind) (r : records) (l : list stage) (schedule : list (nat * bool)) : records * list stage :=
  match schedule with
  | [] => (r, l)
  | (i, broken) :: rest => match nth_error l i with Some g => let '(r', g') := boot_step k broken r g in boots k r' (stages_at l i g') rest | None => boots k r l rest end
  end.
