(* Model of the checks of the configuration (src/config/schema.rs) and of the start of the background clean-up (src/main.rs).
   See ConfigSpec.v for what the properties mean and ConfigProps.v for the theorems. *)
From Coq Require Import Ascii String List Arith NArith Bool.
Import ListNotations.
Open Scope N_scope.

(* str::contains of Rust's standard library *)
Fixpoint contains (p s : string) : bool :=
  (String.prefix p s || match s with EmptyString => false | String _ r => contains p r end)%bool.

(* schema.rs 101-160 Catalog, Postgres, Sqlite, Clade. Simplified: the schema of Postgres, the journal mode and the read-only flag are left out
   (validate_config does not look at them). *)
Inductive catalog := Postgres (dsn : string) | Sqlite (dsn : string) | Clade (dsn : string).
(* object_store_factory/src/lib.rs 24-33 ObjectStoreConfig with aws.rs 19-31 S3Config, google.rs GCSConfig and local.rs LocalConfig.
   Simplified: only the fields that are checked, and the names of directories and buckets. *)
Inductive store :=
| Local (data_dir : string)
| Memory
| AmazonS3 (region endpoint : option string) (bucket : string)
| GoogleCloudStorage (credentials : option string) (bucket : string).
(* schema.rs 42-55 SeafowlConfig, 283-292 Misc, 349-354 Runtime (the fields that are checked; [has_cache]: misc.object_store_cache is given) *)
Record config := { object_store : option store; cat : option catalog; max_memory : option N; has_cache : bool; gc_interval : N }.

Inductive config_error := InMemoryMismatch | NoRegionOrEndpoint | TooLittleMemory.
(* schema.rs 30-31 *)
Definition MIN_MEMORY : N := 64.

(* schema.rs 356-407 validate_config. Simplified: the warnings are left out. *)
Definition in_memory_catalog (c : config) : bool := match cat c with Some (Sqlite dsn) => contains ":memory:" dsn | _ => false end.
Definition in_memory_object_store (c : config) : bool := match object_store c with Some Memory => true | _ => false end.
Definition validate_config (c : config) : config + config_error :=
  if xorb (in_memory_catalog c) (in_memory_object_store c) then inr InMemoryMismatch
  else match object_store c with
       | Some (AmazonS3 None None _) => inr NoRegionOrEndpoint
       | _ =>
           match max_memory c with
           | Some m => if m <? MIN_MEMORY then inr TooLittleMemory else inl c
           | None => inl c
           end
       end.

(* schema.rs 199-236 AccessSettings and how it is read from the configuration *)
Inductive access := Any | Off | Password (sha256_hash : string).
Definition read_access_settings (s : string) : access :=
  if String.eqb s "any" then Any else if String.eqb s "off" then Off else Password s.

(* main.rs 239-256: the background clean-up. The interval is a u16; [checked]: arithmetic overflow panics (debug builds), otherwise it wraps
   around (release builds). tokio::time::interval panics if the period is zero. *)
Inductive cleanup := NotStarted | Panics | Every (seconds : N).
Definition u16_size : N := 65536.
Definition start_cleanup (checked : bool) (c : config) : cleanup :=
  if 0 <? gc_interval c then
    let product := gc_interval c * 3600 in
    if (checked && (u16_size <=? product))%bool then Panics
    else let period := product mod u16_size in
         if period =? 0 then Panics
         else match object_store c with Some _ => Every period | None => NotStarted end
  else NotStarted.
