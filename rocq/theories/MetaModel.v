(* How the listing of a metastore becomes the tables that a query sees. Models build_catalog, build_schema and build_table of src/catalog/metastore.rs,
   the lookups of src/provider.rs and src/system_tables.rs, the sessions of src/context/mod.rs and query_to_stream of src/frontend/flight/handler.rs. *)
From Coq Require Import Ascii String List Bool Arith.
Import ListNotations.
Open Scope string_scope.
Open Scope list_scope.

(* ---- Listings: clade/proto/schema.proto ---- *)
(* TableFormat::try_from of the number in the message; Unknown: a number without a format *)
Inductive format := Delta | Iceberg | Unknown.
Record table_object := { t_name : string; t_path : string; t_store : option string; t_format : format }.
Record schema_object := { s_name : string; s_tables : list table_object }.
Record storage_location := { l_name : string; l_url : string; l_options : list (string * string) }.
Record listing := { schemas : list schema_object; stores : list storage_location }.

(* HashMap and DashMap, filled in the order of the list: the last value of a key wins *)
Fixpoint lookup {A} (m : list (string * A)) (k : string) : option A :=
  match m with [] => None | (k', v) :: m => match lookup m k with Some w => Some w | None => if String.eqb k' k then Some v else None end end.

Section Metastore.
  (* What other systems answer. [open_delta]: Url::parse and get_log_store_for_table; [open_default]: the configured store, if there is one; [open_iceberg]: reads
     the metadata of the table at once; [load]: DeltaTable::load *)
  Variable handle : Type.
  Variable open_delta : string -> list (string * string) -> string -> option handle.
  Variable open_default : string -> option handle.
  Variable open_iceberg : string -> list (string * string) -> string -> option handle.
  Variable loads : handle -> bool.

  Inductive provider := DeltaTable (h : handle) | IcebergTable (h : handle).
  (* metastore.rs 166-240 build_table *)
  Definition build_table (st : list (string * (string * list (string * string)))) (t : table_object) : option provider :=
    match t_format t with
    | Unknown => None
    | Delta =>
        match t_store t with
        | Some n => match lookup st n with Some (u, o) => option_map DeltaTable (open_delta u o (t_path t)) | None => None end
        | None => option_map DeltaTable (open_default (t_path t))
        end
    | Iceberg =>
        match t_store t with
        | Some n => match lookup st n with Some (u, o) => option_map IcebergTable (open_iceberg u o (t_path t)) | None => None end
        | None => None
        end
    end.
  (* try_collect: the first error is the result *)
  Fixpoint collect {A B} (f : A -> option B) (l : list A) : option (list B) :=
    match l with [] => Some [] | a :: l => match f a with Some b => option_map (cons b) (collect f l) | None => None end end.
  (* metastore.rs 144-164 build_schema *)
  Definition build_schema (st : list (string * (string * list (string * string)))) (s : schema_object) : option (string * list (string * provider)) :=
    option_map (fun ts => (s_name s, ts)) (collect (fun t => option_map (fun p => (t_name t, p)) (build_table st t)) (s_tables s)).
  (* metastore.rs 112-142 build_catalog *)
  Definition store_options (l : listing) : list (string * (string * list (string * string))) := map (fun s => (l_name s, (l_url s, l_options s))) (stores l).
  Definition build_catalog (l : listing) : option (list (string * list (string * provider))) := collect (build_schema (store_options l)) (schemas l).

  (* provider.rs 40-53 CatalogProvider for SeafowlDatabase: staging and system come first. [staging]: the names in the in-memory schema *)
  Inductive found := Stored (p : provider) | External | System | Missing | LoadError | NoSchema.
  (* system_tables.rs 47-73: what table finds; 75-80: what table_exist says *)
  Definition system_names : list string := ["table_versions"; "dropped_tables"].
  Definition system_table (n : string) : bool := existsb (String.eqb n) system_names.
  Definition lower_ascii (c : ascii) : ascii := let n := nat_of_ascii c in if (Nat.leb 65 n && Nat.leb n 90)%bool then ascii_of_nat (n + 32) else c.
  Fixpoint lower (s : string) : string := match s with EmptyString => "" | String c s => String (lower_ascii c) (lower s) end.
  Definition system_table_exist (n : string) : bool := existsb (String.eqb (lower n)) system_names.
  (* provider.rs 71-114 SchemaProvider::table for SeafowlSchema: Delta tables are loaded when they are looked up *)
  Definition find_table (c : list (string * list (string * provider))) (staging : list string) (s t : string) : found :=
    if String.eqb s "staging" then if existsb (String.eqb t) staging then External else Missing
    else if String.eqb s "system" then if system_table t then System else Missing
    else match lookup c s with
         | None => NoSchema
         | Some ts => match lookup ts t with
                      | None => Missing
                      | Some (DeltaTable h) => if loads h then Stored (DeltaTable h) else LoadError
                      | Some (IcebergTable h) => Stored (IcebergTable h)
                      end
         end.
  (* provider.rs 32-38 schema_names *)
  Definition schema_names (c : list (string * list (string * provider))) : list string := nodup string_dec (map fst c) ++ ["staging"; "system"].

  (* A query: reload_schema (context/mod.rs 89-113), then the lookup of every table it names; any error is the answer *)
  Inductive answer := Failed | Tables (l : list found).
  Definition is_error (f : found) : bool := match f with Stored _ | External | System => false | _ => true end.
  Definition query (l : listing) (staging : list string) (names : list (string * string)) : answer :=
    match build_catalog l with
    | None => Failed
    | Some c => let r := map (fun n => find_table c staging (fst n) (snd n)) names in if existsb is_error r then Failed else Tables r
    end.
End Metastore.
Arguments DeltaTable {_}. Arguments IcebergTable {_}. Arguments Stored {_}. Arguments External {_}. Arguments System {_}. Arguments Missing {_}. Arguments LoadError {_}. Arguments NoSchema {_}.
Arguments Failed {_}. Arguments Tables {_}.

(* ---- Sessions: which catalog a query resolves its names in ---- *)
(* SessionContext is shared by cloning; it holds the catalog that was registered last. [C]: catalogs as built by build_catalog. Queries are numbered.
   A query over Flight has its own session exactly if it has a search path (handler.rs 73-86, context/mod.rs 45-63 scope_to); otherwise its session is that of the
   server, also with an inline metastore (handler.rs 88-94, context/mod.rs 73-82 with_metastore). *)
Section Sessions.
  Variable C : Type.
  Record request := { search_path : bool; inline : option C }.
  Definition session_of (q : nat) (r : request) : option nat := if search_path r then Some q else None.    (* None: the session of the server *)
  (* The catalog of a query: that of its inline metastore, or that of the server at the moment (None: the server has no metastore, src/catalog/empty.rs) *)
  Record world := { server : option C; registered : option nat -> option C }.
  Inductive step := Reload (q : nat) | Lookup (q : nat) | ServerChanges (c : option C).
  Definition own (r : request) (w : world) : option C := match inline r with Some c => Some c | None => server w end.
  Definition opt_eqb (a b : option nat) : bool := match a, b with Some x, Some y => Nat.eqb x y | None, None => true | _, _ => false end.
  (* context/mod.rs 101-104: register_catalog replaces the catalog of the session; when it cannot be built the query fails before that *)
  Definition do_step (reqs : nat -> request) (w : world) (s : step) : world * option (nat * option C) :=
    match s with
    | Reload q =>
        match own (reqs q) w with
        | Some c => ({| server := server w; registered := fun i => if opt_eqb i (session_of q (reqs q)) then Some c else registered w i |}, None)
        | None => (w, None)
        end
    (* the planner looks up each table in the catalog of the session (SessionState::statement_to_plan) *)
    | Lookup q => (w, Some (q, registered w (session_of q (reqs q))))
    | ServerChanges c => ({| server := c; registered := registered w |}, None)
    end.
  Fixpoint run (reqs : nat -> request) (w : world) (l : list step) : world * list (nat * option C) :=
    match l with
    | [] => (w, [])
    | s :: l => let '(w, o) := do_step reqs w s in let '(w, os) := run reqs w l in (w, match o with Some x => x :: os | None => os end)
    end.
End Sessions.
Arguments search_path {_}. Arguments inline {_}. Arguments server {_}. Arguments registered {_}. Arguments Reload {_}. Arguments Lookup {_}. Arguments ServerChanges {_}.
Arguments own {_}. Arguments session_of {_}. Arguments do_step {_}. Arguments run {_}.

(* ---- External tables: one in-memory schema for the whole metastore of the server, a new one for each inline metastore (metastore.rs 40-108) ---- *)
Inductive staging_event := CreateExternal (database : string) (inlined : bool) (name : string) | See (database : string) (inlined : bool) (name : string).
(* MemorySchemaProvider::register_table refuses a name that exists *)
Definition staging_step (st : list string) (e : staging_event) : list string * bool :=
  match e with
  | CreateExternal _ inlined n => if inlined then (st, true) else if existsb (String.eqb n) st then (st, false) else (st ++ [n], true)
  | See _ inlined n => (st, if inlined then false else existsb (String.eqb n) st)
  end.
Fixpoint staging_run (st : list string) (l : list staging_event) : list bool :=
  match l with [] => [] | e :: l => let '(st, b) := staging_step st e in b :: staging_run st l end.

(* ---- The flag for restarts in the answers to sync commands: process_sync_cmd, handler.rs 137-147 reads and clears it in two steps, 157-233 answers with what was read;
   any error in between (a malformed location, an unsupported format, a failing flush) is answered without the flag ---- *)
Inductive stage := Idle | Arrived (first : bool) | Working (first : bool).
Record flag_state := { first_sync : bool; stages : nat -> stage }.
Inductive sync_step := Arrive (q : nat) | Clear (q : nat) | Respond (q : nat) | Error (q : nat) | Restart.
Definition at_ (s : flag_state) (q : nat) (st : stage) : nat -> stage := fun i => if Nat.eqb i q then st else stages s i.
Definition start : flag_state := {| first_sync := true; stages := fun _ => Idle |}.
Definition sync_do (s : flag_state) (e : sync_step) : flag_state * option (nat * bool) :=
  match e with
  | Arrive q => match stages s q with Idle => ({| first_sync := first_sync s; stages := at_ s q (Arrived (first_sync s)) |}, None) | _ => (s, None) end
  | Clear q => match stages s q with
               | Arrived f => ({| first_sync := if f then false else first_sync s; stages := at_ s q (Working f) |}, None)
               | _ => (s, None)
               end
  | Respond q => match stages s q with Working f => ({| first_sync := first_sync s; stages := at_ s q Idle |}, Some (q, f)) | _ => (s, None) end
  | Error q => match stages s q with Working _ => ({| first_sync := first_sync s; stages := at_ s q Idle |}, None) | _ => (s, None) end
  | Restart => (start, None)
  end.
Fixpoint sync_run (s : flag_state) (l : list sync_step) : flag_state * list (nat * bool) :=
  match l with
  | [] => (s, [])
  | e :: l => let '(s, o) := sync_do s e in let '(s, os) := sync_run s l in (s, match o with Some x => x :: os | None => os end)
  end.
