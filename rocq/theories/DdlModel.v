(* The statements that change the catalog and the object store together: src/context/physical.rs (CREATE/DROP/ALTER/INSERT/TRUNCATE/VACUUM
   arms, file_to_table), src/context/delta.rs (create_delta_table, plan_to_delta_table, delete_delta_table), with the checks of
   src/context/logical.rs. Every statement is a list of successive worlds, one for each atomic effect, so that a crash, a lost connection or
   a failing call leaves one of them. Statements run one after another. *)
From Coq Require Import String List Arith Bool Ascii.
Import ListNotations.
From Verif Require Import CatalogModel.
Open Scope list_scope.

(* What is stored under a location (the uuid prefix of a table in the internal object store): nothing; plain Parquet files; a partly
   deleted table; a Delta table, with its version and the writes that are live in it. A write is opaque. *)
Inductive blob := Absent | Raw (r : nat) | Broken | Delta (version : nat) (writes : list nat).
(* The catalog, the object store, the tables of the in-memory staging schema of the session. *)
Record world := { cat : catalog; data : nat -> blob; staged : list string }.
Definition put (u : nat) (b : blob) (w : world) : world :=
  {| cat := cat w; data := fun x => if Nat.eqb x u then b else data w x; staged := staged w |}.
Definition set_cat (c : catalog) (w : world) : world := {| cat := c; data := data w; staged := staged w |}.
Definition set_staged (l : list string) (w : world) : world := {| cat := cat w; data := data w; staged := l |}.

(* the worlds after each effect, and whether the statement succeeds *)
Definition result := (list world * bool)%type.
Definition seq (w : world) (x : result) (k : world -> result) : result :=
  let '(tr, ok) := x in
  if ok : bool then let '(tr2, ok2) := k (last tr w) in (tr ++ tr2, ok2) else (tr, false).

Definition system : string := "system".
Definition default_schema : string := "public".               (* config/context.rs, catalog DEFAULT_SCHEMA *)
Definition system_tables : list string := ["table_versions"; "dropped_tables"]%string.      (* system_tables.rs:25-50 *)

(* TableReference::from(&str) for a name that is a single plain identifier: an unquoted identifier is lower-cased. What the parser does
   with other names (with dots, quotes or other characters) is a parameter of [upload]. *)
Definition lower_ascii (a : ascii) : ascii :=
  let n := nat_of_ascii a in if Nat.leb 65 n && Nat.leb n 90 then ascii_of_nat (n + 32) else a.
Fixpoint lower (s : string) : string := match s with EmptyString => EmptyString | String a s' => String (lower_ascii a) (lower s') end.
Definition word_ascii (a : ascii) : bool :=
  let n := nat_of_ascii a in (Nat.leb 65 n && Nat.leb n 90) || (Nat.leb 97 n && Nat.leb n 122) || Nat.eqb n 95.
Fixpoint all_word (s : string) : bool := match s with EmptyString => true | String a s' => word_ascii a && all_word s' end.
Definition simple (s : string) : bool := negb (String.eqb s EmptyString) && all_word s.

Section Ddl.
Variable lim : nat.                                            (* columns that fit in one INSERT of the catalog database *)
Variable be : backend.
Variable order : list string -> list string.                   (* the order in which the tables of a schema are visited (a hash map) *)
Variable parse_other : string -> string * string * string.     (* resolution of a name that is no plain identifier *)

(* the location of a table in the catalog *)
Definition table_uuid (d s t : string) (c : catalog) : option nat :=
  match find (fun r => in_coll d s r c && String.eqb (tb_name r) t) (tbls c) with Some r => Some (tb_uuid r) | None => None end.
(* SessionContext::table_provider over the catalog that reload_schema (mod.rs:89-112) registers: only the database D of the session is
   there; provider.rs:25-60: "staging" and "system" come first; provider.rs:90-130: a table of the catalog is loaded from its location. *)
Inductive prov := PDelta (u version : nat) (writes : list nat) | POther.
Definition provider (D d s t : string) (w : world) : option prov :=
  if negb (String.eqb d D) then None
  else if String.eqb s staging then if existsb (String.eqb t) (staged w) then Some POther else None
  else if String.eqb s system then if existsb (String.eqb t) system_tables then Some POther else None
  else match table_uuid d s t (cat w) with
       | None => None
       | Some u => match data w u with Delta v ws => Some (PDelta u v ws) | _ => None end
       end.
Definition is_delta (p : option prov) : bool := match p with Some (PDelta _ _ _) => true | _ => false end.
(* CatalogProvider::schema: provider.rs:33-60 *)
Definition session_schema (D s : string) (w : world) : bool :=
  String.eqb s staging || String.eqb s system || match get_collection D s (cat w) with Ok _ => true | Err _ => false end.
Definition schema_tables (D s : string) (w : world) : list string :=
  if String.eqb s staging then staged w
  else if String.eqb s system then system_tables
  else map tb_name (filter (fun r => in_coll D s r (cat w)) (tbls (cat w))).

(* one operation of the catalog *)
Definition cat_step (o : cop) (w : world) : result := let '(c, ok) := cstep lim be o (cat w) in ([set_cat c w], ok).

(* delta.rs:355-370: tables.create (a transaction, then the columns) *)
Definition register_catalog (D s t : string) (fields : list (string * nat)) (u now : nat) (w : world) : result :=
  let '(c, ok) := cstep lim be (CreateTable D s t fields u now) (cat w) in
  ([set_cat (fst (cstep lim be (CreateTableCrash D s t u now) (cat w))) w; set_cat c w], ok).
(* delta.rs:275-380 after the location is known and holds the table [b]: [inner.register_table] (372-373) finds no other database than D,
   and the system schema takes no tables (SchemaProvider::register_table by default) *)
Definition create_at (D d s t : string) (fields : list (string * nat)) (u now : nat) (b : blob) (w : world) : result :=
  seq w ([put u b w], true) (fun w1 =>
    seq w1 (register_catalog D s t fields u now w1) (fun w2 => ([], String.eqb d D && negb (String.eqb s system)))).
(* delta.rs:275-319 with EmptyTable: the schema must exist in the database of the session; then a new location with an empty Delta table *)
Definition create_delta_table (D d s t : string) (fields : list (string * nat)) (u now : nat) (w : world) : result :=
  match schema_get D s (cat w) with
  | Err _ => ([], false)
  | Ok _ => create_at D d s t fields u now (Delta 0 []) w
  end.
(* delta.rs:320-353 with FromPath: Parquet files are converted in place; a location that is a Delta table is not registered; anything else
   is an error (simplified: also for a partly deleted table) *)
Definition convert_delta_table (D d s t : string) (fields : list (string * nat)) (u now : nat) (w : world) : result :=
  match schema_get D s (cat w) with
  | Err _ => ([], false)
  | Ok _ => match data w u with
            | Raw r => create_at D d s t fields u now (Delta 0 [r]) w
            | Delta _ _ => ([], true)
            | _ => ([], false)
            end
  end.
(* delta.rs:383-427: the Delta commit, then the version in the catalog (a transaction, then the columns) *)
Definition record_version (u version now : nat) (w : world) : result :=
  let '(c, ok) := cstep lim be (NewVersion u version now) (cat w) in
  ([set_cat (fst (cstep lim be (NewVersionCrash u version now) (cat w))) w; set_cat c w], ok).
Definition plan_to_delta_table (D d s t : string) (x now : nat) (w : world) : result :=
  match provider D d s t w with
  | Some (PDelta u v ws) => seq w ([put u (Delta (S v) (ws ++ [x])) w], true) (fun w1 => record_version u (S v) now w1)
  | _ => ([], false)
  end.
(* delta.rs:440-459: the objects under the location are deleted one by one *)
Definition delete_delta_table (D d s t : string) (w : world) : result :=
  match provider D d s t w with
  | Some (PDelta u _ _) => ([put u Broken w; put u Absent (put u Broken w)], true)
  | _ => ([], false)
  end.
(* physical.rs:540-557 *)
Fixpoint drop_each (D s : string) (ts : list string) (w : world) : result :=
  match ts with
  | [] => ([], true)
  | t :: ts' => seq w (seq w (delete_delta_table D D s t w) (cat_step (DropTable D s t))) (drop_each D s ts')
  end.
(* TableReference::from(&str) of a table name given to an upload, resolved with the defaults of the session *)
Definition parse_name (D t : string) : string * string * string := if simple t then (D, default_schema, lower t) else parse_other t.
Definition as_append (D s t : string) (fields : list (string * nat)) (x u now : nat) (exists_ : bool) (w : world) : result :=
  if exists_ then plan_to_delta_table D D s t x now w
  else seq w (create_delta_table D D s t fields u now w) (plan_to_delta_table D D s t x now).
(* physical.rs:906-1005 (the reading of the file is left out) *)
Definition upload (D s t : string) (fields : list (string * nat)) (x u now : nat) (w : world) : result :=
  if session_schema D s w
  then let '(d', s', t') := parse_name D t in
       as_append D s t fields x u now (match provider D d' s' t' w with Some _ => true | None => false end) w
  else seq w (cat_step (CreateSchema D s) w) (as_append D s t fields x u now false).

(* A statement, its names resolved with the defaults of the session (mod.rs:115-122) *)
Inductive stmt :=
| SCreateSchema (s : string) (if_not_exists : bool)
| SCreateDatabase (d : string) (if_not_exists : bool)
| SCreateTable (d s t : string) (if_not_exists : bool) (fields : list (string * nat))
| SCreateTableAs (d s t : string) (if_not_exists : bool) (fields : list (string * nat)) (x : nat)
| SInsert (d s t : string) (x : nat)
| STruncate (d s t : string)
| SVacuum (d s t : string)
| SConvert (location : nat) (d s t : string) (fields : list (string * nat))
| SDropTable (d s t : string) (if_exists : bool)
| SDropSchema (d s : string) (if_exists : bool)
| SRename (d s t d' s' t' : string)
| SUpload (s t : string) (fields : list (string * nat)) (x : nat).
(* D the database of the session, u the location that the uuid generator gives, now the clock *)
Definition exec (D : string) (u now : nat) (st : stmt) (w : world) : result :=
  match st with
  (* physical.rs:122-136: if_not_exists is not looked at *)
  | SCreateSchema s _ => cat_step (CreateSchema D s) w
  (* physical.rs:137-162 *)
  | SCreateDatabase d ine =>
      match get_database d (cat w) with
      | Ok _ => ([], ine)
      | Err _ => seq w (cat_step (CreateDb d) w) (cat_step (CreateSchema d default_schema))
      end
  (* physical.rs:595-607: if_not_exists is not looked at *)
  | SCreateTable d s t _ fields => create_delta_table D d s t fields u now w
  (* physical.rs:163-192 *)
  | SCreateTableAs d s t ine fields x =>
      if ine && is_delta (provider D d s t w) then ([], true)
      else seq w (create_delta_table D d s t fields u now w) (plan_to_delta_table D d s t x now)
  (* physical.rs:193-230, an INSERT into a Delta table *)
  | SInsert d s t x => plan_to_delta_table D d s t x now w
  (* physical.rs:666-702 *)
  | STruncate d s t =>
      match provider D d s t w with Some (PDelta u v _) => ([put u (Delta (S v) []) w], true) | _ => ([], false) end
  (* physical.rs:715-760, VACUUM of a table; the vacuum of the Delta table removes no live data *)
  | SVacuum d s t => cat_step (Vacuum d s t) w
  (* physical.rs:577-594 *)
  | SConvert l d s t fields => convert_delta_table D d s t fields l now w
  (* physical.rs:486-517; a failure to delete the files is only logged *)
  | SDropTable d s t ie =>
      if ie && negb (is_delta (provider D d s t w)) then ([], true)
      else if String.eqb s staging
           then (if negb (String.eqb d D) then ([], false)
                 else ([set_staged (filter (fun x => negb (String.eqb x t)) (staged w)) w], true))
           else seq w (fst (delete_delta_table D d s t w), true) (cat_step (DropTable d s t))
  (* physical.rs:518-572 *)
  | SDropSchema d s ie =>
      if negb (String.eqb d D) then ([], false)
      else if negb (session_schema D s w) then ([], ie)
      else seq w (drop_each D s (order (schema_tables D s w)) w) (cat_step (DropSchema D s))
  (* logical.rs:173-205, physical.rs:632-664; the assertion of TableStore::update (catalog/repository.rs:285-334) is never reached with
     two different databases, the source being in the database of the session *)
  | SRename d s t d' s' t' =>
      match provider D d s t w, provider D d' s' t' w with
      | None, _ => ([], false)
      | _, Some _ => ([], false)
      | _, None => if negb (String.eqb d' D) then ([], false) else cat_step (Rename d s t s' t') w
      end
  | SUpload s t fields x => upload D s t fields x u now w
  end.

(* the world that a statement leaves if it is not interrupted *)
Definition after (x : result) (w : world) : world := last (fst x) w.
(* the worlds that it can leave if it is *)
Definition points (x : result) (w : world) : list world := w :: fst x.

(* Histories. A statement in a session with any database, run to any point; Parquet files put by the user at a location that nothing
   uses; a temporary table in the staging schema. A new uuid is one that nothing uses. *)
Definition unused (w : world) (u : nat) : Prop := data w u = Absent /\ ~ In u (map tb_uuid (tbls (cat w))).
Inductive reach : world -> Prop :=
| reach_init : reach {| cat := empty; data := fun _ => Absent; staged := [] |}
| reach_exec D u now st w w' : reach w -> unused w u -> In w' (points (exec D u now st w) w) -> reach w'
| reach_raw u r w : reach w -> unused w u -> reach (put u (Raw r) w)
| reach_stage t w : reach w -> reach (set_staged (t :: staged w) w).
End Ddl.

(* The functions that a session can call: mod.rs:97-110 reload_schema, before every statement, registers the functions of the database,
   and takes none away; physical.rs:608-635 CREATE FUNCTION registers, then stores; DROP FUNCTION only deletes from the catalog. *)
Definition registry := string -> option nat.
Definition register (f : string) (x : nat) (r : registry) : registry := fun g => if String.eqb g f then Some x else r g.
Definition reload (D : string) (c : catalog) (r : registry) : registry :=
  match get_database D c with
  | Ok b => fold_left (fun r fx => register (fst fx) (snd fx) r) (get_all_functions b c) r
  | Err _ => r
  end.
Definition create_function_stmt lim be (D f : string) (orr : bool) (x : nat) (s : catalog * registry) : (catalog * registry) * bool :=
  let r := register f x (reload D (fst s) (snd s)) in
  let '(c, ok) := cstep lim be (CreateFn D f orr x) (fst s) in ((c, r), ok).
Definition drop_function_stmt lim be (D : string) (ie : bool) (names : list string) (s : catalog * registry) : (catalog * registry) * bool :=
  let '(c, ok) := cstep lim be (DropFn D ie names) (fst s) in ((c, reload D (fst s) (snd s)), ok).
(* any other statement *)
Definition callable (D f : string) (s : catalog * registry) : option nat := reload D (fst s) (snd s) f.

(* utils.rs:50-125 gc_databases: the rows of dropped_table with their status; [fails] says which deletions fail this time. An update or
   removal of a row is taken to succeed; SysModel.v has the updates as the database accepts and refuses them. *)
Inductive status := Pending | Retry | Failed.
Definition gc_row (fails : nat -> bool) (r : nat * status) : list (nat * status) :=
  match snd r with
  | Failed => [r]
  | s => if fails (fst r) then [(fst r, match s with Pending => Failed | _ => Retry end)] else []
  end.
Definition gc (fails : nat -> bool) (rows : list (nat * status)) : list (nat * status) := flat_map (gc_row fails) rows.
(* the locations whose objects are deleted by it *)
Definition gc_deleted (fails : nat -> bool) (rows : list (nat * status)) : list nat :=
  flat_map (fun r => match snd r with Failed => [] | _ => if fails (fst r) then [] else [fst r] end) rows.
Definition gcs (fs : list (nat -> bool)) (rows : list (nat * status)) : list (nat * status) := fold_left (fun r f => gc f r) fs rows.
