(* Servers that keep their catalogs in one PostgreSQL database, each in the schema of its configuration
   (/repo/src/repository/postgres.rs, PostgresRepository::try_new and connect; /repo/src/config/schema.rs 124-128).

   The name of the schema is put into two statements as it is, without quotes. What PostgreSQL reads there is modelled for names
   of ASCII letters, digits, _, $ and -; other texts (quoted names, bytes that are not ASCII, several words) are left
   to [other].

   Simplifications: the migrations make all tables at once; that the database itself is created if it does not exist
   (lines 47-49) is left out; a statement of the catalog is one step of CatalogModel.v. *)
From Coq Require Import Ascii String List Arith Bool.
From Verif Require Import CatalogModel.
Import ListNotations.
Local Open Scope list_scope.

(* ---- what PostgreSQL reads: scan.l (identifier, "--" comments), downcase_truncate_identifier, IsReservedName ---- *)
Notation text := (list ascii) (only parsing).
Definition between (a b : nat) (c : ascii) : bool := (Nat.leb a (nat_of_ascii c) && Nat.leb (nat_of_ascii c) b)%bool.
Definition upper_char (c : ascii) : bool := between 65 90 c.
Definition digit_char (c : ascii) : bool := between 48 57 c.
Definition start_char (c : ascii) : bool := (upper_char c || between 97 122 c || Ascii.eqb c "_")%bool.
Definition word_char (c : ascii) : bool := (start_char c || digit_char c || Ascii.eqb c "$")%bool.
Definition low (c : ascii) : ascii := if upper_char c then ascii_of_nat (nat_of_ascii c + 32) else c.
Definition word (t : text) : bool := match t with c :: r => (start_char c && forallb word_char r)%bool | [] => false end.
(* the text up to the first "--", and whether there is one *)
Fixpoint uncomment (t : text) : text * bool :=
  match t with
  | c :: r =>
      if (Ascii.eqb c "-" && match r with d :: _ => Ascii.eqb d "-" | [] => false end)%bool then ([], true)
      else (c :: fst (uncomment r), snd (uncomment r))
  | [] => ([], false)
  end.
Definition system (t : text) : bool := match t with a :: b :: c :: _ => (Ascii.eqb a "p" && Ascii.eqb b "g" && Ascii.eqb c "_")%bool | _ => false end.
(* NAMEDATALEN - 1 *)
Definition max_name : nat := 63.
Definition public : text := list_ascii_of_string "public".

Section Server.
Variable reserved : list ascii -> bool.                       (* key words that cannot name a schema: they differ between releases *)
Variable other : list ascii -> option (list ascii * bool).    (* other texts: the schema that they name, whether ",public" is still read *)
Variable lim : nat.                                           (* see insert_columns of CatalogModel.v *)

(* the schema that both statements name, and whether SET search_path goes on to ",public"; None: a statement is refused *)
Definition named (t : text) : option (list ascii * bool) :=
  if forallb (fun c => word_char c || Ascii.eqb c "-")%bool t then
    let (w, cut) := uncomment t in
    let n := map low w in
    if (word w && negb (reserved n) && negb (system n))%bool then Some (firstn max_name n, negb cut) else None
  else other t.

(* ---- the database ---- *)
(* a schema exists with or without the tables of a catalog *)
Notation database := (list ascii -> option (option catalog)) (only parsing).
Fixpoint teqb (a b : text) : bool :=
  match a, b with [], [] => true | x :: a, y :: b => (Ascii.eqb x y && teqb a b)%bool | _, _ => false end.
Definition put (m : text) (x : option catalog) (db : database) : database := fun k => if teqb k m then Some x else db k.
(* unqualified names are looked up along the search path *)
Fixpoint lookup (path : list (list ascii)) (db : database) : option (list ascii * catalog) :=
  match path with
  | [] => None
  | m :: path' => match db m with Some (Some c) => Some (m, c) | _ => lookup path' db end
  end.
(* new tables go to the first schema of the path that exists *)
Fixpoint target (path : list (list ascii)) (db : database) : option (list ascii) :=
  match path with
  | [] => None
  | m :: path' => match db m with Some _ => Some m | None => target path' db end
  end.

(* ---- a server ---- *)
(* [conns]: the search paths of the open connections of its pool; [ready]: try_new has returned *)
Record server := { configured : list ascii; conns : list (list (list ascii)); ready : bool }.
Record state := { db : list ascii -> option (option catalog); servers : nat -> option server }.
Definition set_server (st : state) (i : nat) (x : option server) : state :=
  {| db := db st; servers := fun j => if Nat.eqb j i then x else servers st j |}.
Definition set_db (st : state) (d : database) : state := {| db := d; servers := servers st |}.

(* lines 76-83, after_connect: SET search_path TO {schema_name},public; *)
Definition search_path (t : text) : option (list (list ascii)) :=
  match named t with Some (m, more) => Some (if more then [m; public] else [m]) | None => None end.
(* lines 53-55: CREATE SCHEMA IF NOT EXISTS {schema_name}; *)
Definition create_schema (t : text) (d : database) : option database :=
  match named t with
  | Some (m, _) => Some (match d m with None => put m None d | Some _ => d end)
  | None => None
  end.
(* line 58, setup: the migrations (CREATE TABLE IF NOT EXISTS looks only into the schema where the table would be made) *)
Definition setup (path : list (list ascii)) (d : database) : database :=
  match target path d with
  | Some m => match d m with Some None => put m (Some empty) d | _ => d end
  | None => d
  end.

(* how far a start gets before the process dies *)
Inductive progress := Connected | Created | Ready.
Inductive event :=
| Boot (i : nat) (t : list ascii) (p : progress)    (* server i starts with this name in its configuration *)
| Connect (i : nat)                                 (* its pool opens a connection *)
| Close (i k : nat)                                 (* its pool closes the k-th one (idle_timeout, line 74) *)
| Do (i k : nat) (o : cop)                          (* it runs a statement of the catalog on the k-th connection *)
| Stop (i : nat).
Fixpoint without {A} (k : nat) (l : list A) : list A :=
  match l, k with [], _ => [] | _ :: l, 0 => l | x :: l, S k => x :: without k l end.

(* the state after an event, and the answer to a statement: None if the server or the connection does not exist *)
Definition step (st : state) (e : event) : state * option bool :=
  match e with
  | Boot i t p =>
      match servers st i, search_path t with
      | None, Some path =>
          match p, create_schema t (db st) with
          | Connected, _ => (st, None)
          | Created, Some d => (set_db st d, None)
          | Ready, Some d =>
              (set_server (set_db st (setup path d)) i (Some {| configured := t; conns := [path]; ready := true |}), None)
          | _, None => (st, None)
          end
      | _, _ => (st, None)
      end
  | Connect i =>
      match servers st i with
      | Some s =>
          match search_path (configured s) with
          | Some path => (set_server st i (Some {| configured := configured s; conns := conns s ++ [path]; ready := ready s |}), None)
          | None => (st, None)
          end
      | None => (st, None)
      end
  | Close i k =>
      match servers st i with
      | Some s => (set_server st i (Some {| configured := configured s; conns := without k (conns s); ready := ready s |}), None)
      | None => (st, None)
      end
  | Do i k o =>
      match servers st i with
      | Some s =>
          match nth_error (conns s) k with
          | Some path =>
              match lookup path (db st) with
              | Some (m, c) => (set_db st (put m (Some (fst (cstep lim Postgres o c))) (db st)), Some (snd (cstep lim Postgres o c)))
              | None => (st, Some false)                       (* relation does not exist *)
              end
          | None => (st, None)
          end
      | None => (st, None)
      end
  | Stop i => (set_server st i None, None)
  end.

(* a new database has the schema public, without tables *)
Definition init : state := {| db := fun k => if teqb k public then Some None else None; servers := fun _ => None |}.
Fixpoint run_from (st : state) (es : list event) : state := match es with [] => st | e :: es => run_from (fst (step st e)) es end.
Definition run (es : list event) : state := run_from init es.

(* the statements that were run: the name in the configuration of the server that ran it, the statement, its answer *)
Fixpoint ran_from (st : state) (es : list event) : list (list ascii * cop * bool) :=
  match es with
  | [] => []
  | e :: es =>
      match e, snd (step st e) with
      | Do i _ o, Some b => match servers st i with Some s => [(configured s, o, b)] | None => [] end
      | _, _ => []
      end ++ ran_from (fst (step st e)) es
  end.
Definition ran (es : list event) : list (list ascii * cop * bool) := ran_from init es.
(* what the k-th connection of server i sees *)
Definition sees (st : state) (i k : nat) : option catalog :=
  match servers st i with
  | Some s => match nth_error (conns s) k with Some path => option_map snd (lookup path (db st)) | None => None end
  | None => None
  end.
End Server.
