(* Which tables and versions a query reads while others are at work: /repo/src/context/mod.rs (88-118: reload_schema),
   /repo/src/catalog/metastore.rs (106-138: build_catalog), /repo/src/provider.rs (71-115: SeafowlSchema::table).
   A session is shared by all requests that do not ask for another database or search path (frontend/http.rs, flight,
   postgres); in it a catalog is registered by every statement, in place of the one before.

   Simplifications: one schema; Delta tables only; a table is loaded in one step (at the newest version of its log);
   all loads succeed. Names and locations are numbers. *)
From Coq Require Import List Arith Bool.
Import ListNotations.

(* how a query may spell the name of a table: t, public.t, default.public.t *)
Inductive spelling := Bare (n : nat) | InSchema (n : nat) | Full (n : nat).
(* TableReference::resolve with the defaults of the session *)
Definition resolve (s : spelling) : nat := match s with Bare n | InSchema n | Full n => n end.

(* a table of a registered catalog: its location, and its version if it has been loaded (DeltaTable::version, -1 if not) *)
Record entry := { name : nat; loc : nat; loaded : option nat }.
Record state := {
  tables : list (nat * nat);                     (* the catalog in the database: names and locations *)
  version : nat -> nat;                          (* the logs: the number of commits at a location *)
  listed : list (nat * list (nat * nat));        (* statements that have read the catalog and not yet registered it *)
  registered : list entry;                       (* the catalog of the session *)
  planning : list nat;                           (* statements that have registered a catalog *)
  found : list (nat * nat * option (nat * nat))  (* what statements have resolved: statement, name, location and version *)
}.
Definition init : state := {| tables := []; version := fun _ => 0; listed := []; registered := []; planning := []; found := [] |}.
Inductive event :=
| Create (n l : nat) | Drop (n : nat) | Commit (l : nat)          (* by anybody *)
| Begin (q : nat)                                                (* reload_schema: self.schemas.list *)
| Register (q : nat)                                             (* reload_schema: register_catalog *)
| Lookup (q : nat) (s : spelling).                               (* SessionState::statement_to_plan: a table of the statement *)
Definition assoc (n : nat) (l : list (nat * nat)) : option nat := option_map snd (find (fun x => Nat.eqb (fst x) n) l).
Definition result (f : list (nat * nat * option (nat * nat))) (q n : nat) : option (option (nat * nat)) :=
  option_map snd (find (fun x => Nat.eqb (fst (fst x)) q && Nat.eqb (snd (fst x)) n) f).
Definition begun (st : state) (q : nat) : bool := existsb (Nat.eqb q) (map fst (listed st) ++ planning st).
(* metastore.rs:106-138, 158-207: tables are built but not loaded *)
Definition build (ts : list (nat * nat)) : list entry := map (fun x => {| name := fst x; loc := snd x; loaded := None |}) ts.
(* provider.rs:71-115: a table is loaded when it is looked up first, and the loaded one replaces it in the map *)
Definition load (v : nat) (n : nat) (k : list entry) : list entry :=
  map (fun e => if Nat.eqb (name e) n then {| name := name e; loc := loc e; loaded := Some v |} else e) k.
Definition step (st : state) (e : event) : state :=
  match e with
  | Create n l =>
      if existsb (fun x => Nat.eqb (fst x) n || Nat.eqb (snd x) l) (tables st) then st
      else {| tables := (n, l) :: tables st; version := version st; listed := listed st; registered := registered st; planning := planning st; found := found st |}
  | Drop n =>
      {| tables := filter (fun x => negb (Nat.eqb (fst x) n)) (tables st); version := version st; listed := listed st; registered := registered st; planning := planning st; found := found st |}
  | Commit l =>
      {| tables := tables st; version := fun l' => if Nat.eqb l' l then S (version st l') else version st l'; listed := listed st; registered := registered st; planning := planning st; found := found st |}
  | Begin q =>
      if begun st q then st
      else {| tables := tables st; version := version st; listed := (q, tables st) :: listed st; registered := registered st; planning := planning st; found := found st |}
  | Register q =>
      match find (fun x => Nat.eqb (fst x) q) (listed st) with
      | None => st
      | Some (_, ts) =>
          {| tables := tables st; version := version st; listed := filter (fun x => negb (Nat.eqb (fst x) q)) (listed st);
             registered := build ts; planning := q :: planning st; found := found st |}
      end
  | Lookup q s =>
      let n := resolve s in
      if negb (existsb (Nat.eqb q) (planning st)) then st
      else match result (found st) q n with
      | Some _ => st                              (* SessionContextProvider: one entry for each resolved name *)
      | None =>
          match find (fun e => Nat.eqb (name e) n) (registered st) with
          | None => {| tables := tables st; version := version st; listed := listed st; registered := registered st; planning := planning st; found := (q, n, None) :: found st |}
          | Some e =>
              let v := match loaded e with Some v => v | None => version st (loc e) end in
              {| tables := tables st; version := version st; listed := listed st; registered := load v n (registered st); planning := planning st;
                 found := (q, n, Some (loc e, v)) :: found st |}
          end
      end
  end.
Definition run_from (st : state) (es : list event) : state := fold_left step es st.
Definition run (es : list event) : state := run_from init es.
(* what the statement reads where it says [s] *)
Definition reads (st : state) (q : nat) (s : spelling) : option (option (nat * nat)) := result (found st) q (resolve s).
