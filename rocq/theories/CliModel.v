(* The command line, one-off commands and the Postgres frontend. Models src/cli/{mod,commands,helper}.rs, run_one_off_command of src/utils.rs and
   src/frontend/postgres.rs with the protocol loop of the crate convergence. The engine below is a reduced form of src/context/physical.rs: statements that write
   have their effect in create_physical_plan, queries read when their plan runs (the Ddl and Write models have the details). *)
From Coq Require Import Ascii String List Bool Arith.
Import ListNotations.
Open Scope list_scope.

(* ---- The engine ---- *)
Section Engine.
  Variable R O : Type.                                   (* rows; what a query prints *)
  (* A table has an identity and its current files; the disk has files with their owner and rows, also of older versions and of dropped tables *)
  Record table := { uuid : nat; files : list nat }.
  Record db := { catalog : list (string * table); dropped : list nat; disk : list (nat * (nat * list R)); next : nat }.
  Definition empty_db : db := {| catalog := []; dropped := []; disk := []; next := 0 |}.
  (* [Select t f]: f is the rest of the query; None: an error at run time, such as a failing cast *)
  Inductive statement :=
  | Select (t : string) (f : list R -> option O) | Create (t : string) | Insert (t : string) (rows : list R) | Delete (t : string) | Drop (t : string)
  | Vacuum (t : string) | VacuumDatabase.
  Fixpoint find {A} (l : list (string * A)) (t : string) : option A :=
    match l with [] => None | (t', a) :: l => if String.eqb t' t then Some a else find l t end.
  Fixpoint file (l : list (nat * (nat * list R))) (i : nat) : option (list R) :=
    match l with [] => None | (i', (_, r)) :: l => if Nat.eqb i' i then Some r else file l i end.
  Definition set (l : list (string * table)) (t : string) (v : table) : list (string * table) := map (fun e => if String.eqb (fst e) t then (t, v) else e) l.
  Definition remove (l : list (string * table)) (t : string) : list (string * table) := filter (fun e => negb (String.eqb (fst e) t)) l.
  Inductive plan := Scan (fs : list nat) (f : list R -> option O) | Dummy.
  Definition mem (i : nat) (l : list nat) : bool := existsb (Nat.eqb i) l.
  (* create_logical_plan and create_physical_plan: physical.rs 193-214 INSERT, 370-484 DELETE, 486-516 DROP TABLE, 595-607 CREATE TABLE, 703-790 VACUUM (with a retention of 0 hours) *)
  Definition make_plan (s : db) (st : statement) : option (db * plan) :=
    match st with
    | Select t f => match find (catalog s) t with Some v => Some (s, Scan (files v) f) | None => None end
    | Create t =>
        match find (catalog s) t with
        | Some _ => None
        | None => Some ({| catalog := catalog s ++ [(t, {| uuid := next s; files := [] |})]; dropped := dropped s; disk := disk s; next := S (next s) |}, Dummy)
        end
    | Insert t rows =>
        match find (catalog s) t with
        | Some v => Some ({| catalog := set (catalog s) t {| uuid := uuid v; files := files v ++ [next s] |}; dropped := dropped s;
                             disk := disk s ++ [(next s, (uuid v, rows))]; next := S (next s) |}, Dummy)
        | None => None
        end
    | Delete t =>
        match find (catalog s) t with
        | Some v => Some ({| catalog := set (catalog s) t {| uuid := uuid v; files := [] |}; dropped := dropped s; disk := disk s; next := next s |}, Dummy)
        | None => None
        end
    | Drop t =>
        match find (catalog s) t with
        | Some v => Some ({| catalog := remove (catalog s) t; dropped := dropped s ++ [uuid v]; disk := disk s; next := next s |}, Dummy)
        | None => None
        end
    | Vacuum t =>
        match find (catalog s) t with
        | Some v => Some ({| catalog := catalog s; dropped := dropped s;
                             disk := filter (fun e => negb (Nat.eqb (fst (snd e)) (uuid v) && negb (mem (fst e) (files v)))) (disk s); next := next s |}, Dummy)
        | None => None
        end
    | VacuumDatabase => Some ({| catalog := catalog s; dropped := []; disk := filter (fun e => negb (mem (fst (snd e)) (dropped s))) (disk s); next := next s |}, Dummy)
    end.
  Fixpoint read (d : list (nat * (nat * list R))) (fs : list nat) : option (list R) :=
    match fs with [] => Some [] | i :: fs => match file d i, read d fs with Some r, Some q => Some (r ++ q) | _, _ => None end end.
  (* context.collect: None: an error; Some None: no rows to print *)
  Definition run_plan (s : db) (p : plan) : option (option O) :=
    match p with Scan fs f => match read (disk s) fs with Some r => option_map Some (f r) | None => None end | Dummy => Some None end.

  (* What is left behind: the state, what was printed, and whether all went well *)
  Record result := { after : db; printed : list O; ok : bool }.
  Definition print (o : option O) (l : list O) : list O := match o with Some x => x :: l | None => l end.
  (* cli/mod.rs 98-127 exec_and_print: first all plans, then all runs *)
  Fixpoint make_plans (s : db) (l : list statement) : db * option (list plan) :=
    match l with
    | [] => (s, Some [])
    | st :: l => match make_plan s st with
                 | Some (s1, p) => let '(s2, ps) := make_plans s1 l in (s2, option_map (cons p) ps)
                 | None => (s, None)
                 end
    end.
  Fixpoint run_plans (s : db) (ps : list plan) : list O * bool :=
    match ps with
    | [] => ([], true)
    | p :: ps => match run_plan s p with Some o => let '(os, b) := run_plans s ps in (print o os, b) | None => ([], false) end
    end.
  Definition exec_and_print (s : db) (l : list statement) : result :=
    match make_plans s l with
    | (s1, Some ps) => let '(os, b) := run_plans s1 ps in {| after := s1; printed := os; ok := b |}
    | (s1, None) => {| after := s1; printed := []; ok := false |}
    end.
  (* utils.rs 24-49 run_one_off_command: the process ends (unwrap) at the first error *)
  Fixpoint run_one_off (s : db) (l : list statement) : result :=
    match l with
    | [] => {| after := s; printed := []; ok := true |}
    | st :: l =>
        match make_plan s st with
        | None => {| after := s; printed := []; ok := false |}
        | Some (s1, p) =>
            match run_plan s1 p with
            | None => {| after := s1; printed := []; ok := false |}
            | Some o => let r := run_one_off s1 l in {| after := after r; printed := print o (printed r); ok := ok r |}
            end
        end
    end.

  (* ---- Postgres: the crate convergence calls prepare for Parse, create_portal for Bind, fetch for Execute, and all three for a simple Query ---- *)
  Record pg := { engine : db; statements : list (string * statement); portals : list (string * plan) }.
  Inductive message := Parse (name : string) (st : statement) | Bind (portal name : string) | Execute (portal : string) | Query (st : statement).
  Inductive reply := Done | Rows (o : option O) | PgError.
  (* postgres.rs 47-60 prepare: create_logical_plan has no effect; the tables that are read or written have to exist *)
  Definition prepare (s : db) (st : statement) : bool :=
    match st with Select t _ | Insert t _ | Delete t => match find (catalog s) t with Some _ => true | None => false end | _ => true end.
  Definition put {A} (l : list (string * A)) (k : string) (v : A) : list (string * A) := (k, v) :: l.
  Definition answer (s : pg) (m : message) : pg * reply :=
    match m with
    | Parse n st => if prepare (engine s) st then ({| engine := engine s; statements := put (statements s) n st; portals := portals s |}, Done) else (s, PgError)
    (* postgres.rs 62-75 create_portal: plan_query with all its effects *)
    | Bind p n =>
        match find (statements s) n with
        | None => (s, PgError)
        | Some st => match make_plan (engine s) st with
                     | Some (e, pl) => ({| engine := e; statements := statements s; portals := put (portals s) p pl |}, Done)
                     | None => (s, PgError)
                     end
        end
    (* postgres.rs 26-38 fetch: runs the plan from its beginning *)
    | Execute p => match find (portals s) p with
                   | None => (s, PgError)
                   | Some pl => match run_plan (engine s) pl with Some o => (s, Rows o) | None => (s, PgError) end
                   end
    | Query st =>
        if prepare (engine s) st then
          match make_plan (engine s) st with
          | Some (e, pl) => let s1 := {| engine := e; statements := statements s; portals := portals s |} in
                            match run_plan e pl with Some o => (s1, Rows o) | None => (s1, PgError) end
          | None => (s, PgError)
          end
        else (s, PgError)
    end.
  Fixpoint converse (s : pg) (l : list message) : pg * list reply :=
    match l with [] => (s, []) | m :: l => let '(s1, r) := answer s m in let '(s2, rs) := converse s1 l in (s2, r :: rs) end.
End Engine.
Arguments uuid : clear implicits. Arguments files : clear implicits.
Arguments catalog {_}. Arguments dropped {_}. Arguments disk {_}. Arguments next {_}. Arguments Select {_ _}. Arguments Create {_ _}. Arguments Insert {_ _}. Arguments Delete {_ _}.
Arguments Drop {_ _}. Arguments Vacuum {_ _}. Arguments VacuumDatabase {_ _}. Arguments Scan {_ _}. Arguments Dummy {_ _}. Arguments file {_}. Arguments make_plan {_ _}. Arguments read {_}.
Arguments run_plan {_ _}. Arguments after {_ _}. Arguments printed {_ _}. Arguments ok {_ _}. Arguments print {_}. Arguments make_plans {_ _}. Arguments run_plans {_ _}.
Arguments exec_and_print {_ _}. Arguments run_one_off {_ _}. Arguments engine {_ _}. Arguments statements {_ _}. Arguments portals {_ _}. Arguments Parse {_ _}. Arguments Bind {_ _}.
Arguments Execute {_ _}. Arguments Query {_ _}. Arguments Done {_}. Arguments Rows {_}. Arguments PgError {_}. Arguments prepare {_ _}. Arguments answer {_ _}. Arguments converse {_ _}.

(* ---- Lines: texts as lists of characters ---- *)
Open Scope char_scope.
Notation text := (list ascii) (only parsing).
Definition s_ (s : string) : list ascii := list_ascii_of_string s.
(* ASCII whitespace; char::is_whitespace knows more *)
Definition blank (c : ascii) : bool := let n := nat_of_ascii c in (Nat.eqb n 32 || (Nat.leb 9 n && Nat.leb n 13))%bool.
Fixpoint teqb (a b : text) : bool := match a, b with [], [] => true | x :: a, y :: b => (Ascii.eqb x y && teqb a b)%bool | _, _ => false end.
(* split_whitespace().join(" ") *)
Fixpoint words (t : text) : list (list ascii) :=
  match t with
  | [] => []
  | c :: r => if blank c then words r
              else match r with
                   | [] => [[c]]
                   | d :: _ => if blank d then [c] :: words r else match words r with w :: ws => (c :: w) :: ws | [] => [[c]] end
                   end
  end.
Fixpoint joined (l : list (list ascii)) : text := match l with [] => [] | [w] => w | w :: r => w ++ " " :: joined r end.
(* str::split_once *)
Fixpoint split_once (c : ascii) (t : text) : option (list ascii * list ascii) :=
  match t with [] => None | x :: r => if Ascii.eqb x c then Some ([], r) else match split_once c r with Some (a, b) => Some (x :: a, b) | None => None end end.
(* cli/commands.rs 10-45 *)
Inductive command := Quit | Help | ListTables | DescribeTable (name : list ascii).
Definition parse_command (t : text) : option command :=
  let '(c, arg) := match split_once " " t with Some (a, b) => (a, Some b) | None => (t, None) end in
  match arg with
  | None => if teqb c (s_ "q") || teqb c (s_ "quit") then Some Quit else if teqb c (s_ "d") then Some ListTables else if teqb c (s_ "?") then Some Help else None
  | Some name => if teqb c (s_ "d") then Some (DescribeTable name) else None
  end%bool.
(* cli/commands.rs 17-26, 47-63: the list that \? prints; the default of a name is the empty text *)
Definition all_commands : list (list ascii * command) := [(s_ "\q", Quit); (s_ "\?", Help); (s_ "\d", ListTables); (s_ "\d name", DescribeTable [])].
(* cli/helper.rs 15-24, 36-41: is the input so far run? *)
Fixpoint trim_start (t : text) : text := match t with c :: r => if blank c then trim_start r else t | [] => [] end.
Definition trim_end (t : text) : text := rev (trim_start (rev t)).
Definition ends_with (c : ascii) (t : text) : bool := match rev t with x :: _ => Ascii.eqb x c | [] => false end.
Definition starts_with (c : ascii) (t : text) : bool := match t with x :: _ => Ascii.eqb x c | [] => false end.
Definition valid_input (t : text) : bool := let t := trim_end t in (ends_with ";" t || starts_with "\" t)%bool.
(* cli/mod.rs 32-96: what a line makes the client do *)
Inductive action := Leave | PrintHelp | Run (sql : list ascii) | Complain.
Definition line_action (line : text) : action :=
  if starts_with "\" line then
    match parse_command (tl (joined (words line))) with
    | Some Quit => Leave
    | Some Help => PrintHelp
    | Some ListTables => Run (s_ "SHOW TABLES")
    | Some (DescribeTable name) => Run (s_ "SHOW COLUMNS FROM " ++ name)
    | None => Complain
    end
  else Run line.
