(* Time travel: t('timestamp') in the FROM clause. Models src/version.rs and rewrite_time_travel_query of src/context/logical.rs. The table
   references of a query, wherever they are in it, are a list: the rewriting changes each on its own and nothing else. *)
From Coq Require Import Ascii String List Bool.
Import ListNotations.
From Verif Require Import DdlModel.
Open Scope string_scope.
Open Scope list_scope.

(* sqlparser's Ident: value and whether it is quoted; ObjectName: its parts *)
Notation ident := (string * bool)%type.
Notation name := (list (string * bool)).
(* Display of Ident and ObjectName (sqlparser). Quotes inside of a quoted name are not doubled here: see [wf] in TravelSpec.v. *)
Definition quote : ascii := """"%char.
Definition print_ident (i : ident) : string := if snd i then String quote (fst i ++ String quote "")%string else fst i.
Fixpoint print_name (n : name) : string :=
  match n with [] => ""%string | [i] => print_ident i | i :: n => (print_ident i ++ String "."%char (print_name n))%string end.

(* TableReference::from(&str) of DataFusion: the text is parsed as up to three identifiers; unquoted ones are lower-cased. Names that are not
   made of words of ASCII letters, digits and underscores and of quoted texts without quotes are left to [other]. *)
Definition digit (a : ascii) : bool := let n := nat_of_ascii a in (Nat.leb 48 n && Nat.leb n 57)%bool.
Definition snoc (s : string) (a : ascii) : string := (s ++ String a "")%string.
Inductive scanning := Start | InWord (w : string) | InQuotes (w : string) | AfterQuotes (w : string).
Fixpoint scan (st : scanning) (s : string) : option (list string) :=
  match s with
  | EmptyString => match st with InWord w => Some [lower w] | AfterQuotes w => Some [w] | _ => None end
  | String a s =>
      match st with
      | Start => if Ascii.eqb a quote then scan (InQuotes "") s else if word_ascii a then scan (InWord (String a "")) s else None
      | InWord w => if (word_ascii a || digit a)%bool then scan (InWord (snoc w a)) s
                    else if Ascii.eqb a "."%char then option_map (cons (lower w)) (scan Start s) else None
      | InQuotes w => if Ascii.eqb a quote then scan (AfterQuotes w) s else scan (InQuotes (snoc w a)) s
      | AfterQuotes w => if Ascii.eqb a "."%char then option_map (cons w) (scan Start s) else None
      end
  end.
Record table := { in_catalog : string; in_schema : string; called : string }.
(* TableReference::resolve with default catalog and schema; [parts] are the identifiers that were read, [text] is what they were read from *)
Definition resolve (D S : string) (parts : list string) (text : string) : table :=
  match parts with
  | [t] => {| in_catalog := D; in_schema := S; called := t |}
  | [s; t] => {| in_catalog := D; in_schema := s; called := t |}
  | [c; s; t] => {| in_catalog := c; in_schema := s; called := t |}
  | _ => {| in_catalog := D; in_schema := S; called := text |}
  end.

(* A table reference: FROM name or FROM name(args). A literal string as the only argument is a version. *)
Inductive arg := Literal (s : string) | OtherArg.
Record factor := { fname : name; fargs : option (list arg); falias : option ident }.
(* table_with_version, src/version.rs 28-34; here t is the last part of the name *)
Definition with_version (t v : string) : string := (t ++ String ":"%char (lower v))%string.
Fixpoint set_last (n : name) (x : string) : name := match n with [] => [] | [(_, q)] => [(x, q)] | i :: n => i :: set_last n x end.

(* What a name stands for in a session: Delta tables with their uuid, at the latest or at another version, and other tables *)
Inductive provider := Latest (u : nat) | AtVersion (u v : nat) | Foreign (x : nat).
Notation schema_map := (string -> option (string -> option provider)).    (* the schemas of the default catalog: src/provider.rs 24-60 *)

Section Travel.
Variable other : string -> list string.
Variable time : Type.
Variable datetime : string -> option time.             (* version_to_datetime, src/version.rs 37-58 (chrono's parsers) *)
Variable load : nat -> time -> option nat.             (* DeltaTable::load_with_datetime: the version of table u at a time, or an error *)

Definition from_text (s : string) : list string := match scan Start s with Some l => l | None => other s end.
(* pre_visit_table_factor, src/version.rs 64-103: the rewritten reference, and the table and version to register *)
Definition visit (D S0 : string) (f : factor) : factor * option (table * string) :=
  match fargs f with
  | Some [Literal v] =>
      let text := print_name (fname f) in
      let r := resolve D S0 (from_text text) text in
      ({| fname := set_last (fname f) (with_version (called r) v); fargs := None; falias := falias f |}, Some (r, v))
  | _ => (f, None)
  end.
(* the HashSet of the visitor, as a list; it is walked in some order *)
Fixpoint versions (D S0 : string) (q : list factor) : list (table * string) :=
  match q with [] => [] | f :: q => match snd (visit D S0 f) with Some x => x :: versions D S0 q | None => versions D S0 q end end.

(* SessionContext::table_provider and table_exist: only the default catalog is registered (src/context/mod.rs 101-104) *)
Definition find_schema (D : string) (m : schema_map) (r : table) : option (string -> option provider) :=
  if String.eqb (in_catalog r) D then m (in_schema r) else None.
Definition find_table (D : string) (m : schema_map) (r : table) : option provider :=
  match find_schema D m r with Some ts => ts (called r) | None => None end.
(* SeafowlSchema::register_table, src/provider.rs 120-133 *)
Definition add_table (m : schema_map) (r : table) (p : provider) : schema_map := fun s =>
  if String.eqb s (in_schema r)
  then match m s with Some ts => Some (fun t => if String.eqb t (called r) then Some p else ts t) | None => None end
  else m s.
(* The loop of rewrite_time_travel_query, src/context/logical.rs 360-384, for one table and version. get_table_uuid (src/context/mod.rs
   186-214) of a table that is not a Delta table is an error. *)
Definition register_version (D S : string) (x : table * string) (m : schema_map) : option schema_map :=
  let '(r, v) := x in
  let text := print_name [(in_catalog r, false); (in_schema r, false); (called r, false)] in
  let r2 := resolve D S (from_text text) text in
  match find_table D m r2 with
  | Some (Latest u | AtVersion u _) =>
      match datetime v with
      | Some d =>
          match load u d with
          | Some ver =>
              let r3 := {| in_catalog := in_catalog r2; in_schema := in_schema r2; called := with_version (called r) v |} in
              match find_table D m r3 with
              | Some _ => Some m
              | None => Some (add_table m r3 (AtVersion u ver))
              end
          | None => None
          end
      | None => None
      end
  | _ => None
  end.
Fixpoint register_versions (D S : string) (l : list (table * string)) (m : schema_map) : option schema_map :=
  match l with [] => Some m | x :: l => match register_version D S x m with Some m' => register_versions D S l m' | None => None end end.

(* DataFusion's planner: the parts of a name, unquoted ones in lower case, resolved with the defaults of the session; a reference with
   arguments is a call of a table function, and there is none *)
Definition normal (i : ident) : string := if snd i then fst i else lower (fst i).
Definition planned (D S : string) (n : name) : option table :=
  match n with [] | _ :: _ :: _ :: _ :: _ => None | _ => Some (resolve D S (map normal n) "") end.
Definition plan_factor (D S : string) (m : schema_map) (f : factor) : option provider :=
  match fargs f with
  | Some _ => None
  | None => match planned D S (fname f) with Some r => find_table D m r | None => None end
  end.
Fixpoint plan_factors (D S : string) (m : schema_map) (q : list factor) : option (list provider) :=
  match q with
  | [] => Some []
  | f :: q => match plan_factor D S m f, plan_factors D S m q with Some p, Some ps => Some (p :: ps) | _, _ => None end
  end.
(* create_logical_plan_from_statement for a query, src/context/logical.rs 104-107, and rewrite_time_travel_query, 340-387: what each of its
   table references reads; [order] is the order in which the set is walked. The default schema of the rewriting is "public" (343). *)
Definition rewritten (D : string) (q : list factor) : list factor := map (fun f => fst (visit D default_schema f)) q.
Definition run (D S : string) (order : list (table * string) -> list (table * string)) (m : schema_map) (q : list factor) : option (list provider) :=
  match register_versions D S (order (versions D default_schema q)) m with
  | Some m' => plan_factors D S m' (rewritten D q)
  | None => None
  end.

(* The session state of the rewriting shares its catalog with the session (SessionContext::new_with_state clones handles, not the catalog),
   and every statement reloads it (src/context/mod.rs 89-112). So between two steps of this query another query may put the catalog back to
   what the metastore says: [disturbed] tells before which registrations, and whether before planning. *)
Fixpoint register_disturbed (D S : string) (base : schema_map) (l : list (bool * (table * string))) (m : schema_map) : option schema_map :=
  match l with
  | [] => Some m
  | (reload, x) :: l => match register_version D S x (if reload then base else m) with Some m' => register_disturbed D S base l m' | None => None end
  end.
Definition run_disturbed (D S : string) (base : schema_map) (l : list (bool * (table * string))) (last : bool) (q : list factor) : option (list provider) :=
  match register_disturbed D S base l base with
  | Some m' => plan_factors D S (if last then base else m') (rewritten D q)
  | None => None
  end.
End Travel.
