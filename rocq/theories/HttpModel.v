(* The HTTP frontend: access policy (src/auth.rs), requests (src/frontend/http.rs), classification of statements and plans
   (src/context/logical.rs), and the tickets of the Flight frontend (src/frontend/flight). *)
From Coq Require Import Ascii String List Arith NArith Bool.
Import ListNotations.
Open Scope list_scope.

Notation text := (list ascii) (only parsing).                     (* strings are sequences of bytes *)
Definition s_ (s : string) : text := list_ascii_of_string s.
Fixpoint teqb (a b : text) : bool :=
  match a, b with [], [] => true | x :: a', y :: b' => Ascii.eqb x y && teqb a' b' | _, _ => false end.

(* 1. Access policy *)
(* config/schema.rs:199-236 AccessSettings. Password holds the configured hash. *)
Inductive access := Any | Off | Password (sha256_hash : text).
Inductive principal := Anonymous | Writer | Reader.              (* auth.rs:6-11 *)
Inductive action := Read | Write.                                (* auth.rs:18-22 *)
Record policy := { read : access; write : access }.              (* auth.rs:24-28 *)
Inductive auth_error := NeedAccessToken | UselessAccessToken | WrongAccessToken | InvalidAuthorizationHeader.
Inductive res (A : Type) := Ok (a : A) | Err (e : auth_error).
Arguments Ok {A} a. Arguments Err {A} e.

Section Auth.
Variable hash : text -> text.                                    (* config/schema.rs:238-242 str_to_hex_hash: SHA-256 in hexadecimal *)
Definition matches (t : text) (a : access) : bool := match a with Password h => teqb (hash t) h | _ => false end.
(* auth.rs:78-110 *)
Definition token_to_principal (token : option text) (p : policy) : res principal :=
  match token, write p, read p with
  | None, (Off | Password _), (Off | Password _) => Err NeedAccessToken
  | None, _, _ => Ok Anonymous
  | Some _, (Any | Off), (Any | Off) => Err UselessAccessToken
  | Some t, w, r =>
      if matches t w then Ok Writer
      else if matches t r then Ok Reader
      else Err WrongAccessToken
  end.
(* auth.rs:112-129 *)
Definition can_perform_action (pr : principal) (a : action) (p : policy) : bool :=
  match pr, a, read p, write p with
  | Writer, _, _, _ => true
  | Reader, Read, _, _ => true
  | _, Read, Any, _ => true
  | _, Write, _, Any => true
  | _, _, _, _ => false
  end.

(* str::trim_start_matches removes the pattern as often as it occurs at the beginning *)
Fixpoint strip_prefix (p s : text) : option text :=
  match p, s with
  | [], _ => Some s
  | x :: p', y :: s' => if Ascii.eqb x y then strip_prefix p' s' else None
  | _ :: _, [] => None
  end.
Fixpoint trim_start_matches (fuel : nat) (p s : text) : text :=
  match fuel with
  | 0 => s
  | S fuel => match strip_prefix p s with Some s' => trim_start_matches fuel p s' | None => s end
  end.
Definition bearer : text := s_ "Bearer ".
(* http.rs:235-253 header_to_user_context; the UserContext is the principal, the policy is fixed *)
Definition header_to_principal (header : option text) (p : policy) : res principal :=
  match header with
  | None => token_to_principal None p
  | Some h =>
      match strip_prefix bearer h with
      | Some _ => token_to_principal (Some (trim_start_matches (List.length h) bearer h)) p
      | None => Err InvalidAuthorizationHeader
      end
  end.
End Auth.

(* 2. Statements and plans *)
(* What the parser yields, as far as it matters: a query (perhaps SELECT ... INTO table), EXPLAIN, SHOW TABLES, INSERT, and every
   other statement, all of which may write (UPDATE, DELETE, DDL, COPY, ...). *)
Inductive stmt := SQuery (into : bool) | SExplain (analyze : bool) (inner : stmt) | SShowTables | SInsert | SOther.
(* logical.rs:47-58 *)
Definition is_statement_read_only (s : stmt) : bool := match s with SQuery _ | SExplain _ _ | SShowTables => true | _ => false end.

(* Logical plans: an operator, its inputs, and the subqueries in its expressions. A scan reads a Delta table (location, version) or
   some other table (external, remote, system; identified by a number, with its state). *)
Inductive source := Delta (uri : list N) (version : N) | OtherTable (id state : nat).
Inductive op := OScan (s : source) | ODml | ODdl | OAnalyze | OExtension | OCopy | OExplain | ORel (k : nat).
Inductive plan := Node (o : op) (inputs subqueries : list plan).
(* logical.rs:36-45 looks at the topmost operator only *)
Definition is_read_only (p : plan) : bool :=
  match p with Node (ODml | ODdl | OAnalyze | OExtension | OCopy) _ _ => false | _ => true end.
(* The query engine carries out a DML or COPY node wherever its operators run, that is, except under EXPLAIN; it has no operator for
   DDL and for the extensions of this program, whose physical planning fails *)
Fixpoint engine_writes (p : plan) : bool :=
  match p with
  | Node o inputs subs =>
      match o with
      | ODml | OCopy => true
      | ODdl | OExtension | OExplain => false
      | _ => existsb engine_writes inputs || existsb engine_writes subs
      end
  end.
(* physical.rs:90-773 create_physical_plan carries out DML, DDL, extensions and COPY at the top of a plan; anything else goes to the
   query engine *)
Definition runs_write (p : plan) : bool :=
  match p with Node (ODml | ODdl | OExtension | OCopy) _ _ => true | _ => engine_writes p end.

(* 3. Requests *)
(* http.rs:158-233 uncached_read_write_query. [ok i]: whether the i-th statement succeeds. The result is the list of statements that
   are carried out (the last of them perhaps unsuccessfully), or None for a refusal. *)
Fixpoint run_statements (ok : nat -> bool) (i : nat) (l : list stmt) : list stmt :=
  match l with [] => [] | s :: l' => s :: (if ok i then run_statements ok (S i) l' else []) end.
Definition post_query (pr : principal) (p : policy) (statements : list stmt) (ok : nat -> bool) : option (list stmt) :=
  match statements with
  | [] => None
  | _ =>
      let reads := List.length (filter is_statement_read_only statements) in
      if negb (can_perform_action pr (if Nat.eqb reads (List.length statements) then Read else Write) p) then None
      else if Nat.ltb 1 reads || (Nat.eqb reads 1 && negb (is_statement_read_only (last statements SShowTables))) then None
      else Some (run_statements ok 0 statements)
  end.

(* http.rs:297-378 cached_read_query: the text of the query *)
Definition dot : ascii := "."%char.
Definition percent : ascii := "%"%char.
Fixpoint before_dot (s : text) : text :=                          (* s.split('.').next() *)
  match s with [] => [] | c :: s' => if Ascii.eqb c dot then [] else c :: before_dot s' end.
Definition hex_value (c : ascii) : option nat :=
  let n := nat_of_ascii c in
  if Nat.leb 48 n && Nat.leb n 57 then Some (n - 48)
  else if Nat.leb 65 n && Nat.leb n 70 then Some (n - 55)
  else if Nat.leb 97 n && Nat.leb n 102 then Some (n - 87)
  else None.
(* percent_encoding::percent_decode_str *)
Fixpoint percent_decode (s : text) : text :=
  match s with
  | [] => []
  | c :: s1 =>
      if Ascii.eqb c percent then
        match s1 with
        | a :: b :: s3 =>
            match hex_value a, hex_value b with
            | Some x, Some y => ascii_of_nat (16 * x + y) :: percent_decode s3
            | _, _ => c :: percent_decode s1
            end
        | _ => c :: percent_decode s1
        end
      else c :: percent_decode s1
  end.
Section Get.
Variable hash : text -> text.
Variable utf8 : text -> bool.                                    (* decode_utf8 accepts *)
Definition query_text (query_or_hash : text) (maybe_raw_query : option text) : option text :=
  let q := before_dot query_or_hash in
  match maybe_raw_query with
  | Some raw =>
      let d := percent_decode raw in
      if utf8 d then if teqb q (hash d) then Some d else None else None
  | None => let d := percent_decode q in if utf8 d then Some d else None
  end.
End Get.

(* http.rs:63-105: the ETag. [le64]: i64::as_bytes, the eight bytes from the lowest. *)
Fixpoint le (n : nat) (v : N) : list N := match n with 0 => [] | S n => (v mod 256)%N :: le n (v / 256)%N end.
Definition le64 (v : N) : list N := le 8 v.
Definition scan_bytes (s : source) : list N := match s with Delta uri v => uri ++ le64 v | OtherTable _ _ => [] end.
(* the visitor goes down the inputs of every operator, not into the subqueries of its expressions (TreeNode::visit) *)
Fixpoint visit (p : plan) : list N :=
  match p with
  | Node o inputs subs =>
      (match o with OScan s => scan_bytes s | _ => [] end) ++
      flat_map visit inputs
  end.
Section Etag.
Variable H : Type.
Variable hash : list N -> H.                                     (* SHA-256 of the bytes written as a JSON array *)
Definition plan_to_etag (p : plan) : H := hash (visit p).
(* lines 326-378: [eq] compares with the If-None-Match header *)
Inductive reply := Refused | NotModified | Result (etag : H).
Definition get_reply (eq : H -> H -> bool) (if_none_match : option H) (p : plan) : reply :=
  if negb (is_read_only p) then Refused
  else match if_none_match with
       | Some e => if eq (plan_to_etag p) e then NotModified else Result (plan_to_etag p)
       | None => Result (plan_to_etag p)
       end.
End Etag.

(* 4. A whole request: http.rs:512-654. The authorisation of the three routes and whether something is written. The GET route is
   given the plan of its query. *)
Inductive request := RGet (p : plan) | RPost (statements : list stmt) (ok : nat -> bool) | RUpload.
(* Carrying out a statement: INSERT and the others write. SELECT ... INTO is planned as the creation of a table from a query, which
   physical.rs:163-192 carries out. EXPLAIN ANALYZE runs its statement, of which only INSERT can be run there. *)
Definition stmt_writes (s : stmt) : bool :=
  match s with
  | SInsert | SOther => true
  | SQuery into => into
  | SExplain true SInsert => true
  | _ => false
  end.
Section Server.
Variable hash : text -> text.
Definition writes (header : option text) (p : policy) (r : request) : bool :=
  match header_to_principal hash header p with
  | Err _ => false
  | Ok pr =>
      match r with
      | RGet plan =>                                             (* lines 269-287, 339-341 *)
          match read p with
          | Off => false
          | _ => can_perform_action pr Read p && is_read_only plan && runs_write plan
          end
      | RPost ss ok => match post_query pr p ss ok with Some done => existsb stmt_writes done | None => false end
      | RUpload => can_perform_action pr Write p                 (* lines 389-391 *)
      end
  end.
End Server.

(* 5. Flight tickets. handler.rs:66-134, sql.rs:84-178: a query is given a fresh UUID, its result stream is kept under it until it is
   fetched. *)
Section Flight.
Context {S : Type}.
Inductive fev := FQuery (id : nat) (stream : S) | FFetch (id : nat).
Record fstate := { results : nat -> option S; delivered : list (nat * S) }.
Definition finit : fstate := {| results := fun _ => None; delivered := [] |}.
Definition fset (k : nat) (v : option S) (f : nat -> option S) : nat -> option S := fun x => if Nat.eqb x k then v else f x.
Definition fstep (st : fstate) (e : fev) : fstate :=
  match e with
  | FQuery id s => {| results := fset id (Some s) (results st); delivered := delivered st |}
  | FFetch id =>
      match results st id with
      | Some s => {| results := fset id None (results st); delivered := (id, s) :: delivered st |}
      | None => st
      end
  end.
Definition frun (es : list fev) : fstate := fold_left fstep es finit.
End Flight.
Arguments fev S : clear implicits. Arguments fstate S : clear implicits.
