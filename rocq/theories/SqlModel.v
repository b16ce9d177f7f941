(* The SQL parser of Seafowl: src/datafusion/parser.rs, with the planning of the statements it makes itself (src/context/logical.rs).
   The input is the list of tokens that the tokenizer of sqlparser yields, without white space; the end of the list is Token::EOF.
   What is delegated to sqlparser (statements, queries, expressions, data types, constraints) is a parameter. Error messages are left
   out: a parser yields a value and the remaining tokens, or nothing. *)
From Coq Require Import String List Arith Bool.
Import ListNotations.
Open Scope list_scope.

(* sqlparser::tokenizer::Token. A word carries its keyword: "" for Keyword::NoKeyword (always so if it is quoted). *)
Inductive token :=
| Word (v : string) (quoted : bool) (kw : string)
| Str (s : string)                                            (* SingleQuotedString *)
| DStr (s : string)                                           (* DoubleQuotedString *)
| EStr (s : string)                                           (* EscapedStringLiteral *)
| Dollar (s : string)                                         (* DollarQuotedString *)
| Num (s : string)
| LParen | RParen | Comma | Period | Semi
| Other (n : nat).

Definition P (A : Type) := list token -> option (A * list token).
Definition ret {A} (x : A) : P A := fun ts => Some (x, ts).
Definition fail {A} : P A := fun _ => None.
Definition bind {A B} (p : P A) (f : A -> P B) : P B := fun ts => match p ts with Some (x, r) => f x r | None => None end.
Notation "'do' x <- p ; q" := (bind p (fun x => q)) (at level 200, x pattern, p at level 100, q at level 200).
(* next_token, then a match on it *)
Definition next {A} (f : token -> option A) : P A := fun ts =>
  match ts with t :: r => match f t with Some x => Some (x, r) | None => None end | [] => None end.
(* peek_token, next_token if it fits *)
Definition optional {A} (f : token -> option A) : P (option A) := fun ts =>
  match ts with t :: r => match f t with Some x => Some (Some x, r) | None => Some (None, ts) end | [] => Some (None, ts) end.
Definition is_kw (k : string) (t : token) : bool := match t with Word _ _ k' => String.eqb k' k | _ => false end.
(* sqlparser parser/mod.rs: parse_keyword, expect_keyword, parse_one_of_keywords *)
Definition keyword (k : string) : P bool := do o <- optional (fun t => if is_kw k t then Some tt else None); ret (match o with Some _ => true | None => false end).
Definition expect_keyword (k : string) : P unit := next (fun t => if is_kw k t then Some tt else None).
Definition one_of (ks : list string) : P (option string) := optional (fun t => find (fun k => is_kw k t) ks).
(* parse_keywords: all of them, or none is consumed *)
Fixpoint keywords_at (ks : list string) (ts : list token) : option (list token) :=
  match ks with
  | [] => Some ts
  | k :: ks' => match ts with t :: r => if is_kw k t then keywords_at ks' r else None | [] => None end
  end.
Definition keywords (ks : list string) : P bool := fun ts => match keywords_at ks ts with Some r => Some (true, r) | None => Some (false, ts) end.
Definition is_punct (p t : token) : bool :=
  match p, t with LParen, LParen => true | RParen, RParen => true | Comma, Comma => true | Period, Period => true | Semi, Semi => true | _, _ => false end.
(* consume_token, expect_token *)
Definition consume (p : token) : P bool := do o <- optional (fun t => if is_punct p t then Some tt else None); ret (match o with Some _ => true | None => false end).
Definition expect (p : token) : P unit := next (fun t => if is_punct p t then Some tt else None).

(* sqlparser ast: Ident (value, quote); ObjectName *)
Definition ident := (string * bool)%type.
Definition ident_token (t : token) : option ident :=
  match t with Word v q _ => Some (v, q) | Str s => Some (s, true) | DStr s => Some (s, true) | _ => None end.
(* sqlparser parse_identifier, parse_object_name, parse_literal_string *)
Definition identifier : P ident := next ident_token.
(* a loop: [body] yields Some to go on, None to stop *)
Fixpoint loop {A} (fuel : nat) (body : A -> P (A + A)) (x : A) : P A :=
  match fuel with
  | 0 => fail
  | S n => do y <- body x; match y with inl x' => loop n body x' | inr x' => ret x' end
  end.
Definition looped {A} (body : A -> P (A + A)) (x : A) : P A := fun ts => loop (S (length ts)) body x ts.
Definition object_name : P (list ident) :=
  do i <- identifier; looped (fun l => do c <- consume Period; if c : bool then do j <- identifier; ret (inl (l ++ [j])) else ret (inr l)) [i].
Definition literal_token (t : token) : option string :=
  match t with Word v _ k => if String.eqb k "" then Some v else None | Str s => Some s | DStr s => Some s | EStr s => Some s | _ => None end.
Definition literal_string : P string := next literal_token.

(* sqlparser ast::Value, as far as options have them *)
Inductive value := VSingle (s : string) | VDouble (s : string) | VEscaped (s : string) | VNumber (s : string) | VBoolean (b : bool).
(* parser.rs:79-82 CONVERT_TO_DELTA *)
Definition convert_to_delta : string * value := ("CONVERT_TO_DELTA"%string, VBoolean true).
Inductive source := SQuery (q : nat) | SRelation (name : list ident).
Inductive body := BDollar (s : string) | BSingle (s : string).
Record order_by := { ob_expr : nat; ob_asc : option bool; ob_nulls_first : option bool }.
Record column := { cd_name : ident; cd_type : nat; cd_collation : option (list ident); cd_options : list (option ident * nat) }.
Record external := { ex_name : list ident; ex_columns : list column; ex_file_type : string; ex_location : string; ex_partitions : list ident;
  ex_order : list (list order_by); ex_if_not_exists : bool; ex_temporary : bool; ex_unbounded : bool; ex_options : list (string * value);
  ex_constraints : list nat }.
(* datafusion::sql::parser::Statement, as Seafowl uses it. A statement of sqlparser that Seafowl does not build itself is [Native]. *)
Inductive statement :=
| Native (n : nat)
| CreateFunction (or_replace : bool) (name : list ident) (b : body)
| TruncateStatement (table : bool) (name : list ident) (partitions : option (list ident))
| CopyTo (src : source) (target : string) (partitioned_by : list ident) (stored_as : option string) (options : list (string * value))
| CreateExternalTable (e : external).

Section Parser.
Variable native_statement native_create : P nat.               (* Parser::parse_statement, parse_create *)
Variable native_query native_expr native_type : P nat.         (* parse_query, parse_expr, parse_data_type *)
Variable native_constraint native_option : P (option nat).     (* parse_optional_table_constraint, parse_optional_column_option *)
Variable upper : string -> string.                             (* str::to_uppercase *)

(* parser.rs:189-204 *)
Definition parse_convert : P statement :=
  do location <- literal_string; do _ <- expect_keyword "TO"; do _ <- expect_keyword "DELTA"; do name <- object_name;
  ret (CopyTo (SRelation name) location [] None [convert_to_delta]).
(* parser.rs:206-233; parse_object_name(false)?.0[0] *)
Definition parse_vacuum : P statement :=
  do t <- keyword "TABLE";
  if t : bool then do name <- object_name; ret (TruncateStatement false name None)
  else do d <- keyword "DATABASE";
       if d : bool then do name <- object_name; match name with i :: _ => ret (TruncateStatement false [] (Some [i])) | [] => fail end else fail.
(* parser.rs:235-252 *)
Definition parse_truncate : P statement := do _ <- expect_keyword "TABLE"; do name <- object_name; ret (TruncateStatement true name None).
(* parser.rs:345-367 parse_option_key, 376-388 parse_option_value *)
Definition option_key : P string :=
  do k <- next (fun t => match t with Word v _ _ => Some (v, true) | Str s => Some (s, false) | DStr s => Some (s, false) | EStr s => Some (s, false) | _ => None end);
  if snd k then looped (fun l => do c <- consume Period;
    if c : bool then do v <- next (fun t => match t with Word v _ _ => Some v | _ => None end); ret (inl (l ++ "." ++ v)%string) else ret (inr l)) (fst k)
  else ret (fst k).
Definition option_value : P value :=
  next (fun t => match t with Word v _ _ => Some (VSingle v) | Str s => Some (VSingle s) | DStr s => Some (VDouble s) | EStr s => Some (VEscaped s)
                 | Num n => Some (VNumber n) | _ => None end).
(* parser.rs:747-767 *)
Definition value_options : P (list (string * value)) :=
  do _ <- expect LParen;
  looped (fun l => do k <- option_key; do v <- option_value; do c <- consume Comma; do e <- consume RParen;
    if e : bool then ret (inr (l ++ [(k, v)])) else if c : bool then ret (inl (l ++ [(k, v)])) else fail) [].
(* parser.rs:739-745; parse_file_type 53-55 *)
Definition file_format : P string := do w <- next (fun t => match t with Word v _ _ => Some v | _ => None end); ret (upper w).
(* parser.rs:455-482; the names are kept as strings with their quotes (Ident::to_string) *)
Definition peek_word : P bool := fun ts => match ts with Word _ _ _ :: _ => Some (true, ts) | _ => Some (false, ts) end.
Definition partitions : P (list ident) :=
  do l <- consume LParen;
  if negb l then ret [] else
  do r <- consume RParen;
  if r : bool then ret [] else
  looped (fun l => do w <- peek_word; if w : bool then do i <- identifier; do c <- consume Comma; do e <- consume RParen;
    if e : bool then ret (inr (l ++ [i])) else if c : bool then ret (inl (l ++ [i])) else fail else fail) [].
(* parser.rs:57-64 ensure_not_set *)
Definition ensure_not_set {A} (o : option A) : P unit := match o with Some _ => fail | None => ret tt end.
(* parser.rs:254-337; the loop over the clauses ends by next_token *)
Record copy_builder := { cb_stored : option string; cb_target : option string; cb_partitioned : option (list ident); cb_options : option (list (string * value)) }.
Definition end_of_copy : P unit := fun ts => match ts with [] => Some (tt, []) | Semi :: r => Some (tt, r) | _ => None end.
Definition copy_clause_of (b : copy_builder) (k : string) : P (copy_builder + copy_builder) :=
      if String.eqb k "STORED" then
        do _ <- expect_keyword "AS"; do _ <- ensure_not_set (cb_stored b); do f <- file_format;
        ret (inl {| cb_stored := Some f; cb_target := cb_target b; cb_partitioned := cb_partitioned b; cb_options := cb_options b |})
      else if String.eqb k "TO" then
        do _ <- ensure_not_set (cb_target b); do t <- literal_string;
        ret (inl {| cb_stored := cb_stored b; cb_target := Some t; cb_partitioned := cb_partitioned b; cb_options := cb_options b |})
      else if String.eqb k "PARTITIONED" then
        do _ <- expect_keyword "BY"; do _ <- ensure_not_set (cb_partitioned b); do p <- partitions;
        ret (inl {| cb_stored := cb_stored b; cb_target := cb_target b; cb_partitioned := Some p; cb_options := cb_options b |})
      else if String.eqb k "OPTIONS" then
        do _ <- ensure_not_set (cb_options b); do o <- value_options;
        ret (inl {| cb_stored := cb_stored b; cb_target := cb_target b; cb_partitioned := cb_partitioned b; cb_options := Some o |})
      else fail.                                               (* WITH HEADER ROW *)
Definition copy_clause (b : copy_builder) : P (copy_builder + copy_builder) :=
  do k <- one_of ["STORED"; "TO"; "PARTITIONED"; "OPTIONS"; "WITH"]%string;
  match k with Some k => copy_clause_of b k | None => do _ <- end_of_copy; ret (inr b) end.
Definition list_of {A} (o : option (list A)) : list A := match o with Some l => l | None => [] end.
Definition copy_source : P source :=
  do q <- consume LParen;
  if q : bool then do x <- native_query; do _ <- expect RParen; ret (SQuery x) else do n <- object_name; ret (SRelation n).
Definition parse_copy : P statement :=
  do s <- copy_source;
  do b <- looped copy_clause {| cb_stored := None; cb_target := None; cb_partitioned := None; cb_options := None |};
  match cb_target b with
  | Some t => ret (CopyTo s t (list_of (cb_partitioned b)) (cb_stored b) (list_of (cb_options b)))
  | None => fail
  end.
(* parser.rs:410-455 *)
Definition function_body : P body := fun ts =>
  match ts with Dollar s :: r => Some (BDollar s, r) | _ => (do s <- literal_string; ret (BSingle s)) ts end.
Definition parse_create_function (or_replace : bool) : P statement :=
  do name <- object_name; do _ <- expect_keyword "AS"; do b <- function_body; ret (CreateFunction or_replace name b).
(* parser.rs:485-527 *)
Definition order_by_expr : P order_by :=
  do e <- native_expr;
  do asc <- (do a <- keyword "ASC"; if a : bool then ret (Some true) else do d <- keyword "DESC"; ret (if d : bool then Some false else None));
  do nf <- (do a <- keywords ["NULLS"; "FIRST"]%string; if a : bool then ret (Some true) else do d <- keywords ["NULLS"; "LAST"]%string; ret (if d : bool then Some false else None));
  ret {| ob_expr := e; ob_asc := asc; ob_nulls_first := nf |}.
Definition order_by_exprs : P (list order_by) :=
  do _ <- expect LParen;
  looped (fun l => do e <- order_by_expr; do c <- consume Comma;
    if c : bool then ret (inl (l ++ [e])) else do _ <- expect RParen; ret (inr (l ++ [e]))) [].
(* parser.rs:567-599 *)
Definition column_def : P column :=
  do name <- identifier; do ty <- native_type;
  do coll <- (do c <- keyword "COLLATE"; if c : bool then do n <- object_name; ret (Some n) else ret None);
  do opts <- looped (fun l =>
    do c <- keyword "CONSTRAINT";
    if c : bool then do n <- identifier; do o <- native_option; match o with Some x => ret (inl (l ++ [(Some n, x)])) | None => fail end
    else do o <- native_option; match o with Some x => ret (inl (l ++ [(None, x)])) | None => ret (inr l) end) [];
  ret {| cd_name := name; cd_type := ty; cd_collation := coll; cd_options := opts |}.
(* parser.rs:529-565 *)
Definition columns : P (list column * list nat) :=
  do l <- consume LParen;
  if negb l then ret ([], []) else
  do r <- consume RParen;
  if r : bool then ret ([], []) else
  looped (fun a =>
    do k <- native_constraint;
    do a' <- (match k with
              | Some x => ret (fst a, snd a ++ [x])
              | None => do w <- peek_word; if w : bool then do d <- column_def; ret (fst a ++ [d], snd a) else fail
              end);
    do c <- consume Comma; do e <- consume RParen;
    if e : bool then ret (inr a') else if c : bool then ret (inl a') else fail) ([], []).
(* parser.rs:601-736 *)
Record builder := { b_file_type : option string; b_location : option string; b_partitions : option (list ident); b_order : list (list order_by);
  b_options : option (list (string * value)); b_columns : list column }.
Definition peek_nth (n : nat) (f : token -> bool) : P bool := fun ts => Some (match nth_error ts n with Some t => f t | None => false end, ts).
Definition partition_clause : P (list ident * list column) :=
  do names <- peek_nth 2 (fun t => is_punct Comma t || is_punct RParen t);
  if names : bool then do p <- partitions; ret (p, [])
  else do cc <- columns; if (match snd cc with [] => true | _ => false end : bool) then ret (map cd_name (fst cc), fst cc) else fail.
Definition end_of_statement : P unit := fun ts => match ts with [] => Some (tt, ts) | Semi :: _ => Some (tt, ts) | _ => None end.
Definition external_clause_of (b : builder) (k : string) : P (builder + builder) :=
      if String.eqb k "STORED" then
        do _ <- expect_keyword "AS"; do _ <- ensure_not_set (b_file_type b); do f <- file_format;
        ret (inl {| b_file_type := Some f; b_location := b_location b; b_partitions := b_partitions b; b_order := b_order b; b_options := b_options b; b_columns := b_columns b |})
      else if String.eqb k "LOCATION" then
        do _ <- ensure_not_set (b_location b); do l <- literal_string;
        ret (inl {| b_file_type := b_file_type b; b_location := Some l; b_partitions := b_partitions b; b_order := b_order b; b_options := b_options b; b_columns := b_columns b |})
      else if String.eqb k "WITH" then
        do o <- keyword "ORDER";
        if o : bool then
          do es <- order_by_exprs;
          ret (inl {| b_file_type := b_file_type b; b_location := b_location b; b_partitions := b_partitions b; b_order := b_order b ++ [es]; b_options := b_options b; b_columns := b_columns b |})
        else fail                                              (* WITH HEADER ROW *)
      else if String.eqb k "PARTITIONED" then
        do _ <- expect_keyword "BY"; do _ <- ensure_not_set (b_partitions b); do pc <- partition_clause;
        ret (inl {| b_file_type := b_file_type b; b_location := b_location b; b_partitions := Some (fst pc); b_order := b_order b; b_options := b_options b; b_columns := b_columns b ++ snd pc |})
      else if String.eqb k "OPTIONS" then
        do _ <- ensure_not_set (b_options b); do o <- value_options;
        ret (inl {| b_file_type := b_file_type b; b_location := b_location b; b_partitions := b_partitions b; b_order := b_order b; b_options := Some o; b_columns := b_columns b |})
      else fail.                                               (* DELIMITER, COMPRESSION TYPE *)
Definition external_clause (b : builder) : P (builder + builder) :=
  do k <- one_of ["STORED"; "LOCATION"; "WITH"; "DELIMITER"; "COMPRESSION"; "PARTITIONED"; "OPTIONS"]%string;
  match k with Some k => external_clause_of b k | None => do _ <- end_of_statement; ret (inr b) end.
Definition parse_create_external_table (unbounded : bool) : P statement :=
  do temp <- one_of ["TEMP"; "TEMPORARY"]%string; do _ <- expect_keyword "TABLE"; do ine <- keywords ["IF"; "NOT"; "EXISTS"]%string;
  do name <- object_name; do cc <- columns;
  do b <- looped external_clause {| b_file_type := None; b_location := None; b_partitions := None; b_order := []; b_options := None; b_columns := fst cc |};
  match b_file_type b, b_location b with
  | Some f, Some l =>
      ret (CreateExternalTable {| ex_name := name; ex_columns := b_columns b; ex_file_type := f; ex_location := l; ex_partitions := list_of (b_partitions b);
        ex_order := b_order b; ex_if_not_exists := ine; ex_temporary := match temp with Some _ => true | None => false end; ex_unbounded := unbounded;
        ex_options := list_of (b_options b); ex_constraints := snd cc |})
  | _, _ => fail
  end.
(* parser.rs:390-408 *)
Definition parse_create : P statement :=
  do orr <- keywords ["OR"; "REPLACE"]%string;
  do e <- keyword "EXTERNAL";
  if e : bool then parse_create_external_table false else
  do u <- keyword "UNBOUNDED";
  if u : bool then do _ <- expect_keyword "EXTERNAL"; parse_create_external_table true else
  do f <- keyword "FUNCTION";
  if f : bool then parse_create_function orr else do n <- native_create; ret (Native n).
(* parser.rs:147-186 *)
Definition statement_of (k : option string) : P statement :=
  match k with
  | Some k => if String.eqb k "CREATE" then parse_create else if String.eqb k "CONVERT" then parse_convert else if String.eqb k "COPY" then parse_copy
              else if String.eqb k "VACUUM" then parse_vacuum else parse_truncate
  | None => do n <- native_statement; ret (Native n)
  end.
Definition parse_statement : P statement := do k <- one_of ["CREATE"; "CONVERT"; "COPY"; "VACUUM"; "TRUNCATE"]%string; statement_of k.
(* parser.rs:110-135; the fuel is never used up: a round that is not the first consumes a semicolon *)
Fixpoint drop_semis (ts : list token) : list token := match ts with Semi :: r => drop_semis r | _ => ts end.
Definition starts_semi (ts : list token) : bool := match ts with Semi :: _ => true | _ => false end.
Fixpoint statements (fuel : nat) (expecting_delimiter : bool) (ts : list token) : option (list statement) :=
  match fuel with
  | 0 => None
  | S n =>
      let r := drop_semis ts in
      match r with
      | [] => Some []
      | _ => if expecting_delimiter && negb (starts_semi ts) then None
             else match parse_statement r with
                  | Some (s, r') => option_map (cons s) (statements n true r')
                  | None => None
                  end
      end
  end.
Definition parse_sql (ts : list token) : option (list statement) := statements (S (S (length ts))) false ts.
End Parser.

(* Planning: logical.rs:78-333 create_logical_plan_from_statement, for the statements that the parser above builds; the others are planned by
   DataFusion or are not modelled ([PNative]). Time travel and the JSON of a function are left out. *)
Inductive plan :=
| PVacuum (database : option ident) (table : option (list ident))
| PTruncate (table : list ident)
| PConvert (location : string) (table : list ident)
| PCopy (src : source) (target : string) (partitioned_by : list ident) (stored_as : option string) (options : list (string * value))
| PCreateFunction (or_replace : bool) (name : list ident) (details : string)
| PExternal (e : external)
| PNative (n : nat).
Definition is_convert (o : string * value) : bool := match o with (k, VBoolean true) => String.eqb k "CONVERT_TO_DELTA" | _ => false end.
Definition plan_of (s : statement) : option plan :=
  match s with
  | Native n => Some (PNative n)
  (* logical.rs:228-250; a $$ body does not match SingleQuotedString *)
  | CreateFunction orr name (BSingle d) => Some (PCreateFunction orr name d)
  | CreateFunction _ _ (BDollar _) => None
  (* logical.rs:251-273 *)
  | TruncateStatement false name parts =>
      Some (PVacuum (match parts with Some [i] => Some i | _ => None end) (match parts with None => Some name | Some _ => None end))
  (* logical.rs:274-281 *)
  | TruncateStatement true name _ => Some (PTruncate name)
  (* logical.rs:301-332 *)
  | CopyTo src target parts stored options =>
      if existsb is_convert options then match src with SRelation name => Some (PConvert target name) | SQuery _ => None end
      else Some (PCopy src target parts stored options)
  | CreateExternalTable e => Some (PExternal e)
  end.

(* Names of functions. CREATE FUNCTION keeps name.to_string() (logical.rs:244), under which it is registered and stored (physical.rs:608-620):
   sqlparser writes an identifier with its quotes, and the quotes inside it doubled ([escape]). A call is looked up (DataFusion
   sql/src/expr/function.rs) by the identifier in lower case, or as it is if it is quoted; a name of several parts by to_string. *)
From Verif Require DdlModel.
Definition ident_string (escape : string -> string) (i : ident) : string := if snd i then ("""" ++ escape (fst i) ++ """")%string else fst i.
Definition name_string (escape : string -> string) (n : list ident) : string := String.concat "." (map (ident_string escape) n).
Definition called_name (escape : string -> string) (n : list ident) : string :=
  match n with [i] => if snd i then fst i else DdlModel.lower (fst i) | _ => name_string escape n end.
