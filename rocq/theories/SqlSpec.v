(* What the properties of the SQL parser say, independently of how it parses. *)
From Coq Require Import String List Bool.
Import ListNotations.
From Verif Require Import SqlModel.
Open Scope list_scope.

(* A statement in a request: tokens without a semicolon. A request: pieces with a semicolon between each two. *)
Definition piece (ts : list token) : Prop := ~ In Semi ts.
Fixpoint request (pieces : list (list token)) : list token :=
  match pieces with [] => [] | [p] => p | p :: ps => p ++ Semi :: request ps end.
(* the results of the pieces, in order; nothing if one of them has none *)
Fixpoint all_of {A} (l : list (option (list A))) : option (list A) :=
  match l with
  | [] => Some []
  | o :: l' => match o, all_of l' with Some x, Some y => Some (x ++ y) | _, _ => None end
  end.
Definition is_copy (ts : list token) : Prop := exists v q r, ts = Word v q "COPY" :: r.
(* What is asked of a parser that is delegated to: a semicolon is to it like the end of its input, and it consumes from the front. *)
Definition stops_at_semicolon {A} (p : P A) : Prop := forall ts, piece ts ->
  (forall tail, p (ts ++ Semi :: tail) = match p ts with Some (x, r) => Some (x, r ++ Semi :: tail) | None => None end) /\
  (forall x r, p ts = Some (x, r) -> exists used, ts = used ++ r).
(* an optional part, if it is there, consists of one token at least *)
Definition not_empty {A} (p : P (option A)) : Prop := forall ts x r, p ts = Some (Some x, r) -> length r < length ts.

(* How things are written. A keyword is a word, in upper or lower case, that the tokenizer recognises. *)
Definition kw (k : string) (t : token) : Prop := exists v q, t = Word v q k.
Definition writes_ident (i : ident) (t : token) : Prop :=
  (exists k, t = Word (fst i) (snd i) k) \/ (snd i = true /\ (t = Str (fst i) \/ t = DStr (fst i))).
(* a.b.c *)
Inductive writes_name : list ident -> list token -> Prop :=
| wn_one i t : writes_ident i t -> writes_name [i] [t]
| wn_more i t l ts : writes_ident i t -> writes_name l ts -> writes_name (i :: l) (t :: Period :: ts).
Definition writes_literal (s : string) (t : token) : Prop := t = Str s \/ t = DStr s \/ t = EStr s \/ exists q, t = Word s q "".
(* x, y, z *)
Fixpoint commas (l : list (list token)) : list token := match l with [] => [] | [x] => x | x :: l' => x ++ Comma :: commas l' end.
(* (x, y, z) *)
Definition parens (l : list (list token)) : list token := LParen :: commas l ++ [RParen].
(* the same, or with a comma behind the last *)
Definition listed (l : list (list token)) (ts : list token) : Prop := ts = parens l \/ (l <> [] /\ ts = LParen :: commas l ++ [Comma; RParen]).
(* an option: a string or words with dots, then its value *)
Inductive writes_path : string -> list token -> Prop :=
| wp_one v q k : writes_path v [Word v q k]
| wp_more v q k p ts : writes_path p ts -> writes_path (v ++ "." ++ p) (Word v q k :: Period :: ts).
Definition writes_key (s : string) (ts : list token) : Prop := ts = [Str s] \/ ts = [DStr s] \/ ts = [EStr s] \/ writes_path s ts.
Definition writes_value (v : value) (t : token) : Prop :=
  match v with
  | VSingle s => t = Str s \/ exists q k, t = Word s q k
  | VDouble s => t = DStr s
  | VEscaped s => t = EStr s
  | VNumber s => t = Num s
  | VBoolean _ => False
  end.
Definition writes_option (o : string * value) (ts : list token) : Prop :=
  exists key val, ts = key ++ [val] /\ writes_key (fst o) key /\ writes_value (snd o) val.
Definition writes_options (l : list (string * value)) (ts : list token) : Prop := l <> [] /\ exists tss, Forall2 writes_option l tss /\ listed tss ts.
Definition writes_names (l : list ident) (ts : list token) : Prop :=
  exists tss, Forall2 (fun i ts => exists k, ts = [Word (fst i) (snd i) k]) l tss /\ listed tss ts.
Definition writes_stored (upper : string -> string) (f : string) (ts : list token) : Prop :=
  exists t1 t2 v q k, kw "STORED" t1 /\ kw "AS" t2 /\ ts = [t1; t2; Word v q k] /\ f = upper v.

(* The clauses of COPY *)
Inductive clause := Stored (format : string) | To (target : string) | PartitionedBy (l : list ident) | Options (l : list (string * value)).
(* what the clauses of each kind say, in order *)
Definition formats (cs : list clause) : list string := flat_map (fun c => match c with Stored f => [f] | _ => [] end) cs.
Definition targets (cs : list clause) : list string := flat_map (fun c => match c with To t => [t] | _ => [] end) cs.
Definition partitionings (cs : list clause) : list (list ident) := flat_map (fun c => match c with PartitionedBy l => [l] | _ => [] end) cs.
Definition option_lists (cs : list clause) : list (list (string * value)) := flat_map (fun c => match c with Options l => [l] | _ => [] end) cs.
Definition writes_clause (upper : string -> string) (c : clause) (ts : list token) : Prop :=
  match c with
  | Stored f => writes_stored upper f ts
  | To s => exists t1 t2, kw "TO" t1 /\ writes_literal s t2 /\ ts = [t1; t2]
  | PartitionedBy l => exists t1 t2 ts', kw "PARTITIONED" t1 /\ kw "BY" t2 /\ writes_names l ts' /\ ts = t1 :: t2 :: ts'
  | Options l => exists t ts', kw "OPTIONS" t /\ writes_options l ts' /\ ts = t :: ts'
  end.
(* what is copied: a table, or a query in parentheses that the parser of sqlparser reads up to the closing one *)
Definition writes_source (native_query : P nat) (s : source) (ts : list token) : Prop :=
  match s with
  | SRelation n => writes_name n ts
  | SQuery x => exists q, ts = LParen :: q ++ [RParen] /\ forall rest, native_query (q ++ RParen :: rest) = Some (x, RParen :: rest)
  end.

(* The clauses of CREATE EXTERNAL TABLE *)
Inductive xclause :=
| XStored (format : string) | XLocation (location : string) | XPartitionNames (l : list ident) | XPartitionColumns (l : list column)
| XOptions (l : list (string * value)) | XOrder (l : list order_by).
Definition xformats (cs : list xclause) : list string := flat_map (fun c => match c with XStored f => [f] | _ => [] end) cs.
Definition xlocations (cs : list xclause) : list string := flat_map (fun c => match c with XLocation t => [t] | _ => [] end) cs.
Definition xpartitionings (cs : list xclause) : list (list ident) :=
  flat_map (fun c => match c with XPartitionNames l => [l] | XPartitionColumns l => [map cd_name l] | _ => [] end) cs.
Definition xpartition_columns (cs : list xclause) : list column := flat_map (fun c => match c with XPartitionColumns l => l | _ => [] end) cs.
Definition xoption_lists (cs : list xclause) : list (list (string * value)) := flat_map (fun c => match c with XOptions l => [l] | _ => [] end) cs.
Definition xorders (cs : list xclause) : list (list order_by) := flat_map (fun c => match c with XOrder l => [l] | _ => [] end) cs.
(* an expression, as far as sqlparser is concerned: read up to a comma, a closing parenthesis, ASC, DESC or NULLS *)
Definition reads_expr (native_expr : P nat) (e : nat) (ts : list token) : Prop := forall t rest,
  t = Comma \/ t = RParen \/ kw "ASC" t \/ kw "DESC" t \/ kw "NULLS" t -> native_expr (ts ++ t :: rest) = Some (e, t :: rest).
Definition writes_order (native_expr : P nat) (o : order_by) (ts : list token) : Prop :=
  exists e asc nulls, ts = e ++ asc ++ nulls /\ reads_expr native_expr (ob_expr o) e /\
    match ob_asc o with Some true => exists t, kw "ASC" t /\ asc = [t] | Some false => exists t, kw "DESC" t /\ asc = [t] | None => asc = [] end /\
    match ob_nulls_first o with
    | Some true => exists t1 t2, kw "NULLS" t1 /\ kw "FIRST" t2 /\ nulls = [t1; t2]
    | Some false => exists t1 t2, kw "NULLS" t1 /\ kw "LAST" t2 /\ nulls = [t1; t2]
    | None => nulls = []
    end.
(* the options of a column, each with the name that CONSTRAINT gives it, if any; sqlparser reads an option up to what follows in the statement *)
Inductive writes_col_options (native_option : P (option nat)) : list (option ident * nat) -> list token -> Prop :=
| wco_nil : writes_col_options native_option [] []
| wco_plain x v q k opt l ts : writes_col_options native_option l ts -> k <> "CONSTRAINT"%string -> k <> "COLLATE"%string ->
    (forall t rest, t = Comma \/ t = RParen -> native_option (Word v q k :: opt ++ ts ++ t :: rest) = Some (Some x, ts ++ t :: rest)) ->
    writes_col_options native_option ((None, x) :: l) (Word v q k :: opt ++ ts)
| wco_named n x t1 t2 opt l ts : writes_col_options native_option l ts -> kw "CONSTRAINT" t1 -> writes_ident n t2 ->
    (forall t rest, t = Comma \/ t = RParen -> native_option (opt ++ ts ++ t :: rest) = Some (Some x, ts ++ t :: rest)) ->
    writes_col_options native_option ((Some n, x) :: l) (t1 :: t2 :: opt ++ ts).
Definition writes_collation (c : option (list ident)) (ts : list token) : Prop :=
  match c with Some n => exists t ns, kw "COLLATE" t /\ writes_name n ns /\ ts = t :: ns | None => ts = [] end.
(* a column: a name and a type, that sqlparser reads up to what follows; a collation and options *)
Definition writes_column (native_type : P nat) (native_option : P (option nat)) (c : column) (ts : list token) : Prop :=
  exists k t ty coll opts, ts = Word (fst (cd_name c)) (snd (cd_name c)) k :: t :: ty ++ coll ++ opts /\ t <> Comma /\ t <> RParen /\
    writes_collation (cd_collation c) coll /\ writes_col_options native_option (cd_options c) opts /\
    forall t' rest, t' = Comma \/ t' = RParen -> native_type (t :: ty ++ coll ++ opts ++ t' :: rest) = Some (cd_type c, coll ++ opts ++ t' :: rest).
(* asked of sqlparser: a word that begins a column is not a table constraint, and no column option begins with a comma or a closing parenthesis *)
Definition no_constraint (native_constraint : P (option nat)) (ts : list token) : Prop := forall rest, native_constraint (ts ++ rest) = Some (None, ts ++ rest).
Definition no_option_here (native_option : P (option nat)) : Prop :=
  forall t rest, t = Comma \/ t = RParen -> native_option (t :: rest) = Some (None, t :: rest).
Definition writes_xclause (native_expr native_type : P nat) (native_constraint native_option : P (option nat)) (upper : string -> string) (c : xclause) (ts : list token) : Prop :=
  match c with
  | XStored f => writes_stored upper f ts
  | XLocation s => exists t1 t2, kw "LOCATION" t1 /\ writes_literal s t2 /\ ts = [t1; t2]
  | XPartitionNames l => l <> [] /\ exists t1 t2 ts', kw "PARTITIONED" t1 /\ kw "BY" t2 /\ writes_names l ts' /\ ts = t1 :: t2 :: ts'
  | XPartitionColumns l => l <> [] /\ exists t1 t2 tss, kw "PARTITIONED" t1 /\ kw "BY" t2 /\ Forall2 (writes_column native_type native_option) l tss /\
      Forall (no_constraint native_constraint) tss /\ exists ts', listed tss ts' /\ ts = t1 :: t2 :: ts'
  | XOptions l => exists t ts', kw "OPTIONS" t /\ writes_options l ts' /\ ts = t :: ts'
  | XOrder l => l <> [] /\ exists t1 t2 tss, kw "WITH" t1 /\ kw "ORDER" t2 /\ Forall2 (writes_order native_expr) l tss /\ ts = t1 :: t2 :: parens tss
  end.
(* what stands in the parentheses after the name: columns and constraints of the table *)
Definition writes_cell (native_type : P nat) (native_constraint native_option : P (option nat)) (c : column + nat) (ts : list token) : Prop :=
  match c with
  | inl c => writes_column native_type native_option c ts /\ no_constraint native_constraint ts
  | inr x => exists v q k r, ts = Word v q k :: r /\ forall t rest, t = Comma \/ t = RParen -> native_constraint (ts ++ t :: rest) = Some (Some x, t :: rest)
  end.
Definition columns_in (l : list (column + nat)) : list column := flat_map (fun c => match c with inl c => [c] | inr _ => [] end) l.
Definition constraints_in (l : list (column + nat)) : list nat := flat_map (fun c => match c with inl _ => [] | inr x => [x] end) l.
Definition writes_columns (native_type : P nat) (native_constraint native_option : P (option nat)) (l : list (column + nat)) (ts : list token) : Prop :=
  (l = [] /\ ts = []) \/ exists tss, Forall2 (writes_cell native_type native_constraint native_option) l tss /\ listed tss ts.
Definition writes_flag (ks : list string) (on : bool) (ts : list token) : Prop := if on then Forall2 kw ks ts else ts = [].
Definition writes_temp (on : bool) (ts : list token) : Prop := if on then exists t, (kw "TEMP" t \/ kw "TEMPORARY" t) /\ ts = [t] else ts = [].

(* How the statement that a plan says is executed must have been written *)
Definition written_as (p : plan) (ts : list token) : Prop :=
  match p with
  | PTruncate n => exists t1 t2 ns, ts = t1 :: t2 :: ns /\ kw "TRUNCATE" t1 /\ kw "TABLE" t2 /\ writes_name n ns
  | PVacuum d tb => exists t1 t2 ns n, ts = t1 :: t2 :: ns /\ kw "VACUUM" t1 /\ writes_name n ns /\
      ((kw "TABLE" t2 /\ d = None /\ tb = Some n) \/ (kw "DATABASE" t2 /\ d = hd_error n /\ tb = None))
  | PConvert l n => exists t1 t2 t3 t4 ns, ts = t1 :: t2 :: t3 :: t4 :: ns /\ kw "CONVERT" t1 /\ writes_literal l t2 /\ kw "TO" t3 /\ kw "DELTA" t4 /\ writes_name n ns
  | PCopy _ _ _ _ _ => exists t r, ts = t :: r /\ kw "COPY" t
  | PCreateFunction _ _ _ | PExternal _ => exists t r, ts = t :: r /\ kw "CREATE" t
  | PNative _ => True
  end.
