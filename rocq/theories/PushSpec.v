(* What a remote database makes of the text it is sent, independently of how Seafowl builds it: how the text is cut into tokens, which expression
   the tokens stand for, and which value an expression has on a row. *)
From Coq Require Import Ascii String List Arith Bool ZArith.
Import ListNotations.
From Verif Require Import PushModel.
Open Scope string_scope.

(* ---- Tokens ---- *)
Inductive token :=
| TId (name : string)                                         (* a quoted identifier *)
| TStr (s : string)
| TNum (digits : string)
| TWord (w : string)                                          (* a keyword or an unquoted name *)
| TSym (s : string)
| LP | RP | Comma.

Definition snoc (s : string) (c : ascii) : string := s ++ String c "".
Definition digit (c : ascii) : bool := let n := nat_of_ascii c in ((48 <=? n) && (n <=? 57))%nat.
Definition num_char (c : ascii) : bool := digit c || Ascii.eqb c ".".
Definition letter (c : ascii) : bool := let n := nat_of_ascii c in (((65 <=? n) && (n <=? 90)) || ((97 <=? n) && (n <=? 122)) || (n =? 95))%nat.
Definition word_char (c : ascii) : bool := letter c || digit c.
Definition sym_char (c : ascii) : bool := existsb (Ascii.eqb c) ["+"; "-"; "*"; "/"; "%"; "="; "<"; ">"; "!"; "~"; "@"; "#"; "&"; "|"; "^"]%char.

(* the quote of identifiers: MySQL takes the back tick, Postgres and SQLite the double quote *)
Definition ident_quote (d : dialect) : ascii := match d with MySQL => "`" | _ => "034" end.
(* MySQL reads a backslash in a string as an escape (unless NO_BACKSLASH_ESCAPES is set); Postgres (standard_conforming_strings) and SQLite do not *)
Definition backslash_escapes (d : dialect) : bool := match d with MySQL => true | _ => false end.
Definition unescape (c : ascii) : string :=
  if Ascii.eqb c "n" then String "010" "" else if Ascii.eqb c "r" then String "013" "" else if Ascii.eqb c "t" then String "009" ""
  else if Ascii.eqb c "b" then String "008" "" else if Ascii.eqb c "0" then String "000" "" else if Ascii.eqb c "Z" then String "026" ""
  else if Ascii.eqb c "%" then "\%" else if Ascii.eqb c "_" then "\_" else String c "".

(* Where the lexer is. A doubled quote inside quotes stands for one quote; two dashes start a comment that ends with the line. *)
Inductive mode :=
| Base
| InStr (acc : string) | StrEscape (acc : string) | StrQuote (acc : string)
| InId (acc : string) | IdQuote (acc : string)
| InNum (acc : string) | InWord (acc : string) | InSym (acc : string)
| Comment.
(* a character that starts something *)
Definition start (d : dialect) (c : ascii) : option (list token * mode) :=
  if Ascii.eqb c " " then Some ([], Base)
  else if Ascii.eqb c "'" then Some ([], InStr "")
  else if Ascii.eqb c (ident_quote d) then Some ([], InId "")
  else if Ascii.eqb c "(" then Some ([LP], Base)
  else if Ascii.eqb c ")" then Some ([RP], Base)
  else if Ascii.eqb c "," then Some ([Comma], Base)
  else if Ascii.eqb c "." then Some ([TSym "."], Base)
  else if digit c then Some ([], InNum (String c ""))
  else if letter c then Some ([], InWord (String c ""))
  else if sym_char c then Some ([], InSym (String c ""))
  else None.
Definition after (d : dialect) (t : token) (c : ascii) : option (list token * mode) :=
  match start d c with Some (ts, m) => Some (t :: ts, m) | None => None end.
Definition step (d : dialect) (m : mode) (c : ascii) : option (list token * mode) :=
  match m with
  | Base => start d c
  | InStr acc =>
      if Ascii.eqb c "'" then Some ([], StrQuote acc)
      else if (backslash_escapes d && Ascii.eqb c "\")%bool then Some ([], StrEscape acc)
      else Some ([], InStr (snoc acc c))
  | StrEscape acc => Some ([], InStr (acc ++ unescape c))
  | StrQuote acc => if Ascii.eqb c "'" then Some ([], InStr (snoc acc c)) else after d (TStr acc) c
  | InId acc => if Ascii.eqb c (ident_quote d) then Some ([], IdQuote acc) else Some ([], InId (snoc acc c))
  | IdQuote acc => if Ascii.eqb c (ident_quote d) then Some ([], InId (snoc acc c)) else after d (TId acc) c
  | InNum acc => if num_char c then Some ([], InNum (snoc acc c)) else after d (TNum acc) c
  | InWord acc => if word_char c then Some ([], InWord (snoc acc c)) else after d (TWord acc) c
  | InSym acc =>
      if sym_char c then if (Ascii.eqb c "-" && String.eqb acc "-")%bool then Some ([], Comment) else Some ([], InSym (snoc acc c))
      else after d (TSym acc) c
  | Comment => if Ascii.eqb c "010" then Some ([], Base) else Some ([], Comment)
  end.
Fixpoint run (d : dialect) (m : mode) (s : string) : option (list token * mode) :=
  match s with
  | EmptyString => Some ([], m)
  | String c r =>
      match step d m c with
      | Some (ts, m') => match run d m' r with Some (ts', m'') => Some (ts ++ ts', m'')%list | None => None end
      | None => None
      end
  end.
(* the end of the text; open quotes are an error *)
Definition finish (m : mode) : option (list token) :=
  match m with
  | Base | Comment => Some []
  | StrQuote acc => Some [TStr acc] | IdQuote acc => Some [TId acc] | InNum acc => Some [TNum acc] | InWord acc => Some [TWord acc] | InSym acc => Some [TSym acc]
  | InStr _ | StrEscape _ | InId _ => None
  end.
Definition lex (d : dialect) (s : string) : option (list token) :=
  match run d Base s with
  | Some (ts, m) => match finish m with Some t => Some (ts ++ t)%list | None => None end
  | None => None
  end.

(* ---- Expressions ----
   The levels of precedence on which the three databases agree: OR, AND, NOT, IS, comparisons and IN (which do not associate), other operators,
   addition, multiplication, signs. Binary operators associate to the left. *)
Definition level (o : op) : nat :=
  match o with
  | Or => 1 | And => 2 | IsDistinctFrom | IsNotDistinctFrom => 4
  | Eq | NotEq | Lt | LtEq | Gt | GtEq => 5
  | Plus | Minus => 7 | Multiply | Divide | Modulo => 8
  | _ => 6
  end.
Definition not_level := 3.
Definition is_level := 4.
Definition in_level := 5.
Definition sign_level := 9.
(* the operator that a symbol stands for. In MySQL || is OR (unless PIPES_AS_CONCAT is set). *)
Definition symbol_op (d : dialect) (s : string) : option op :=
  if s =? "=" then Some Eq else if s =? "!=" then Some NotEq else if s =? "<" then Some Lt else if s =? "<=" then Some LtEq
  else if s =? ">" then Some Gt else if s =? ">=" then Some GtEq else if s =? "+" then Some Plus else if s =? "-" then Some Minus
  else if s =? "*" then Some Multiply else if s =? "/" then Some Divide else if s =? "%" then Some Modulo
  else if s =? "&" then Some BitwiseAnd else if s =? "|" then Some BitwiseOr else if s =? "<<" then Some ShiftLeft else if s =? ">>" then Some ShiftRight
  else if s =? "||" then Some (match d with MySQL => Or | _ => StringConcat end)
  else match d with
  | MySQL => if s =? "^" then Some BitwiseXor else None
  | Postgres =>
      if s =? "#" then Some BitwiseXor else if s =? "~" then Some RegexMatch else if s =? "~*" then Some RegexIMatch
      else if s =? "!~" then Some RegexNotMatch else if s =? "!~*" then Some RegexNotIMatch else if s =? "~~" then Some LikeMatch
      else if s =? "~~*" then Some ILikeMatch else if s =? "!~~" then Some NotLikeMatch else if s =? "!~~*" then Some NotILikeMatch
      else if s =? "@>" then Some AtArrow else if s =? "<@" then Some ArrowAt else None
  | _ => None
  end.
Definition upper_char (c : ascii) : ascii := let n := nat_of_ascii c in if ((97 <=? n) && (n <=? 122))%nat then ascii_of_nat (n - 32) else c.
Definition lower_char (c : ascii) : ascii := let n := nat_of_ascii c in if ((65 <=? n) && (n <=? 90))%nat then ascii_of_nat (n + 32) else c.
Fixpoint map_string (f : ascii -> ascii) (s : string) : string := match s with EmptyString => "" | String c r => String (f c) (map_string f r) end.
Definition upper := map_string upper_char.
Definition lower := map_string lower_char.
Definition keyword (t : token) : string := match t with TWord w => upper w | _ => "" end.

(* what may follow an expression *)
Inductive follow :=
| FNone                                                       (* nothing that continues it *)
| FBad                                                        (* a keyword of an operator that the rest does not complete *)
| FPost (f : expr -> expr) (rest : list token)                (* IS [NOT] NULL, TRUE, FALSE *)
| FIn (negated : bool) (rest : list token)                    (* [NOT] IN *)
| FBin (o : op) (rest : list token).
Definition follow_is (d : dialect) (ts : list token) : follow :=
  match ts with
  | a :: r =>
      if keyword a =? "NULL" then FPost IsNull r else if keyword a =? "TRUE" then FPost IsTrue r else if keyword a =? "FALSE" then FPost IsFalse r
      else match r with
      | b :: r' =>
          if keyword a =? "NOT" then
            if keyword b =? "NULL" then FPost IsNotNull r' else if keyword b =? "TRUE" then FPost IsNotTrue r' else if keyword b =? "FALSE" then FPost IsNotFalse r'
            else match r', d with
            | c :: r'', (Postgres | SQLite) => if ((keyword b =? "DISTINCT") && (keyword c =? "FROM"))%bool then FBin IsNotDistinctFrom r'' else FBad
            | _, _ => FBad
            end
          else match d with
            | Postgres | SQLite => if ((keyword a =? "DISTINCT") && (keyword b =? "FROM"))%bool then FBin IsDistinctFrom r' else FBad
            | _ => FBad
            end
      | [] => FBad
      end
  | [] => FBad
  end.
Definition next_operator (d : dialect) (ts : list token) : follow :=
  match ts with
  | TSym s :: r => match symbol_op d s with Some o => FBin o r | None => FBad end
  | TWord w :: r =>
      if upper w =? "AND" then FBin And r else if upper w =? "OR" then FBin Or r
      else if upper w =? "IS" then follow_is d r
      else if upper w =? "IN" then FIn false r
      else if upper w =? "NOT" then
        match r with
        | t :: r' => if keyword t =? "IN" then FIn true r'
                     else match d with MySQL => if keyword t =? "RLIKE" then FBin RegexNotMatch r' else FBad | _ => FBad end
        | [] => FBad
        end
      else match d with MySQL => if upper w =? "RLIKE" then FBin RegexMatch r else FNone | _ => FNone end
  | _ => FNone
  end.

Inductive result := OutOfFuel | Reject | Parsed (e : expr) (rest : list token).
Inductive list_result := LOutOfFuel | LReject | LParsed (l : list expr) (rest : list token).

(* comparisons do not associate: after one, another one is an error *)
Definition chained (d : dialect) (o : op) (rest : list token) : bool :=
  ((level o =? 5) && match next_operator d rest with FBin o' _ => level o' =? 5 | FIn _ _ => true | _ => false end)%nat.

(* Operator precedence parsing with operators of at least [min]. [n] only makes the recursion end: see reading_unique. *)
Fixpoint expr_at (d : dialect) (n min : nat) (ts : list token) {struct n} : result :=
  match n with
  | 0 => OutOfFuel
  | S n =>
      match ts with
      | TId s :: r => rest_at d n min (Col s) r
      | TStr s :: r => rest_at d n min (Lit (SText s)) r
      | TNum t :: r => rest_at d n min (Lit (SNum false t)) r
      | TWord w :: r =>
          if upper w =? "NOT" then
            if (min <=? not_level)%nat then match expr_at d n not_level r with Parsed e r' => rest_at d n min (Not e) r' | x => x end else Reject
          else if upper w =? "NULL" then rest_at d n min (Lit SNull) r
          else if upper w =? "TRUE" then rest_at d n min (Lit (SBool true)) r
          else if upper w =? "FALSE" then rest_at d n min (Lit (SBool false)) r
          else if existsb (String.eqb (upper w)) ["AND"; "OR"; "IS"; "IN"; "DISTINCT"; "FROM"; "RLIKE"] then Reject
          else rest_at d n min (Col (lower w)) r
      | TSym s :: r => if s =? "-" then match expr_at d n sign_level r with Parsed e r' => rest_at d n min (Neg e) r' | x => x end else Reject
      | LP :: r => match expr_at d n 1 r with Parsed e (RP :: r') => rest_at d n min e r' | Parsed _ _ => Reject | x => x end
      | _ => Reject
      end
  end
with rest_at (d : dialect) (n min : nat) (lhs : expr) (ts : list token) {struct n} : result :=
  match n with
  | 0 => OutOfFuel
  | S n =>
      match next_operator d ts with
      | FNone => Parsed lhs ts
      | FBad => Reject
      | FPost f r => if (min <=? is_level)%nat then rest_at d n min (f lhs) r else Parsed lhs ts
      | FIn negated r =>
          if (min <=? in_level)%nat then
            match r with
            | LP :: r' =>
                match list_at d n r' with
                | LParsed l (RP :: r'') => if chained d Eq r'' then Reject else rest_at d n min (InList lhs l negated) r''
                | LParsed _ _ => Reject
                | LReject => Reject
                | LOutOfFuel => OutOfFuel
                end
            | _ => Reject
            end
          else Parsed lhs ts
      | FBin o r =>
          if (min <=? level o)%nat then
            match expr_at d n (S (level o)) r with
            | Parsed rhs r' => if chained d o r' then Reject else rest_at d n min (Bin lhs o rhs) r'
            | x => x
            end
          else Parsed lhs ts
      end
  end
(* one or more expressions *)
with list_at (d : dialect) (n : nat) (ts : list token) {struct n} : list_result :=
  match n with
  | 0 => LOutOfFuel
  | S n =>
      match expr_at d n 1 ts with
      | Parsed e (Comma :: r) => match list_at d n r with LParsed l r' => LParsed (e :: l) r' | x => x end
      | Parsed e r => LParsed [e] r
      | Reject => LReject
      | OutOfFuel => LOutOfFuel
      end
  end.

(* the database reads the text as the expression; it refuses the text *)
Definition understood (d : dialect) (sql : string) (e : expr) : Prop :=
  exists ts n, lex d sql = Some ts /\ expr_at d n 1 ts = Parsed e [].
Definition rejected (d : dialect) (sql : string) : Prop :=
  lex d sql = None \/
  exists ts n, lex d sql = Some ts /\ (expr_at d n 1 ts = Reject \/ exists e t r, expr_at d n 1 ts = Parsed e (t :: r)).

(* ---- Values ---- *)
Inductive value := VNull | VBool (b : bool) | VNum (neg : bool) (t : string) | VInt (z : Z) | VStr (s : string) | VTime (t : string) | VDec (neg : bool) (t s : string).
Definition value_of (v : scalar) : value :=
  match v with
  | SNull => VNull | SBool b => VBool b | SNum neg t => VNum neg t | SNaN => VNum false "NaN" | SInf neg => VNum neg "inf"
  | SDecimal neg t _ s => VDec neg t s | SText s => VStr s | SView s => VStr s
  | STemporal (Some t) => VStr t | STemporal None => VNull | SZoned => VNull | STime t => VTime t
  end.
(* three-valued logic *)
Definition truth (v : value) : option bool := match v with VBool b => Some b | _ => None end.
Definition and3 (a b : value) : value :=
  match truth a, truth b with Some false, _ => VBool false | _, Some false => VBool false | Some true, Some true => VBool true | _, _ => VNull end.
Definition or3 (a b : value) : value :=
  match truth a, truth b with Some true, _ => VBool true | _, Some true => VBool true | Some false, Some false => VBool false | _, _ => VNull end.
Definition not3 (a : value) : value := match truth a with Some b => VBool (negb b) | None => VNull end.
Definition is_null (v : value) : bool := match v with VNull => true | _ => false end.
Definition is_bool (b : bool) (v : value) : bool := match v with VBool b' => Bool.eqb b b' | _ => false end.
(* the meaning of the operators, of the sign and of IN *)
Record meaning := { m_bin : op -> value -> value -> value; m_neg : value -> value; m_in : bool -> value -> list value -> value }.
Definition row := string -> value.
Fixpoint eval (m : meaning) (r : row) (e : expr) {struct e} : value :=
  match e with
  | Col n => r n
  | Lit v => value_of v
  | Not x => not3 (eval m r x)
  | Neg x => m_neg m (eval m r x)
  | IsNull x => VBool (is_null (eval m r x)) | IsNotNull x => VBool (negb (is_null (eval m r x)))
  | IsTrue x => VBool (is_bool true (eval m r x)) | IsFalse x => VBool (is_bool false (eval m r x))
  | IsNotTrue x => VBool (negb (is_bool true (eval m r x))) | IsNotFalse x => VBool (negb (is_bool false (eval m r x)))
  | InList x l negated => m_in m negated (eval m r x) (map (eval m r) l)
  | Bin a And b => and3 (eval m r a) (eval m r b)
  | Bin a Or b => or3 (eval m r a) (eval m r b)
  | Bin a o b => m_bin m o (eval m r a) (eval m r b)
  | OtherExpr => VNull
  end.
(* signs, and on integers subtraction, order and equality are what they should be *)
Definition proper (m : meaning) : Prop :=
  (forall t, m_neg m (VNum false t) = VNum true t) /\
  (forall x y, m_bin m Plus (VInt x) (VInt y) = VInt (x + y)) /\
  (forall x y, m_bin m Minus (VInt x) (VInt y) = VInt (x - y)) /\
  (forall x, m_neg m (VInt x) = VInt (- x)) /\
  (forall x y, m_bin m Gt (VInt x) (VInt y) = VBool (x >? y)%Z) /\
  (forall x y, m_bin m Eq (VBool x) (VBool y) = VBool (Bool.eqb x y)) /\
  (forall x, m_bin m Eq x VNull = VNull) /\
  (forall x y, m_bin m IsDistinctFrom (VBool x) (VBool y) = VBool (negb (Bool.eqb x y))).
Definition same_value (e e' : expr) : Prop := forall m r, proper m -> eval m r e = eval m r e'.

(* a filter keeps the rows on which it is true *)
Definition keeps (m : meaning) (r : row) (e : expr) : Prop := eval m r e = VBool true.
(* a filter is declared exactly pushed down, and the database reads another one: a row is kept by one and not by the other *)
Definition misread (d : dialect) (e : expr) : Prop :=
  supports_filter_pushdown d e = true /\
  exists sql e' m r, filter_expr_to_sql d e = Some sql /\ understood d sql e' /\ proper m /\ ~ (keeps m r e <-> keeps m r e').
(* ... and the database refuses the text *)
Definition refused (d : dialect) (e : expr) : Prop :=
  supports_filter_pushdown d e = true /\ exists sql, filter_expr_to_sql d e = Some sql /\ rejected d sql.

(* ---- A class of filters ---- *)
(* operators that a database knows under the name they are sent with *)
Definition known (d : dialect) (o : op) : bool :=
  match o with
  | Eq | NotEq | Lt | LtEq | Gt | GtEq | Plus | Minus | Multiply | Divide | Modulo | And | Or | BitwiseAnd | BitwiseOr | ShiftLeft | ShiftRight => true
  | StringConcat => match d with MySQL => false | _ => true end
  | IsDistinctFrom | IsNotDistinctFrom => match d with Postgres | SQLite => true | _ => false end
  | BitwiseXor => match d with MySQL => true | _ => false end
  | RegexMatch | RegexNotMatch => match d with Postgres | MySQL => true | _ => false end
  | _ => match d with Postgres => true | _ => false end
  end.
(* logic, comparisons, LIKE and arithmetic; the others are put in parentheses wherever they are operands *)
Definition ordinary (o : op) : bool :=
  match o with
  | Eq | NotEq | Lt | LtEq | Gt | GtEq | Plus | Minus | Multiply | Divide | Modulo | And | Or | LikeMatch | ILikeMatch | NotLikeMatch | NotILikeMatch => true
  | _ => false
  end.
Definition expr_level (e : expr) : nat :=
  match e with
  | Bin _ o _ => level o
  | Not _ => not_level
  | IsNull _ | IsNotNull _ | IsTrue _ | IsFalse _ | IsNotTrue _ | IsNotFalse _ => is_level
  | InList _ _ _ => in_level
  | _ => sign_level
  end.
Fixpoint all_chars (p : ascii -> bool) (s : string) : bool := match s with EmptyString => true | String c r => (p c && all_chars p r)%bool end.
Definition numeric (t : string) : bool := match t with String c r => (digit c && all_chars num_char r)%bool | "" => false end.
Definition no_backslash (d : dialect) (s : string) : bool := (negb (backslash_escapes d) || all_chars (fun c => negb (Ascii.eqb c "\")) s)%bool.
Definition plain_literal (d : dialect) (v : scalar) : bool :=
  match v with
  | SNull | SBool _ => true
  | SNum _ t => numeric t
  | SText s => no_backslash d s
  | STemporal (Some t) => (no_backslash d t && all_chars (fun c => negb (Ascii.eqb c "'")) t)%bool
  | _ => false
  end.
(* An operand of [o] may be: one that binds tighter; an ordinary operator that binds looser; on the left also one that binds equally tight and
   associates; on the right also AND in AND and OR in OR. Operands of the other operators bind as tight as a sign or are such operators. *)
Definition good_operand (left : bool) (o : op) (c : expr) : bool :=
  match c with
  | Bin _ o' _ =>
      (negb (ordinary o')
       || ordinary o && (negb (level o =? level o')%nat
                         || left && negb (level o =? 5)%nat
                         || match o, o' with And, And => true | Or, Or => true | _, _ => false end))%bool
  | _ => if ordinary o then (level o <? expr_level c)%nat else (expr_level c =? sign_level)%nat
  end.
Fixpoint well_grouped (d : dialect) (e : expr) {struct e} : bool :=
  match e with
  | Col _ => true
  | Lit v => plain_literal d v
  | Not x => (well_grouped d x && (not_level <=? expr_level x)%nat)%bool
  | Neg x => (well_grouped d x && (expr_level x =? sign_level)%nat)%bool
  | IsNull x | IsNotNull x | IsTrue x | IsFalse x | IsNotTrue x | IsNotFalse x => (well_grouped d x && (is_level <? expr_level x)%nat)%bool
  | InList x l _ => (well_grouped d x && (6 <? expr_level x)%nat && negb (match l with [] => true | _ => false end) && forallb (well_grouped d) l)%bool
  | Bin a o b => (known d o && well_grouped d a && well_grouped d b && good_operand true o a && good_operand false o b)%bool
  | OtherExpr => false
  end.

(* a word that is the name of a column when it is not quoted *)
Definition plain_word (w : string) : bool :=
  (match w with String c r => letter c && all_chars word_char r | "" => false end
   && negb (existsb (String.eqb (upper w)) ["NOT"; "NULL"; "TRUE"; "FALSE"; "AND"; "OR"; "IS"; "IN"; "DISTINCT"; "FROM"; "RLIKE"]))%bool.
(* literals whose text is not a literal of the databases *)
Definition misprinted (v : scalar) : bool :=
  match v with
  | SDecimal _ t p s => (numeric t && numeric p && numeric s)%bool
  | STime t => numeric t
  | SNaN | SInf _ => true
  | SView w => plain_word w
  | _ => false
  end.

(* ---- Queries ---- *)
(* SELECT columns FROM table [WHERE filter] [LIMIT n]; the columns are quoted names or * *)
Inductive columns := AllColumns | Columns (names : list string).
Fixpoint columns_of (ts : list token) : option (list string * list token) :=
  match ts with
  | TId c :: Comma :: r => match columns_of r with Some (l, r') => Some (c :: l, r') | None => None end
  | TId c :: r => Some ([c], r)
  | _ => None
  end.
Definition read_columns (ts : list token) : option (columns * list token) :=
  match ts with
  | TSym s :: r => if s =? "*" then Some (AllColumns, r) else None
  | _ => match columns_of ts with Some (l, r) => Some (Columns l, r) | None => None end
  end.
Inductive tail_of (d : dialect) : list token -> option expr -> option string -> Prop :=
| T_none : tail_of d [] None None
| T_limit n : tail_of d [TWord "LIMIT"; TNum n] None (Some n)
| T_where ts k e rest lim : expr_at d k 1 ts = Parsed e rest -> tail_of d rest None lim -> tail_of d (TWord "WHERE" :: ts) (Some e) lim.
Definition is_query (d : dialect) (sql : string) (cs : columns) (table : string) (filter : option expr) (limit : option string) : Prop :=
  exists ts rest name tail,
    lex d sql = Some (TWord "SELECT" :: ts) /\ read_columns ts = Some (cs, TWord "FROM" :: rest) /\
    lex d table = Some name /\ rest = (name ++ tail)%list /\ tail_of d tail filter limit.
(* a table name: a text that the database can read and that has no dash, so no comment *)
Definition table_text (d : dialect) (table : string) : Prop := lex d table <> None /\ all_chars (fun c => negb (Ascii.eqb c "-")) table = true.
Definition kept_by (m : meaning) (r : row) (filter : option expr) : Prop := match filter with Some e => keeps m r e | None => True end.
