(* Filters and queries sent to remote databases: datafusion_remote_tables/src/filter_pushdown.rs and provider.rs.
   The texts are built as in the source, character by character. Types of DataFusion (Expr, Operator, ScalarValue) are cut down to the cases the
   converter tells apart. What DataFusion supplies is taken from its version 44: the text of an operator and of a scalar (Display), the precedence
   of an operator, and conjunction. *)
From Coq Require Import Ascii String List Arith Bool.
Import ListNotations.
Open Scope string_scope.

(* connectorx SourceType; provider.rs 82-104 tells these apart *)
Inductive dialect := Postgres | SQLite | MySQL | OtherSource.

(* datafusion_expr::Operator *)
Inductive op :=
| Eq | NotEq | Lt | LtEq | Gt | GtEq | Plus | Minus | Multiply | Divide | Modulo | And | Or
| IsDistinctFrom | IsNotDistinctFrom | RegexMatch | RegexIMatch | RegexNotMatch | RegexNotIMatch
| LikeMatch | ILikeMatch | NotLikeMatch | NotILikeMatch
| BitwiseAnd | BitwiseOr | BitwiseXor | ShiftRight | ShiftLeft | StringConcat | AtArrow | ArrowAt.

(* datafusion_expr::Operator: Display *)
Definition op_display (o : op) : string :=
  match o with
  | Eq => "=" | NotEq => "!=" | Lt => "<" | LtEq => "<=" | Gt => ">" | GtEq => ">=" | Plus => "+" | Minus => "-" | Multiply => "*"
  | Divide => "/" | Modulo => "%" | And => "AND" | Or => "OR"
  | IsDistinctFrom => "IS DISTINCT FROM" | IsNotDistinctFrom => "IS NOT DISTINCT FROM"
  | RegexMatch => "~" | RegexIMatch => "~*" | RegexNotMatch => "!~" | RegexNotIMatch => "!~*"
  | LikeMatch => "~~" | ILikeMatch => "~~*" | NotLikeMatch => "!~~" | NotILikeMatch => "!~~*"
  | BitwiseAnd => "&" | BitwiseOr => "|" | BitwiseXor => "BIT_XOR" | ShiftRight => ">>" | ShiftLeft => "<<" | StringConcat => "||"
  | AtArrow => "@>" | ArrowAt => "<@"
  end.

(* datafusion_expr::Operator::precedence *)
Definition precedence (o : op) : nat :=
  match o with
  | Or => 5 | And => 10 | Eq | NotEq | LtEq | GtEq => 15 | Lt | Gt => 20
  | LikeMatch | ILikeMatch | NotLikeMatch | NotILikeMatch => 25
  | Plus | Minus => 30 | Multiply | Divide | Modulo => 40
  | _ => 0
  end.

(* datafusion ScalarValue, as far as filter_pushdown.rs 72-104 tells its cases apart, with the text that Display gives to each.
   A number is kept as its sign and the decimal text of its absolute value. *)
Inductive scalar :=
| SNull                                                       (* every typed NULL but decimals and zoned timestamps: "NULL" *)
| SBool (b : bool)
| SNum (neg : bool) (digits : string)                         (* integers, finite floats *)
| SNaN | SInf (neg : bool)                                    (* floats that are not finite *)
| SDecimal (neg : bool) (digits : string) (p s : string)      (* unscaled value, precision, scale: Display is "Some(v),p,s" *)
| SText (s : string)                                          (* Utf8, LargeUtf8 *)
| SView (s : string)                                          (* Utf8View *)
| STemporal (t : option string)                               (* Date32, Date64, timestamps without zone; None: out of the range of chrono *)
| SZoned                                                      (* timestamps with a zone *)
| STime (units : string).                                     (* Time32, Time64: Display is the number of units since midnight *)

(* datafusion_expr::Expr. OtherExpr is any expression that filter_pushdown.rs 134-140 rejects. *)
Inductive expr :=
| Col (name : string)
| Lit (v : scalar)
| Not (e : expr)
| Neg (e : expr)
| IsNull (e : expr) | IsNotNull (e : expr) | IsTrue (e : expr) | IsFalse (e : expr) | IsNotTrue (e : expr) | IsNotFalse (e : expr)
| InList (e : expr) (l : list expr) (negated : bool)
| Bin (l : expr) (o : op) (r : expr)
| OtherExpr.

(* str::replace of one character by two of it *)
Fixpoint double (c : ascii) (s : string) : string :=
  match s with EmptyString => "" | String a r => if Ascii.eqb a c then String a (String a (double c r)) else String a (double c r) end.
Definition dquote : ascii := "034".
Definition backtick : ascii := "`".
Definition squote : ascii := "'".
(* filter_pushdown.rs 242-248: quote_identifier_double_quotes, quote_identifier_backticks *)
Definition quote_identifier (q : ascii) (name : string) : string := String q (double q name ++ String q "").

(* filter_pushdown.rs 68-70, 50-53: col_to_sql *)
Definition col_to_sql (d : dialect) (name : string) : string :=
  match d with MySQL => quote_identifier backtick name | _ => quote_identifier dquote name end.

(* filter_pushdown.rs 36-65, 106-108: op_to_sql *)
Definition op_to_sql (d : dialect) (o : op) : option string :=
  match d with
  | SQLite => match o with RegexMatch | RegexIMatch | RegexNotMatch | RegexNotIMatch | BitwiseXor => None | _ => Some (op_display o) end
  | MySQL => match o with
      | RegexIMatch | RegexNotIMatch => None
      | RegexMatch => Some "RLIKE" | RegexNotMatch => Some "NOT RLIKE" | BitwiseXor => Some "^"
      | _ => Some (op_display o) end
  | _ => Some (op_display o)
  end.

Definition signed (neg : bool) (t : string) : string := if neg then "-" ++ t else t.
(* filter_pushdown.rs 72-104: scalar_value_to_sql *)
Definition scalar_value_to_sql (v : scalar) : option string :=
  match v with
  | SText s => Some (String squote (double squote s ++ String squote ""))
  | STemporal (Some t) => Some (String squote (t ++ String squote ""))
  | STemporal None => None
  | SZoned => None
  | SNull => Some "NULL"
  | SBool b => Some (if b then "true" else "false")
  | SNum neg t => Some (signed neg t)
  | SNaN => Some "NaN"
  | SInf neg => Some (signed neg "inf")
  | SDecimal neg t p s => Some ("Some(" ++ signed neg t ++ ")," ++ p ++ "," ++ s)
  | SView s => Some s
  | STime t => Some t
  end.

(* filter_pushdown.rs 114-144: f_down (true: go on) *)
Definition f_down (d : dialect) (e : expr) : bool :=
  match e with
  | OtherExpr => false
  | Bin _ o _ => match op_to_sql d o with Some _ => true | None => false end
  | _ => true
  end.

Definition parens (s : string) : string := "(" ++ s ++ ")".
(* filter_pushdown.rs 169-183: an operand is put in parentheses *)
Definition parenthesised (o : op) (child : expr) : bool :=
  match child with
  | Bin _ o' _ => ((precedence o' =? 0) || (precedence o' <? precedence o))%nat
  | _ => false
  end.
Definition operand (o : op) (child : expr) (sql : string) : string := if parenthesised o child then parens sql else sql.

(* itertools join *)
Fixpoint join (sep : string) (l : list string) : string :=
  match l with [] => "" | [x] => x | x :: r => x ++ sep ++ join sep r end.

(* filter_pushdown.rs 146-239: f_up. The stack grows to the left; None: an error, or the panic of pop_sql_expr and of the subtraction of lengths. *)
Definition pop1 (st : list string) (f : string -> string) : option (list string) := match st with x :: r => Some (f x :: r) | [] => None end.
Definition f_up (d : dialect) (e : expr) (st : list string) : option (list string) :=
  match e with
  | Col n => Some (col_to_sql d n :: st)
  | Lit v => match scalar_value_to_sql v with Some t => Some (t :: st) | None => None end
  | Bin l o r =>
      match st with
      | right_sql :: left_sql :: rest =>
          match op_to_sql d o with
          | Some op_sql => Some ((operand o l left_sql ++ " " ++ op_sql ++ " " ++ operand o r right_sql) :: rest)
          | None => None
          end
      | _ => None
      end
  | Not _ => pop1 st (fun x => "NOT " ++ x)
  | Neg _ => pop1 st (fun x => "(- " ++ x ++ ")")
  | IsNull _ => pop1 st (fun x => x ++ " IS NULL")
  | IsNotNull _ => pop1 st (fun x => x ++ " IS NOT NULL")
  | IsTrue _ => pop1 st (fun x => x ++ " IS TRUE")
  | IsFalse _ => pop1 st (fun x => x ++ " IS FALSE")
  | IsNotTrue _ => pop1 st (fun x => x ++ " IS NOT TRUE")
  | IsNotFalse _ => pop1 st (fun x => x ++ " IS NOT FALSE")
  | InList _ l negated =>
      if (List.length st <? List.length l)%nat then None
      else let list_sql := join ", " (rev (firstn (List.length l) st)) in
           pop1 (skipn (List.length l) st) (fun x => x ++ (if negated then " NOT IN (" else " IN (") ++ list_sql ++ ")")
  | OtherExpr => Some st
  end.

(* TreeNode::visit of DataFusion: f_down, the children in order, f_up *)
Fixpoint visit (d : dialect) (e : expr) (st : list string) {struct e} : option (list string) :=
  if f_down d e then
    match
      match e with
      | Not x | Neg x | IsNull x | IsNotNull x | IsTrue x | IsFalse x | IsNotTrue x | IsNotFalse x => visit d x st
      | Bin l _ r => match visit d l st with Some st' => visit d r st' | None => None end
      | InList x l _ =>
          match visit d x st with
          | Some st' => (fix go (l : list expr) (st : list string) := match l with [] => Some st | y :: l' => match visit d y st with Some st' => go l' st' | None => None end end) l st'
          | None => None
          end
      | _ => Some st
      end
    with Some st' => f_up d e st' | None => None end
  else None.

(* filter_pushdown.rs 253-278 and provider.rs 82-104: filter_expr_to_sql *)
Definition filter_expr_to_sql (d : dialect) (e : expr) : option string :=
  match d with
  | OtherSource => None
  | _ => match visit d e [] with Some [s] => Some s | _ => None end
  end.

(* provider.rs 224-242: supports_filters_pushdown (true: Exact, false: Unsupported) *)
Definition supports_filter_pushdown (d : dialect) (e : expr) : bool := match filter_expr_to_sql d e with Some _ => true | None => false end.

(* datafusion_expr::utils::conjunction *)
Definition conjunction (fs : list expr) : option expr :=
  match fs with [] => None | f :: r => Some (fold_left (fun acc x => Bin acc And x) r f) end.

(* provider.rs 131-145: the column list; SourceType other than MySQL quotes with double quotes. None: no projection. *)
Definition columns_sql (d : dialect) (projected : option (list string)) : string :=
  match projected with None => "*" | Some names => join ", " (map (col_to_sql d) names) end.
(* provider.rs 148-182: the query of a scan. [projected]: the names of the projected columns; [limit]: the decimal text of the limit. *)
Definition scan_sql (d : dialect) (table : string) (projected : option (list string)) (filters : list expr) (limit : option string) : option string :=
  match
    match conjunction filters with
    | None => Some ""
    | Some f => match filter_expr_to_sql d f with Some t => Some (" WHERE " ++ t) | None => None end
    end
  with
  | None => None
  | Some where_clause =>
      Some ("SELECT " ++ columns_sql d projected ++ " FROM " ++ table ++ where_clause ++ match limit with Some n => " LIMIT " ++ n | None => "" end)
  end.
