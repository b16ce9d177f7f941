(* The cases of the project's own unit tests of the filter converter (datafusion_remote_tables/src/filter_pushdown.rs 280-423), run through the model.
   They are tests of the model, not proofs: they show that it gives the texts the project expects of the code. Dates and timestamps enter the model
   as the text chrono gives them, so the four units of a timestamp are one case here. *)
From Coq Require Import Ascii String List Bool.
From Verif Require Import PushModel.
Import ListNotations.
Open Scope string_scope.

(* lit of a number and of a text *)
Definition num (t : string) : expr := Lit (SNum false t).
(* the test replaces every double quote of the expected text by a backtick for MySQL (filter_pushdown.rs 372-376) *)
Fixpoint backticked (s : string) : string :=
  match s with EmptyString => "" | String a r => String (if Ascii.eqb a dquote then backtick else a) (backticked r) end.
Definition expected (e : expr) (text : string) : Prop :=
  filter_expr_to_sql Postgres e = Some text /\ filter_expr_to_sql SQLite e = Some text /\ filter_expr_to_sql MySQL e = Some (backticked text).
Definition rejected (e : expr) : Prop :=
  filter_expr_to_sql Postgres e = None /\ filter_expr_to_sql SQLite e = None /\ filter_expr_to_sql MySQL e = None.
Ltac run := repeat split; vm_compute; reflexivity.

(* filter_pushdown.rs 303-379: test_filter_expr_to_sql *)
Example simple_binary_expression : expected (Bin (Col "a") GtEq (num "25")) """a"" >= 25". Proof. run. Qed.
Example complex_binary_expression :
  expected (Bin (Bin (Bin (Bin (Col "a") Eq (num "1")) Or (Bin (Col "b") Gt (num "10"))) And (Bin (Col "c") LtEq (num "15"))) Or
                (Bin (Col "d") NotEq (Lit (SText "some_string"))))
           "(""a"" = 1 OR ""b"" > 10) AND ""c"" <= 15 OR ""d"" != 'some_string'".
Proof. run. Qed.
Example simple_not : expected (Not (Col "a")) "NOT ""a""". Proof. run. Qed.
Example simple_negative : expected (Bin (Neg (Col "a")) Lt (num "0")) "(- ""a"") < 0". Proof. run. Qed.
Example simple_is_null : expected (IsNull (Col "a")) """a"" IS NULL". Proof. run. Qed.
Example simple_is_not_null : expected (IsNotNull (Col "a")) """a"" IS NOT NULL". Proof. run. Qed.
Example simple_is_true : expected (IsTrue (Col "a")) """a"" IS TRUE". Proof. run. Qed.
Example simple_is_false : expected (IsFalse (Col "a")) """a"" IS FALSE". Proof. run. Qed.
Example simple_is_not_true : expected (IsNotTrue (Col "a")) """a"" IS NOT TRUE". Proof. run. Qed.
Example simple_in_list : expected (InList (Col "a") [num "1"; num "2"; num "3"] false) """a"" IN (1, 2, 3)". Proof. run. Qed.
Example simple_negated_in_list : expected (InList (Col "a") [num "1"; num "2"; num "3"] true) """a"" NOT IN (1, 2, 3)". Proof. run. Qed.
Example simple_date64 : expected (Bin (Col "a") Gt (Lit (STemporal (Some "1970-01-01 00:00:01")))) """a"" > '1970-01-01 00:00:01'". Proof. run. Qed.
Example simple_timestamp_s : expected (Bin (Col "a") Gt (Lit (STemporal (Some "1970-01-01 00:16:40")))) """a"" > '1970-01-01 00:16:40'". Proof. run. Qed.
Example simple_timestamp_ns :
  expected (Bin (Col "a") Gt (Lit (STemporal (Some "1970-01-01 00:00:00.000001")))) """a"" > '1970-01-01 00:00:00.000001'".
Proof. run. Qed.

(* filter_pushdown.rs 381-398: test_filter_expr_to_sql_special_column_names *)
Example special_column_names :
  filter_expr_to_sql MySQL (Bin (Col "a quoted `column name` with spaces") Lt (num "42")) = Some "`a quoted ``column name`` with spaces` < 42" /\
  filter_expr_to_sql Postgres (Bin (Col "a quoted ""column name"" with spaces") Lt (num "42")) = Some """a quoted """"column name"""" with spaces"" < 42" /\
  filter_expr_to_sql SQLite (Bin (Col "a quoted ""column name"" with spaces") Lt (num "42")) = Some """a quoted """"column name"""" with spaces"" < 42".
Proof. run. Qed.

(* filter_pushdown.rs 400-422: test_filter_expr_to_sql_unsupported_datetime_formats *)
Example unsupported_datetime_formats : rejected (Bin (Col "a") Gt (Lit SZoned)). Proof. run. Qed.
