(* What C35-C40 say, independently of the model's helpers. *)
From Coq Require Import Ascii String List Arith NArith Bool.
Import ListNotations.
From Verif Require Import HttpModel.
Open Scope list_scope.

(* C35 *)
Definition setting (p : policy) (a : action) : access := match a with Read => read p | Write => write p end.
(* [t] is the token the setting asks for *)
Definition right_token (hash : text -> text) (t : text) (a : access) : Prop := exists h, a = Password h /\ hash t = h.
(* the header carries token [t]: one or more times "Bearer ", then [t] *)
Fixpoint bearers (n : nat) (t : text) : text := match n with 0 => t | S n => s_ "Bearer " ++ bearers n t end.
Definition starts_with_bearer (t : text) : Prop := exists r, t = s_ "Bearer " ++ r.
Definition presents (header : option text) (t : text) : Prop := exists k, header = Some (bearers (S k) t) /\ ~ starts_with_bearer t.
(* the server grants action [a] to a request with this header *)
Definition granted (hash : text -> text) (header : option text) (p : policy) (a : action) : Prop :=
  exists pr, header_to_principal hash header p = Ok pr /\ can_perform_action pr a p = true.

(* C36, C37 *)
(* the two kinds of statement that are taken for reads although they write *)
Definition hidden_write (s : stmt) : Prop := s = SQuery true \/ s = SExplain true SInsert.
(* the plans SQL planning yields: DML and COPY only at the top, or under EXPLAIN [ANALYZE] at the top *)
Inductive no_dml : plan -> Prop :=
| no_dml_intro o inputs subs : o <> ODml -> o <> OCopy -> Forall no_dml inputs -> Forall no_dml subs -> no_dml (Node o inputs subs).
Inductive sql_plan : plan -> Prop :=
| sp_query p : no_dml p -> sql_plan p
| sp_dml o inputs subs : o = ODml \/ o = OCopy -> Forall no_dml inputs -> sql_plan (Node o inputs subs)
| sp_explain o inputs : o = OExplain \/ o = OAnalyze -> Forall sql_plan inputs -> sql_plan (Node o inputs []).

(* C38: everything a plan reads, in its expressions too *)
Fixpoint sources (p : plan) : list source :=
  match p with Node o inputs subs => (match o with OScan s => [s] | _ => [] end) ++ flat_map sources inputs ++ flat_map sources subs end.
Inductive no_subqueries : plan -> Prop :=
| no_subqueries_intro o inputs : Forall no_subqueries inputs -> no_subqueries (Node o inputs []).
(* a Delta table at a location without zero bytes, at a version below 2^32 *)
Definition plain_delta (s : source) : Prop :=
  exists uri v, s = Delta uri v /\ uri <> [] /\ Forall (fun b => (b <> 0)%N) uri /\ (v < 2 ^ 32)%N.

(* C39: hexadecimal digits *)
Definition hex_digit (c : ascii) (n : nat) : Prop := nth_error (s_ "0123456789abcdef") n = Some c \/ nth_error (s_ "0123456789ABCDEF") n = Some c.
(* [encodes q s]: s is q with some bytes written as %XX, among them every '%' and '.' *)
Inductive encodes : text -> text -> Prop :=
| enc_nil : encodes [] []
| enc_plain c q s : c <> "."%char -> c <> "%"%char -> encodes q s -> encodes (c :: q) (c :: s)
| enc_escape a b x y q s : hex_digit a x -> hex_digit b y -> encodes q s ->
    encodes (ascii_of_nat (16 * x + y) :: q) ("%"%char :: a :: b :: s).
(* the encoder clients are told to use: every byte that is not an ASCII letter or digit becomes %XX *)
Definition alphanumeric (c : ascii) : bool :=
  let n := nat_of_ascii c in
  (Nat.leb 48 n && Nat.leb n 57) || (Nat.leb 65 n && Nat.leb n 90) || (Nat.leb 97 n && Nat.leb n 122).
Definition upper_hex (n : nat) : ascii := ascii_of_nat (if Nat.ltb n 10 then 48 + n else 55 + n).
Definition percent_encode (q : text) : text :=
  flat_map (fun c => if alphanumeric c then [c] else ["%"%char; upper_hex (nat_of_ascii c / 16); upper_hex (nat_of_ascii c mod 16)]) q.

(* C40 *)
Definition query_ids {S} (es : list (fev S)) : list nat :=
  flat_map (fun e => match e with FQuery id _ => [id] | FFetch _ => [] end) es.
