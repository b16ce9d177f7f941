(* The Content-Type of results (src/frontend/http.rs 107-121) and the client that reads the schema from it (src/testutils.rs 138-152). See
   CtypeSpec.v for what the property means and CtypeProps.v for the theorems.

   Simplifications: a schema's JSON text is any text (serde_json is a parameter of the theorems); texts are lists of bytes; percent-encoding,
   http's HeaderValue and str::split are not in /repo and follow their documentation as generally known. *)
From Coq Require Import Ascii String List Bool Arith.
From Verif Require Import HttpModel.
Import ListNotations.
Open Scope list_scope.

(* percent_encoding::NON_ALPHANUMERIC *)
Definition kept_as_is (c : ascii) : bool :=
  let n := nat_of_ascii c in ((Nat.leb 48 n && Nat.leb n 57) || (Nat.leb 65 n && Nat.leb n 90) || (Nat.leb 97 n && Nat.leb n 122))%bool.
(* percent_encoding: upper-case digits *)
Definition digit (n : nat) : ascii := nth n (s_ "0123456789ABCDEF") "0"%char.
(* percent_encoding::utf8_percent_encode *)
Definition utf8_percent_encode (t : text) : text :=
  flat_map (fun c => if kept_as_is c then [c] else [percent; digit (nat_of_ascii c / 16); digit (nat_of_ascii c mod 16)]) t.
(* http::HeaderValue::from_str: visible ASCII, spaces and tabs *)
Definition header_char (c : ascii) : bool := let n := nat_of_ascii c in ((Nat.leb 32 n && Nat.ltb n 127) || Nat.eqb n 9)%bool.
(* http.rs 107-121. [json]: line 109 *)
Definition content_type_with_schema (json : text) : text :=
  let value := s_ "application/json; arrow-schema=" ++ utf8_percent_encode json in
  if forallb header_char value then value else s_ "application/json".
(* http.rs 374-376: every result of a GET *)
Definition get_content_type (json : text) : option text := Some (content_type_with_schema json).
(* http.rs 163-224: results of a POST. [json]: of the last statement's schema (lines 217-219) *)
Definition post_content_type (statements : list stmt) (json : text) : option text :=
  let reads := List.length (filter is_statement_read_only statements) in
  if Nat.ltb 0 reads then Some (content_type_with_schema json) else None.

(* str::strip_prefix *)
Fixpoint without (p t : text) : option text :=
  match p, t with [], _ => Some t | x :: p, y :: t => if Ascii.eqb x y then without p t else None | _ :: _, [] => None end.
(* what follows the first place where [p] is found *)
Fixpoint after_first (p t : text) : option text :=
  match without p t with Some r => Some r | None => match t with [] => None | _ :: t => after_first p t end end.
(* str::split(p).last(). [n] is at least the number of pieces *)
Fixpoint last_piece (n : nat) (p t : text) : text :=
  match n with 0 => t | S n => match after_first p t with Some r => last_piece n p r | None => t end end.
Section Client.
  Variable schema : Type.
  Variable utf8 : text -> bool.                 (* str::from_utf8 *)
  Variable from_json : text -> option schema.   (* serde_json::from_str *)
  (* testutils.rs 138-152; None: a panic *)
  Definition schema_from_header (value : text) : option schema :=
    let d := percent_decode (last_piece (List.length value) (s_ "arrow-schema=") value) in
    if utf8 d then from_json d else None.
End Client.
