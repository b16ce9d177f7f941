(* What the property of the Content-Type means. Nothing of CtypeModel.v is used. *)
From Coq Require Import Ascii String List Bool Arith.
From Verif Require Import HttpModel.
From Verif Require HttpSpec.
Import ListNotations.
Open Scope list_scope.

(* RFC 9110, 5.6.2: characters of tokens *)
Definition token_char (c : ascii) : Prop :=
  In c (s_ "0123456789ABCDEFGHIJKLMNOPQRSTUVWXYZabcdefghijklmnopqrstuvwxyz!#$%&'*+-.^_`|~").
(* RFC 9110, 8.3.1: a media type with one parameter, whose value is a token *)
Definition media_type (value media name x : text) : Prop :=
  value = media ++ s_ "; " ++ name ++ s_ "=" ++ x /\ x <> [] /\ forall c, In c x -> token_char c.
(* x is t with bytes written as %XX *)
Definition escaped (t x : text) : Prop := HttpSpec.encodes t x.
(* a character that cannot end a header *)
Definition printable (c : ascii) : Prop := 32 <= nat_of_ascii c <= 126.
(* the last statement of a request gives rows *)
Definition ends_with_query (l : list stmt) : Prop :=
  exists before s, l = before ++ [s] /\ match s with SQuery _ | SExplain _ _ | SShowTables => True | SInsert | SOther => False end.
