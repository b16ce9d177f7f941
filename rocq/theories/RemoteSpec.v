(* What the properties of the HTTP object store mean (the types of replies are those of RemoteModel.v). *)
From Coq Require Import Ascii String List Arith NArith Bool.
From Verif Require Import HttpModel RemoteModel.
Import ListNotations.
Open Scope list_scope.

(* A number written in decimal *)
Inductive numeral : list ascii -> N -> Prop :=
| one_digit d : (d < 10)%N -> numeral [ascii_of_N (48 + d)] d
| more_digits t n d : numeral t n -> (d < 10)%N -> numeral (t ++ [ascii_of_N (48 + d)]) (10 * n + d).

(* The length of a file, and its bytes from the first to the last position, both included *)
Definition size_of (f : list ascii) : N := N.of_nat (List.length f).
Definition bytes (f : list ascii) (first last : N) : list ascii := firstn (N.to_nat (last + 1 - first)) (skipn (N.to_nat first) f).

(* RFC 9110, 14.1.2: which bytes a Range header selects in a file with [len] bytes *)
Inductive selects : list ascii -> N -> N -> N -> Prop :=
| from_to ta a tb b len : numeral ta a -> numeral tb b -> (a <= b)%N -> (a < len)%N -> selects (s_ "bytes=" ++ ta ++ s_ "-" ++ tb) len a (N.min b (len - 1))
| from_on ta a len : numeral ta a -> (a < len)%N -> selects (s_ "bytes=" ++ ta ++ s_ "-") len a (len - 1)
| last_ones tn n len : numeral tn n -> (0 < n)%N -> (0 < len)%N -> selects (s_ "bytes=-" ++ tn) len (len - N.min n len) (len - 1).
(* RFC 9110, 14.4: what Content-Range says *)
Definition content_range_of (t : list ascii) (first last len : N) : Prop :=
  exists tf tl tn, numeral tf first /\ numeral tl last /\ numeral tn len /\ t = s_ "bytes " ++ tf ++ s_ "-" ++ tl ++ s_ "/" ++ tn.
(* A server that follows the standard: a 206 reply has the selected bytes of the file, and says which ones *)
Definition serves (file : list ascii) (srv : list ascii -> reply) : Prop :=
  forall h r, srv h = Answer r -> (status r = 206)%N -> exists first last,
    selects h (size_of file) first last /\ body r = Some (bytes file first last) /\
    exists t, content_range r = Text t /\ content_range_of t first last (size_of file).

(* Content-Range is sent with 206 (and 416) only *)
Definition tidy (srv : list ascii -> reply) : Prop := forall h r t, srv h = Answer r -> content_range r = Text t -> (status r = 206 \/ status r = 416)%N.

(* A location without escapes whose path is made of ordinary names *)
Definition plain_segment (s : list ascii) : Prop :=
  s <> [] /\ s <> s_ "." /\ s <> s_ ".." /\ forall c, In c s -> c <> "/"%char /\ c <> "%"%char /\ 32 <= nat_of_ascii c /\ nat_of_ascii c <> 127.
Fixpoint join (ss : list (list ascii)) : list ascii := match ss with [] => [] | [s] => s | s :: r => s ++ s_ "/" ++ join r end.
(* An escape: % and two hexadecimal digits *)
Definition has_escape (t : list ascii) : Prop := exists u a b v, t = u ++ "%"%char :: a :: b :: v /\
  In a (list_ascii_of_string "0123456789abcdefABCDEF") /\ In b (list_ascii_of_string "0123456789abcdefABCDEF").

(* A server that sends the whole file to a request without a range, and says how long it is; everything else is an error status *)
Definition serves_whole (file : list ascii) (answer : reply) : Prop :=
  forall r, answer = Answer r -> (400 <= status r < 600)%N \/ body r = Some file /\ exists t, content_length r = Text t /\ numeral t (size_of file).
(* UTF-8 (RFC 3629, section 3): a text is a sequence of encodings of characters *)
Definition scalar (n : N) : Prop := ((n < 55296 \/ 57344 <= n) /\ n < 1114112)%N.
Definition encoding (n : N) : list ascii :=
  map ascii_of_N
    (if (n <? 128)%N then [n]
     else if (n <? 2048)%N then [192 + n / 64; 128 + n mod 64]
     else if (n <? 65536)%N then [224 + n / 4096; 128 + n / 64 mod 64; 128 + n mod 64]
     else [240 + n / 262144; 128 + n / 4096 mod 64; 128 + n / 64 mod 64; 128 + n mod 64])%N.
Inductive unicode : list ascii -> Prop := no_character : unicode [] | character n t : scalar n -> unicode t -> unicode (encoding n ++ t).
