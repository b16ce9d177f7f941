(* What a timestamp says. *)
From Coq Require Import Ascii String List ZArith.
Import ListNotations.
Local Open Scope string_scope.
Local Open Scope Z_scope.

(* ---- the Gregorian calendar ---- *)
Definition leap_year (y : Z) : Prop := ((4 | y) /\ ~ (100 | y)) \/ (400 | y).
Inductive month_length (y : Z) : Z -> Z -> Prop :=
| ml_long m : In m [1; 3; 5; 7; 8; 10; 12] -> month_length y m 31
| ml_short m : In m [4; 6; 9; 11] -> month_length y m 30
| ml_leap : leap_year y -> month_length y 2 29
| ml_plain : ~ leap_year y -> month_length y 2 28.
Definition date := (Z * Z * Z)%type.      (* year, month, day *)
Definition is_date (a : date) : Prop := let '(y, m, d) := a in exists n, month_length y m n /\ 1 <= d <= n.
(* the day after *)
Inductive next : date -> date -> Prop :=
| next_day y m d n : month_length y m n -> 1 <= d < n -> next (y, m, d) (y, m, d + 1)
| next_month y m n : month_length y m n -> m < 12 -> next (y, m, n) (y, m + 1, 1)
| next_year y : next (y, 12, 31) (y + 1, 1, 1).
(* the days since 1970-01-01, counted one by one *)
Inductive day_number : date -> Z -> Prop :=
| dn_epoch : day_number (1970, 1, 1) 0
| dn_after a b n : day_number a n -> next a b -> day_number b (n + 1)
| dn_before a b n : day_number b n -> next a b -> day_number a (n - 1).
(* 1970-01-01 was a Thursday; Monday is 0 *)
Definition weekday (day w : Z) : Prop := 0 <= w < 7 /\ (7 | day - (w - 3)).

(* ---- texts ---- *)
Record moment := { year : Z; month : Z; day : Z; hour : Z; minute : Z; second : Z }.
Definition day_in (p : moment) : date := (year p, month p, day p).
(* a moment that there is; second 60 is a leap second *)
Definition exists_moment (p : moment) : Prop := is_date (day_in p) /\ hour p <= 23 /\ minute p <= 59 /\ second p <= 60.
Definition dig (n : Z) : ascii := ascii_of_nat (Z.to_nat (48 + n)).
Definition d2 (n : Z) : string := String (dig (n / 10)) (String (dig (n mod 10)) "").
Definition d4 (n : Z) : string := d2 (n / 100) ++ d2 (n mod 100).
(* numbers that can be written so *)
Definition writable (p : moment) : Prop :=
  0 <= year p <= 9999 /\ 0 <= month p <= 99 /\ 0 <= day p <= 99 /\ 0 <= hour p <= 99 /\ 0 <= minute p <= 99 /\ 0 <= second p <= 99.
Definition date_text (p : moment) : string := d4 (year p) ++ "-" ++ d2 (month p) ++ "-" ++ d2 (day p).
Definition time_text (p : moment) : string := d2 (hour p) ++ ":" ++ d2 (minute p) ++ ":" ++ d2 (second p).
Fixpoint digits_text (ds : list Z) : string := match ds with [] => "" | d :: ds => String (dig d) (digits_text ds) end.
(* billionths of a second: nine digits count *)
Fixpoint nanos (k : nat) (ds : list Z) : Z := match k, ds with S k, d :: ds => d * 10 ^ Z.of_nat k + nanos k ds | _, _ => 0 end.
(* east of Greenwich, in seconds *)
Record zone := { west : bool; zhours : Z; zminutes : Z }.
Definition is_zone (z : zone) : Prop := 0 <= zhours z <= 23 /\ 0 <= zminutes z <= 59.
Definition seconds_east (z : zone) : Z := (if west z then -1 else 1) * (zhours z * 3600 + zminutes z * 60).
Definition zone_text (colon : string) (z : zone) : string := (if west z then "-" else "+") ++ d2 (zhours z) ++ colon ++ d2 (zminutes z).
Definition month_names : list string := ["Jan"; "Feb"; "Mar"; "Apr"; "May"; "Jun"; "Jul"; "Aug"; "Sep"; "Oct"; "Nov"; "Dec"].
Definition weekday_names : list string := ["Mon"; "Tue"; "Wed"; "Thu"; "Fri"; "Sat"; "Sun"].

(* [says t p frac off w]: the text t says the moment p, frac billionths of a second later, at the offset of off seconds, and the weekday w *)
Inductive says : string -> moment -> Z -> Z -> option Z -> Prop :=
(* 2022-01-01T20:01:01Z, 2022-01-01 20:01:01Z *)
| say_utc sep u p : In sep ["T"; "t"; " "] -> In u ["Z"; "z"] -> writable p -> says (date_text p ++ sep ++ time_text p ++ u) p 0 0 None
(* 2022-01-01T20:01:01+01:00 *)
| say_offset sep z p : In sep ["T"; "t"; " "] -> is_zone z -> writable p ->
    says (date_text p ++ sep ++ time_text p ++ zone_text ":" z) p 0 (seconds_east z) None
(* 2022-01-01T20:01:01.25Z *)
| say_fraction_utc sep u ds p : In sep ["T"; "t"; " "] -> In u ["Z"; "z"] -> writable p -> ds <> [] -> Forall (fun d => 0 <= d <= 9) ds ->
    says (date_text p ++ sep ++ time_text p ++ "." ++ digits_text ds ++ u) p (nanos 9 ds) 0 None
| say_fraction_offset sep z ds p : In sep ["T"; "t"; " "] -> is_zone z -> writable p -> ds <> [] -> Forall (fun d => 0 <= d <= 9) ds ->
    says (date_text p ++ sep ++ time_text p ++ "." ++ digits_text ds ++ zone_text ":" z) p (nanos 9 ds) (seconds_east z) None
(* 2022-01-01 20:01:01 +0100, 2022-01-01 20:01:01 +01:00 *)
| say_zone colon z p : In colon [""; ":"] -> is_zone z -> writable p -> says (date_text p ++ " " ++ time_text p ++ " " ++ zone_text colon z) p 0 (seconds_east z) None
(* 2022-01-01 20:01:01, in UTC *)
| say_naive p : writable p -> says (date_text p ++ " " ++ time_text p) p 0 0 None
(* Sat, 01 Jan 2022 20:01:01 +0100 *)
| say_mail w wn mn z p : nth_error weekday_names w = Some wn -> 1 <= month p -> nth_error month_names (Z.to_nat (month p - 1)) = Some mn -> is_zone z -> writable p ->
    says (wn ++ ", " ++ d2 (day p) ++ " " ++ mn ++ " " ++ d4 (year p) ++ " " ++ time_text p ++ " " ++ zone_text "" z) p 0 (seconds_east z) (Some (Z.of_nat w)).
