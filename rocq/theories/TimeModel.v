(* The timestamps of time travel: version_to_datetime of /repo/src/version.rs (37-58), with the parsers of chrono 0.4.38 (a dependency) that it tries
   one after the other: RFC 3339, RFC 2822, "%Y-%m-%d %H:%M:%S %z" and "%Y-%m-%d %H:%M:%S".

   Simplifications: texts are bytes, and whitespace is that of ASCII; the sign U+2212 of offsets and the comments of RFC 2822 are left out; so is the
   overflow of an offset on the first or last day that chrono can represent (in the years -262143 and 262142). *)
From Coq Require Import Ascii String List Arith ZArith Bool.
Import ListNotations.
Local Open Scope string_scope.
Local Open Scope Z_scope.

(* ---- characters and scanners: chrono, format/scan.rs ---- *)
Definition between (lo hi : nat) (a : ascii) : bool := Nat.leb lo (nat_of_ascii a) && Nat.leb (nat_of_ascii a) hi.
Definition digit (a : ascii) : option Z := if between 48 57 a then Some (Z.of_nat (nat_of_ascii a) - 48) else None.
Definition white (a : ascii) : bool := Nat.eqb (nat_of_ascii a) 32 || between 9 13 a.
Definition letter (a : ascii) : bool := between 65 90 a || between 97 122 a.
Definition small (a : ascii) : ascii := if between 65 90 a then ascii_of_nat (nat_of_ascii a + 32) else a.
(* str::trim_start *)
Fixpoint trim (s : string) : string := match s with String a s' => if white a then trim s' else s | EmptyString => s end.
(* scan::char *)
Definition char (c : ascii) (s : string) : option string := match s with String a s' => if Ascii.eqb a c then Some s' else None | EmptyString => None end.
(* scan::space: at least one *)
Definition space (s : string) : option string := match s with String a s' => if white a then Some (trim s') else None | EmptyString => None end.
(* scan::number: at most [max] digits, at least [min]; the value, the number of digits and the rest *)
Fixpoint digits (max : nat) (s : string) (v : Z) (n : nat) : Z * nat * string :=
  match max, s with
  | S max, String a s' => match digit a with Some d => digits max s' (10 * v + d) (S n) | None => (v, n, s) end
  | _, _ => (v, n, s)
  end.
Definition number (min max : nat) (s : string) : option (Z * nat * string) :=
  let '(v, n, r) := digits max s 0 0 in if Nat.ltb n min then None else Some (v, n, r).
(* a number without bound on its digits; a value that no i64 holds is outside of every range checked later *)
Definition long_number (min : nat) (s : string) : option (Z * nat * string) := number min (String.length s) s.
(* scan::nanosecond: up to nine digits, scaled; further digits are skipped *)
Fixpoint skip_digits (s : string) : string := match s with String a s' => match digit a with Some _ => skip_digits s' | None => s end | EmptyString => s end.
Definition nanosecond (s : string) : option (Z * string) :=
  match number 1 9 s with Some (v, n, r) => Some (v * 10 ^ (9 - Z.of_nat n), skip_digits r) | None => None end.
(* scan::timezone_offset: in seconds. [colon]: what is skipped between hours and minutes *)
Definition offset (colon : string -> option string) (zulu : bool) (s : string) : option (Z * string) :=
  match s with
  | EmptyString => None
  | String a s' =>
      if zulu && (Ascii.eqb a "Z" || Ascii.eqb a "z") then Some (0, s')
      else
        match (if Ascii.eqb a "+" then Some 1 else if Ascii.eqb a "-" then Some (-1) else None) with
        | None => None
        | Some sign =>
            match number 2 2 s' with
            | None => None
            | Some (h, _, s1) =>
                match colon s1 with
                | None => None
                | Some s2 =>
                    match number 2 2 s2 with
                    | Some (m, _, s3) => if m <=? 59 then Some (sign * (h * 3600 + m * 60), s3) else None
                    | None => None
                    end
                end
            end
        end
  end.
(* scan::colon_or_space *)
Fixpoint colon_or_space (s : string) : string :=
  match s with String a s' => if Ascii.eqb a ":" || white a then colon_or_space s' else s | EmptyString => s end.
(* a name of three letters, whatever their case: scan::short_month0, scan::short_weekday *)
Definition name3 (names : list string) (s : string) : option (Z * string) :=
  match s with
  | String a (String b (String c r)) =>
      let n := String (small a) (String (small b) (String (small c) "")) in
      (fix look (i : Z) (l : list string) : option (Z * string) :=
         match l with [] => None | x :: l' => if String.eqb x n then Some (i, r) else look (i + 1) l' end) 0 names
  | _ => None
  end.
Definition months : list string := ["jan"; "feb"; "mar"; "apr"; "may"; "jun"; "jul"; "aug"; "sep"; "oct"; "nov"; "dec"].
Definition weekdays : list string := ["mon"; "tue"; "wed"; "thu"; "fri"; "sat"; "sun"].
(* scan::timezone_offset_2822 *)
Fixpoint letters (s : string) : string * string :=
  match s with String a s' => if letter a then let '(w, r) := letters s' in (String (small a) w, r) else (EmptyString, s) | EmptyString => (EmptyString, s) end.
Definition zone_name (w : string) : option Z :=
  let is x := String.eqb w x in
  if is "gmt" || is "ut" || is "z" then Some 0
  else if is "edt" then Some (-4) else if is "est" || is "cdt" then Some (-5) else if is "cst" || is "mdt" then Some (-6)
  else if is "mst" || is "pdt" then Some (-7) else if is "pst" then Some (-8)
  else match w with String a EmptyString => if Ascii.eqb a "j" then None else Some 0 | _ => None end.
Definition offset_2822 (s : string) : option (Z * string) :=
  match letters s with
  | (EmptyString, _) => offset (fun s => Some s) false s
  | (w, r) => match zone_name w with Some h => Some (h * 3600, r) | None => None end
  end.

(* ---- dates: chrono, naive/date.rs ---- *)
Definition leap (y : Z) : bool := (y mod 4 =? 0) && (negb (y mod 100 =? 0) || (y mod 400 =? 0)).
Definition month_days (y m : Z) : Z := if m =? 2 then if leap y then 29 else 28 else if (m =? 4) || (m =? 6) || (m =? 9) || (m =? 11) then 30 else 31.
(* NaiveDate::from_ymd_opt *)
Definition valid_date (y m d : Z) : bool :=
  (-262143 <=? y) && (y <=? 262142) && (1 <=? m) && (m <=? 12) && (1 <=? d) && (d <=? month_days y m).
(* the days of the year before a month *)
Definition before_month (y m : Z) : Z :=
  nth (Z.to_nat (m - 1)) [0; 31; 59; 90; 120; 151; 181; 212; 243; 273; 304; 334] 0 + (if leap y && (3 <=? m) then 1 else 0).
(* num_days_from_ce, counted from 1970-01-01; the division rounds down *)
Definition day_of (y m d : Z) : Z :=
  let y' := y - 1 in y' * 1461 / 4 - y' / 100 + y' / 400 + before_month y m + d - 719163.
(* Monday is 0 *)
Definition weekday_of (day : Z) : Z := (day + 3) mod 7.

(* Parsed::to_datetime (format/parsed.rs): the nanoseconds since 1970-01-01 00:00:00 UTC. The second 60 is second 59 with a billion nanoseconds more. *)
Definition instant (y m d hh mi ss nano off : Z) (wd : option Z) : option Z :=
  if valid_date y m d && (hh <=? 23) && (mi <=? 59) && (ss <=? 60) && (-86400 <? off) && (off <? 86400)
     && match wd with Some w => w =? weekday_of (day_of y m d) | None => true end
  then Some ((day_of y m d * 86400 + hh * 3600 + mi * 60 + ss - off) * 1000000000 + nano)
  else None.

(* ---- the four formats ---- *)
Definition at_end {A} (x : option A) (s : string) : option A := match s with EmptyString => x | _ => None end.
(* format/parse.rs: parse_rfc3339 *)
Definition rfc3339 (s : string) : option Z :=
  match number 4 4 s with None => None | Some (y, _, s) =>
  match char "-" s with None => None | Some s =>
  match number 2 2 s with None => None | Some (m, _, s) =>
  match char "-" s with None => None | Some s =>
  match number 2 2 s with None => None | Some (d, _, s) =>
  match s with
  | EmptyString => None
  | String a s =>
  if negb (Ascii.eqb a "T" || Ascii.eqb a "t" || Ascii.eqb a " ") then None else
  match number 2 2 s with None => None | Some (hh, _, s) =>
  match char ":" s with None => None | Some s =>
  match number 2 2 s with None => None | Some (mi, _, s) =>
  match char ":" s with None => None | Some s =>
  match number 2 2 s with None => None | Some (ss, _, s) =>
  match (match char "." s with Some s' => nanosecond s' | None => Some (0, s) end) with None => None | Some (nano, s) =>
  match offset (char ":") true s with None => None | Some (off, s) =>
  at_end (instant y m d hh mi ss nano off None) s
  end end end end end end end end end end end end end.

(* format/parse.rs: parse_rfc2822 *)
Definition year_2822 (n : nat) (v : Z) : Z :=
  match n with 2%nat => if v <=? 49 then v + 2000 else v + 1900 | 3%nat => v + 1900 | _ => v end.
Definition rfc2822 (s : string) : option Z :=
  match (match name3 weekdays (trim s) with
         | Some (w, s1) => match char "," s1 with Some s2 => Some (Some w, s2) | None => None end
         | None => Some (None, trim s) end) with None => None | Some (wd, s) =>
  match number 1 2 (trim s) with None => None | Some (d, _, s) =>
  match space s with None => None | Some s =>
  match name3 months s with None => None | Some (m0, s) =>
  match space s with None => None | Some s =>
  match long_number 2 s with None => None | Some (y, n, s) =>
  match space s with None => None | Some s =>
  match number 2 2 s with None => None | Some (hh, _, s) =>
  match char ":" (trim s) with None => None | Some s =>
  match number 2 2 (trim s) with None => None | Some (mi, _, s) =>
  match (match char ":" (trim s) with
         | Some s' => match number 2 2 s' with Some (ss, _, s2) => Some (ss, s2) | None => None end
         | None => Some (0, s) end) with None => None | Some (ss, s) =>
  match space s with None => None | Some s =>
  match offset_2822 s with None => None | Some (off, s) =>
  at_end (instant (year_2822 n y) (m0 + 1) d hh mi ss 0 off wd) s
  end end end end end end end end end end end end end.

(* format/parse.rs: parse with the items of "%Y-%m-%d %H:%M:%S": a year may have a sign and then any number of digits, a number may have fewer digits
   than usual and whitespace before it, a space in the format stands for any whitespace. The instant for an offset, and the rest. *)
Definition signed_year (s : string) : option (Z * nat * string) :=
  match char "-" s, char "+" s with
  | Some s', _ => match long_number 1 s' with Some (y, n, r) => Some (- y, n, r) | None => None end
  | None, Some s' => long_number 1 s'
  | None, None => number 1 4 s
  end.
Definition date_time (s : string) : option ((Z -> option Z) * string) :=
  match signed_year (trim s) with None => None | Some (y, _, s) =>
  match char "-" s with None => None | Some s =>
  match number 1 2 (trim s) with None => None | Some (m, _, s) =>
  match char "-" s with None => None | Some s =>
  match number 1 2 (trim s) with None => None | Some (d, _, s) =>
  match number 1 2 (trim (trim s)) with None => None | Some (hh, _, s) =>
  match char ":" s with None => None | Some s =>
  match number 1 2 (trim s) with None => None | Some (mi, _, s) =>
  match char ":" s with None => None | Some s =>
  match number 1 2 (trim s) with None => None | Some (ss, _, s) =>
  Some (fun off => instant y m d hh mi ss 0 off None, s)
  end end end end end end end end end end.
(* "%Y-%m-%d %H:%M:%S %z" *)
Definition with_zone (s : string) : option Z :=
  match date_time s with
  | None => None
  | Some (f, s) => match offset (fun s => Some (colon_or_space s)) false (trim (trim s)) with Some (off, s) => at_end (f off) s | None => None end
  end.
(* "%Y-%m-%d %H:%M:%S", taken as UTC: version.rs 44-51 *)
Definition naive (s : string) : option Z := match date_time s with Some (f, s) => at_end (f 0) s | None => None end.

(* version.rs 37-58 *)
Definition version_to_datetime (s : string) : option Z :=
  match rfc3339 s with
  | Some t => Some t
  | None => match rfc2822 s with
            | Some t => Some t
            | None => match with_zone s with Some t => Some t | None => naive s end
            end
  end.
