(* C158: the timestamps of time travel. Specification: TimeSpec.v; model of the code: TimeModel.v. *)
From Coq Require Import Ascii String List ZArith Bool Lia.
From Verif Require DdlSpec DdlProofs TravelModel TravelSpec TravelProps.
From Verif Require Import TimeModel TimeSpec TimeProofs.
Import ListNotations.
Local Open Scope string_scope.
Local Open Scope Z_scope.

Lemma says_bounds t p frac off wd : says t p frac off wd -> writable p /\ -86400 < off < 86400 /\ forall w, wd = Some w -> 0 <= w < 7.
Proof.
  assert (Z : forall z, is_zone z -> -86400 < seconds_east z < 86400) by (intros z [H M]; unfold seconds_east; destruct (west z); lia).
  intros [sep u p0 I U W|sep z p0 I Hz W|sep u ds p0 I U W N F|sep z ds p0 I Hz W N F|colon z p0 C Hz W|p0 W|w wn mn z p0 Hw M1 Hm Hz W];
    (split; [exact W|split; [try (apply Z; exact Hz); lia|try discriminate]]).
  intros w' E. injection E as <-. destruct (weekday_cases w wn Hw) as (L & _). lia.
Qed.
Lemma exists_moment_valid p : writable p -> exists_moment p <-> valid_date (year p) (month p) (day p) = true /\ hour p <= 23 /\ minute p <= 59 /\ second p <= 60.
Proof. intros (Y & _). unfold exists_moment, day_in. rewrite (is_date_valid _ _ _ Y). reflexivity. Qed.

(* C158: a timestamp in one of the written forms of a moment that there is denotes this moment: days counted by the calendar, less the offset. *)
Theorem c158_spelled t p frac off wd n : says t p frac off wd -> exists_moment p -> day_number (day_in p) n -> (forall w, wd = Some w -> weekday n w) ->
  version_to_datetime t = Some ((n * 86400 + hour p * 3600 + minute p * 60 + second p - off) * 1000000000 + frac).
Proof.
  intros H E N Wd. destruct (says_bounds _ _ _ _ _ H) as (W & O & B). rewrite (says_said _ _ _ _ _ H). apply (exists_moment_valid _ W) in E as (V & Eh & Em & Es).
  apply day_number_fun in N. cbn in N. unfold said, instant. rewrite V, <- N.
  replace (hour p <=? 23) with true by (symmetry; apply Z.leb_le; lia). replace (minute p <=? 59) with true by (symmetry; apply Z.leb_le; lia).
  replace (second p <=? 60) with true by (symmetry; apply Z.leb_le; lia). replace (-86400 <? off) with true by (symmetry; apply Z.ltb_lt; lia).
  replace (off <? 86400) with true by (symmetry; apply Z.ltb_lt; lia). cbn [andb].
  destruct wd as [w|]; [|reflexivity]. replace (w =? weekday_of n) with true; [reflexivity|]. symmetry. apply Z.eqb_eq. apply weekday_spec; [apply B; reflexivity|apply Wd; reflexivity].
Qed.
(* One that says a moment that there is not, like the 30th of February, is refused. *)
Theorem c158_no_such_time t p frac off wd : says t p frac off wd -> ~ exists_moment p -> version_to_datetime t = None.
Proof.
  intros H E. destruct (says_bounds _ _ _ _ _ H) as (W & _). rewrite (says_said _ _ _ _ _ H). rewrite (exists_moment_valid _ W) in E. unfold said, instant.
  destruct (valid_date _ _ _); [|reflexivity]. destruct (Z.leb_spec (hour p) 23); [|reflexivity]. destruct (Z.leb_spec (minute p) 59); [|reflexivity].
  destruct (Z.leb_spec (second p) 60); [|reflexivity]. exfalso. apply E. auto.
Qed.
(* So is one that names another weekday. *)
Theorem c158_wrong_weekday t p frac off w n : says t p frac off (Some w) -> day_number (day_in p) n -> ~ weekday n w -> version_to_datetime t = None.
Proof.
  intros H N Wd. destruct (says_bounds _ _ _ _ _ H) as (W & _ & B). rewrite (says_said _ _ _ _ _ H). apply day_number_fun in N. cbn in N. unfold said, instant. rewrite <- N.
  destruct (Z.eqb_spec w (weekday_of n)) as [->|_]; [|rewrite andb_false_r; reflexivity]. exfalso. apply Wd. apply weekday_spec; [apply Z.mod_pos_bound; lia|reflexivity].
Qed.
(* Every date has its number: none is left out and none is counted twice. *)
Theorem c158_calendar a : is_date a -> exists n, day_number a n /\ forall n', day_number a n' -> n' = n.
Proof.
  destruct a as [[y m] d]. intros D. exists (day_of y m d). split; [apply day_number_day_of; exact D|]. intros n' N. apply day_number_fun in N. exact N.
Qed.
(* C158: in small letters or in capital ones, a timestamp denotes the same. *)
Theorem c158_case t t' x : DdlSpec.lower_case t x -> DdlSpec.lower_case t' x -> version_to_datetime t = version_to_datetime t'.
Proof. intros H H'. apply DdlProofs.lower_case_lower in H, H'. rewrite <- (datetime_low t), <- (datetime_low t'), H, H'. reflexivity. Qed.
(* C53 with these timestamps: the hypothesis that versions which differ in case only denote the same time is met. *)
Theorem c158_travel_partial other load D S m q order ps : TravelSpec.no_versions m -> Forall (TravelSpec.travels_well D S m) q -> TravelSpec.walks order ->
  TravelModel.run other Z version_to_datetime load D S order m q = Some ps <-> Forall2 (TravelSpec.reads Z version_to_datetime load D S m) q ps.
Proof. intros F W O. apply TravelProps.c53_partial; [exact F|exact W| |exact O]. intros f f' v v' x _ _ _ _ L L'. exact (c158_case v v' x L L'). Qed.
(* Fractions of seconds need an offset or Z directly after them: without, or after a space, they are refused. *)
Theorem c158_fraction_refuted p ds : writable p -> ds <> [] -> Forall (fun d => 0 <= d <= 9) ds ->
  version_to_datetime (date_text p ++ " " ++ time_text p ++ "." ++ digits_text ds) = None /\
  forall z, is_zone z -> version_to_datetime (date_text p ++ " " ++ time_text p ++ "." ++ digits_text ds ++ " " ++ zone_text ":" z) = None.
Proof.
  intros W N F. assert (K : forall r, no_digit r -> offset (char ":") true r = None -> version_to_datetime (date_text p ++ " " ++ time_text p ++ "." ++ digits_text ds ++ r) = None).
  { intros r Nr O. rewrite text_parts, (rfc3339_text p " " _ W) by (exact W || (cbn; tauto)). rewrite (tail_fraction p ds r N F Nr), O.
    destruct (others_none p " " ("." ++ digits_text ds ++ r) W) as [-> ->]; [cbn; tauto|discriminate|reflexivity|reflexivity]. }
  split; [|intros z _; apply K; reflexivity]. specialize (K "" Logic.I eq_refl). replace (digits_text ds ++ "") with (digits_text ds) in K; [exact K|].
  clear. induction ds as [|d ds IH]; [reflexivity|]. cbn. rewrite <- IH. reflexivity.
Qed.

Print Assumptions c158_spelled.
Print Assumptions c158_no_such_time.
Print Assumptions c158_wrong_weekday.
Print Assumptions c158_calendar.
Print Assumptions c158_case.
Print Assumptions c158_travel_partial.
Print Assumptions c158_fraction_refuted.

(* ---- the hypotheses are met ---- *)
Definition ex_moment := {| year := 2017; month := 7; day := 14; hour := 4; minute := 40; second := 0 |}.
Definition ex_zone := {| west := false; zhours := 2; zminutes := 0 |}.
Example ex_date : exists_moment ex_moment /\ day_number (day_in ex_moment) 17361 /\ weekday 17361 4 /\ ~ weekday 17361 3.
Proof.
  assert (D : is_date (day_in ex_moment)) by (exists 31; split; [apply ml_long; cbn; tauto|cbn; lia]).
  split; [split; [exact D|cbn; lia]|]. split; [exact (day_number_day_of 2017 7 14 D)|]. split; [apply weekday_spec; [lia|reflexivity]|].
  intros C. apply weekday_spec in C; [discriminate|lia].
Qed.
Example ex_says : says "2017-07-14T04:40:00.25+02:00" ex_moment 250000000 7200 None /\ says "Fri, 14 Jul 2017 04:40:00 +0200" ex_moment 0 7200 (Some 4).
Proof.
  split.
  - apply (say_fraction_offset "T" ex_zone [2; 5] ex_moment); [cbn; tauto|split; cbn; lia|repeat split; cbn; lia|discriminate|repeat constructor; lia].
  - apply (say_mail 4 "Fri" "Jul" ex_zone ex_moment); [reflexivity|cbn; lia|reflexivity|split; cbn; lia|repeat split; cbn; lia].
Qed.
Example ex_not_there : ~ exists_moment {| year := 2023; month := 2; day := 29; hour := 0; minute := 0; second := 0 |}.
Proof. intros [(n & L & D) _]. apply month_length_days in L as [_ ->]. cbn in D. lia. Qed.
