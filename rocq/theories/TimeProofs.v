(* Lemmas for TimeProps.v. *)
From Coq Require Import Ascii String List Arith ZArith Bool Lia.
From Verif Require DdlModel.
From Verif Require Import TimeModel TimeSpec.
Import ListNotations.
Local Open Scope string_scope.
Local Open Scope Z_scope.

(* ---- the calendar ---- *)
Lemma divb k y : k <> 0 -> (y mod k =? 0) = true <-> (k | y).
Proof. intros H. rewrite Z.eqb_eq. apply Z.mod_divide. exact H. Qed.
Lemma leap_spec y : leap y = true <-> leap_year y.
Proof.
  unfold leap, leap_year. rewrite andb_true_iff, orb_true_iff, negb_true_iff, !divb by lia.
  assert (A : (y mod 100 =? 0) = false <-> ~ (100 | y)).
  { rewrite <- divb by lia. destruct (y mod 100 =? 0); intuition congruence. }
  rewrite A. split; [tauto|]. intros [H|H]; [tauto|]. split; [|right; exact H].
  apply (Z.divide_trans 4 400 y); [exists 100; reflexivity|exact H].
Qed.
Lemma leap_false y : leap y = false <-> ~ leap_year y.
Proof. rewrite <- leap_spec. destruct (leap y); intuition congruence. Qed.
Lemma month_cases m : 1 <= m <= 12 -> m = 1 \/ m = 2 \/ m = 3 \/ m = 4 \/ m = 5 \/ m = 6 \/ m = 7 \/ m = 8 \/ m = 9 \/ m = 10 \/ m = 11 \/ m = 12.
Proof. lia. Qed.
Lemma month_length_days y m n : month_length y m n <-> 1 <= m <= 12 /\ n = month_days y m.
Proof.
  split.
  - intros H. destruct H as [m H|m H|H|H].
    + cbn in H. repeat (destruct H as [<-|H]; [split; [lia|reflexivity]|]). contradiction.
    + cbn in H. repeat (destruct H as [<-|H]; [split; [lia|reflexivity]|]). contradiction.
    + split; [lia|]. unfold month_days. cbn. apply leap_spec in H. rewrite H. reflexivity.
    + split; [lia|]. unfold month_days. cbn. apply leap_false in H. rewrite H. reflexivity.
  - intros [H ->]. apply month_cases in H.
    destruct H as [->|[->|[->|[->|[->|[->|[->|[->|[->|[->|[->| ->]]]]]]]]]]]; try (apply ml_long; cbn; tauto); try (apply ml_short; cbn; tauto).
    unfold month_days. cbn. destruct (leap y) eqn:E; [apply ml_leap; apply leap_spec; exact E|apply ml_plain; apply leap_false; exact E].
Qed.
Lemma div_step k y : 0 < k -> y / k = (y - 1) / k + (if y mod k =? 0 then 1 else 0).
Proof.
  intros H. pose proof (Z.div_mod y k ltac:(lia)) as A. pose proof (Z.mod_pos_bound y k H) as B. destruct (Z.eqb_spec (y mod k) 0) as [E|E].
  - assert ((y - 1) / k = y / k - 1) as ->; [|lia]. symmetry. apply Z.div_unique with (r := k - 1); [lia|]. lia.
  - assert ((y - 1) / k = y / k) as ->; [|lia]. symmetry. apply Z.div_unique with (r := y mod k - 1); lia.
Qed.
Lemma quad y : y * 1461 / 4 = y * 365 + y / 4.
Proof. replace (y * 1461) with (y + (y * 365) * 4) by ring. rewrite Z.div_add by lia. lia. Qed.
Lemma year_step y : y / 4 - y / 100 + y / 400 = (y - 1) / 4 - (y - 1) / 100 + (y - 1) / 400 + (if leap y then 1 else 0).
Proof.
  rewrite (div_step 4 y), (div_step 100 y), (div_step 400 y) by lia. unfold leap.
  assert (A : (y mod 400 =? 0) = true -> (y mod 100 =? 0) = true).
  { rewrite !divb by lia. apply Z.divide_trans. exists 4. reflexivity. }
  assert (B : (y mod 100 =? 0) = true -> (y mod 4 =? 0) = true).
  { rewrite !divb by lia. apply Z.divide_trans. exists 25. reflexivity. }
  destruct (y mod 400 =? 0), (y mod 100 =? 0), (y mod 4 =? 0); cbn; try lia; exfalso; intuition congruence.
Qed.
Lemma day_next a b : next a b -> let '(y, m, d) := a in let '(y', m', d') := b in day_of y' m' d' = day_of y m d + 1.
Proof.
  intros H. destruct H as [y m d n H1 H2|y m n H1 H2|y].
  - unfold day_of. lia.
  - apply month_length_days in H1 as [H1 ->]. unfold day_of. assert (before_month y (m + 1) = before_month y m + month_days y m); [|lia].
    apply month_cases in H1. destruct H1 as [->|[->|[->|[->|[->|[->|[->|[->|[->|[->|[->| ->]]]]]]]]]]]; try lia; unfold before_month, month_days; destruct (leap y); reflexivity.
  - unfold day_of. replace (y + 1 - 1) with y by lia. rewrite !quad. pose proof (year_step y) as A.
    unfold before_month. change (Z.to_nat (12 - 1)) with 11%nat. change (Z.to_nat (1 - 1)) with 0%nat. cbn [nth].
    change (3 <=? 12) with true. change (3 <=? 1) with false. rewrite andb_true_r, andb_false_r. lia.
Qed.
Lemma day_number_fun a n : day_number a n -> let '(y, m, d) := a in n = day_of y m d.
Proof.
  induction 1 as [|a b n H IH N|a b n H IH N]; [reflexivity| |]; pose proof (day_next a b N) as X; destruct a as [[y m] d], b as [[y' m'] d']; lia.
Qed.
Definition counted (a : date) : Prop := let '(y, m, d) := a in day_number a (day_of y m d).
Lemma counted_next a b : next a b -> counted a <-> counted b.
Proof.
  intros N. pose proof (day_next a b N) as X. destruct a as [[y m] d], b as [[y' m'] d']. unfold counted. rewrite X. split; intros H.
  - eapply dn_after; eassumption.
  - replace (day_of y m d) with (day_of y m d + 1 - 1) by lia. eapply dn_before; eassumption.
Qed.
Lemma counted_day y m n d : month_length y m n -> 1 <= d <= n -> counted (y, m, d) <-> counted (y, m, 1).
Proof.
  intros H D. assert (G : forall k, 0 <= k -> 1 + k <= n -> counted (y, m, 1 + k) <-> counted (y, m, 1)).
  { apply (natlike_ind (fun k => 1 + k <= n -> counted (y, m, 1 + k) <-> counted (y, m, 1))).
    - intros _. reflexivity.
    - intros k Hk IH Hn. rewrite <- IH by lia. symmetry. replace (1 + Z.succ k) with (1 + k + 1) by lia. apply counted_next. eapply next_day; [exact H|lia]. }
  replace d with (1 + (d - 1)) by lia. apply G; lia.
Qed.
Lemma counted_month y m : 1 <= m <= 12 -> counted (y, m, 1) <-> counted (y, 1, 1).
Proof.
  intros D. assert (G : forall k, 0 <= k -> 1 + k <= 12 -> counted (y, 1 + k, 1) <-> counted (y, 1, 1)).
  { apply (natlike_ind (fun k => 1 + k <= 12 -> counted (y, 1 + k, 1) <-> counted (y, 1, 1))).
    - intros _. reflexivity.
    - intros k Hk IH Hn. rewrite <- IH by lia. symmetry. replace (1 + Z.succ k) with (1 + k + 1) by lia.
      assert (L : month_length y (1 + k) (month_days y (1 + k))) by (apply month_length_days; split; [lia|reflexivity]).
      rewrite <- (counted_next _ _ (next_month y (1 + k) _ L ltac:(lia))). symmetry. eapply counted_day; [exact L|].
      unfold month_days. destruct (_ =? 2); [destruct (leap y); lia|]. destruct (_ || _); lia. }
  replace m with (1 + (m - 1)) by lia. apply G; lia.
Qed.
Lemma counted_year y : counted (y + 1, 1, 1) <-> counted (y, 1, 1).
Proof.
  rewrite <- (counted_next _ _ (next_year y)). rewrite <- (counted_month y 12) by lia. apply counted_day with (n := 31); [apply ml_long; cbn; tauto|lia].
Qed.
Lemma counted_all y : counted (y, 1, 1).
Proof.
  assert (A : counted (1970, 1, 1)) by exact dn_epoch.
  assert (F : forall k, 0 <= k -> counted (1970 + k, 1, 1)).
  { apply natlike_ind; [exact A|]. intros k _ IH. replace (1970 + Z.succ k) with (1970 + k + 1) by lia. apply counted_year. exact IH. }
  assert (B : forall k, 0 <= k -> counted (1970 - k, 1, 1)).
  { apply natlike_ind; [exact A|]. intros k _ IH. apply counted_year. replace (1970 - Z.succ k + 1) with (1970 - k) by lia. exact IH. }
  destruct (Z.le_ge_cases 1970 y) as [H|H]; [replace y with (1970 + (y - 1970)) by lia; apply F; lia|replace y with (1970 - (1970 - y)) by lia; apply B; lia].
Qed.
Lemma day_number_day_of y m d : is_date (y, m, d) -> day_number (y, m, d) (day_of y m d).
Proof.
  intros (n & L & D). pose proof (proj1 (month_length_days _ _ _) L) as [M _]. change (counted (y, m, d)).
  apply (counted_day y m n d L D). apply counted_month; [exact M|]. apply counted_all.
Qed.
Lemma is_date_valid y m d : 0 <= y <= 9999 -> is_date (y, m, d) <-> valid_date y m d = true.
Proof.
  intros Y. unfold is_date, valid_date. rewrite !andb_true_iff, !Z.leb_le. split.
  - intros (n & L & D). apply month_length_days in L as [M ->]. repeat split; lia.
  - intros H. exists (month_days y m). split; [apply month_length_days; split; [lia|reflexivity]|lia].
Qed.
Lemma weekday_spec n w : 0 <= w < 7 -> weekday n w <-> w = weekday_of n.
Proof.
  intros W. unfold weekday, weekday_of. split.
  - intros [_ (q & H)]. apply Z.mod_unique with (q := q); lia.
  - intros ->. split; [apply Z.mod_pos_bound; lia|]. pose proof (Z.div_mod (n + 3) 7 ltac:(lia)) as A. exists ((n + 3) / 7). lia.
Qed.

(* ---- digits ---- *)
Lemma ten a : 0 <= a <= 9 -> a = 0 \/ a = 1 \/ a = 2 \/ a = 3 \/ a = 4 \/ a = 5 \/ a = 6 \/ a = 7 \/ a = 8 \/ a = 9.
Proof. lia. Qed.
Ltac tencases H := apply ten in H; destruct H as [->|[->|[->|[->|[->|[->|[->|[->|[->| ->]]]]]]]]].
Lemma digit_dig a : 0 <= a <= 9 -> digit (dig a) = Some a.
Proof. intros H. tencases H; reflexivity. Qed.
Lemma white_dig a : 0 <= a <= 9 -> white (dig a) = false.
Proof. intros H. tencases H; reflexivity. Qed.
Lemma dig_eqb a c : 0 <= a <= 9 -> digit c = None -> Ascii.eqb (dig a) c = false.
Proof. intros H N. apply Ascii.eqb_neq. intros <-. rewrite digit_dig in N by exact H. discriminate. Qed.
Lemma sapp_assoc (a b c : string) : (a ++ b) ++ c = a ++ (b ++ c).
Proof. induction a as [|x a IH]; [reflexivity|]. cbn. rewrite IH. reflexivity. Qed.
Lemma halves n : 0 <= n <= 99 -> 0 <= n / 10 <= 9 /\ 0 <= n mod 10 <= 9 /\ 10 * (n / 10) + n mod 10 = n.
Proof.
  intros H. pose proof (Z.div_mod n 10 ltac:(lia)). pose proof (Z.mod_pos_bound n 10 ltac:(lia)).
  assert (0 <= n / 10) by (apply Z.div_pos; lia). lia.
Qed.
Lemma halves4 n : 0 <= n <= 9999 -> 0 <= n / 100 <= 99 /\ 0 <= n mod 100 <= 99 /\ 100 * (n / 100) + n mod 100 = n.
Proof.
  intros H. pose proof (Z.div_mod n 100 ltac:(lia)). pose proof (Z.mod_pos_bound n 100 ltac:(lia)).
  assert (0 <= n / 100) by (apply Z.div_pos; lia). lia.
Qed.
Lemma digits_d2 k n r v c : 0 <= n <= 99 -> digits (S (S k)) (d2 n ++ r) v c = digits k r (100 * v + n) (S (S c)).
Proof.
  intros H. apply halves in H as (A & B & C). unfold d2. cbn [append digits]. rewrite (digit_dig _ A), (digit_dig _ B).
  f_equal. lia.
Qed.
Lemma digits_0 r v c : digits 0 r v c = (v, c, r). Proof. reflexivity. Qed.
Lemma number_d2 k n r : (k <= 2)%nat -> 0 <= n <= 99 -> number k 2 (d2 n ++ r) = Some (n, 2%nat, r).
Proof.
  intros K H. unfold number. rewrite (digits_d2 0 n r 0 0 H). rewrite digits_0. assert (Nat.ltb 2 k = false) as -> by (apply Nat.ltb_ge; lia). reflexivity.
Qed.
Lemma number_d4 k n r : (k <= 4)%nat -> 0 <= n <= 9999 -> number k 4 (d4 n ++ r) = Some (n, 4%nat, r).
Proof.
  intros K H. apply halves4 in H as (A & B & C). unfold number, d4. rewrite sapp_assoc. rewrite (digits_d2 2 _ _ 0 0 A).
  rewrite (digits_d2 0 _ _ _ _ B). rewrite digits_0. assert (Nat.ltb 4 k = false) as -> by (apply Nat.ltb_ge; lia).
  do 2 f_equal. f_equal. lia.
Qed.
Lemma long_number_d4 n r : 0 <= n <= 9999 -> long_number 2 (d4 n ++ " " ++ r) = Some (n, 4%nat, " " ++ r).
Proof.
  intros H. apply halves4 in H as (A & B & C). unfold long_number, number, d4. rewrite sapp_assoc.
  replace (String.length _) with (S (S (S (S (S (String.length r)))))) by reflexivity.
  rewrite (digits_d2 _ _ _ 0 0 A), (digits_d2 _ _ _ _ _ B). cbn [append digits]. change (digit " ") with (@None Z). cbv iota beta.
  change (Nat.ltb 4 2) with false. cbv iota. do 2 f_equal. f_equal. lia.
Qed.
Lemma trim_d2 n r : 0 <= n <= 99 -> trim (d2 n ++ r) = d2 n ++ r.
Proof. intros H. apply halves in H as (A & B & C). unfold d2. cbn [append trim]. rewrite (white_dig _ A). reflexivity. Qed.
Lemma trim_d4 n r : 0 <= n <= 9999 -> trim (d4 n ++ r) = d4 n ++ r.
Proof. intros H. apply halves4 in H as (A & B & C). unfold d4. rewrite sapp_assoc. apply trim_d2. exact A. Qed.
Lemma char_d2 c n r : 0 <= n <= 99 -> digit c = None -> char c (d2 n ++ r) = None.
Proof. intros H N. apply halves in H as (A & B & C). unfold d2. cbn [append char]. rewrite (dig_eqb _ _ A N). reflexivity. Qed.
Lemma char_d4 c n r : 0 <= n <= 9999 -> digit c = None -> char c (d4 n ++ r) = None.
Proof. intros H N. apply halves4 in H as (A & B & C). unfold d4. rewrite sapp_assoc. apply char_d2; assumption. Qed.
Lemma char_here c r : char c (String c "" ++ r) = Some r.
Proof. cbn. rewrite Ascii.eqb_refl. reflexivity. Qed.
Lemma signed_year_d4 n r : 0 <= n <= 9999 -> signed_year (d4 n ++ r) = Some (n, 4%nat, r).
Proof. intros H. unfold signed_year. rewrite !char_d4 by (exact H || reflexivity). apply number_d4; [lia|exact H]. Qed.

(* ---- the formats ---- *)
Definition said (p : moment) (frac off : Z) (wd : option Z) : option Z := instant (year p) (month p) (day p) (hour p) (minute p) (second p) frac off wd.
Lemma date_time_text p r : writable p -> date_time (date_text p ++ " " ++ time_text p ++ r) = Some (fun off => said p 0 off None, r).
Proof.
  intros (Y & M & D & H & I & S). unfold date_time, date_text, time_text. rewrite !sapp_assoc.
  rewrite (trim_d4 _ _ Y), (signed_year_d4 _ _ Y). cbv iota beta. rewrite char_here. cbv iota beta.
  rewrite (trim_d2 _ _ M), (number_d2 1 _ _ ltac:(lia) M). cbv iota beta. rewrite char_here. cbv iota beta.
  rewrite (trim_d2 _ _ D), (number_d2 1 _ _ ltac:(lia) D). cbv iota beta.
  change (trim (" " ++ ?x)) with (trim x). rewrite !(trim_d2 _ _ H), (number_d2 1 _ _ ltac:(lia) H). cbv iota beta. rewrite char_here. cbv iota beta.
  rewrite (trim_d2 _ _ I), (number_d2 1 _ _ ltac:(lia) I). cbv iota beta. rewrite char_here. cbv iota beta.
  rewrite (trim_d2 _ _ S), (number_d2 1 _ _ ltac:(lia) S). reflexivity.
Qed.
Lemma date_time_T p sep r : writable p -> In sep ["T"; "t"] -> date_time (date_text p ++ sep ++ r) = None.
Proof.
  intros (Y & M & D & H & I & S) T. unfold date_time, date_text. rewrite !sapp_assoc.
  rewrite (trim_d4 _ _ Y), (signed_year_d4 _ _ Y). cbv iota beta. rewrite char_here. cbv iota beta.
  rewrite (trim_d2 _ _ M), (number_d2 1 _ _ ltac:(lia) M). cbv iota beta. rewrite char_here. cbv iota beta.
  rewrite (trim_d2 _ _ D), (number_d2 1 _ _ ltac:(lia) D). cbv iota beta.
  destruct T as [<-|[<-|[]]]; reflexivity.
Qed.
(* what rfc3339 does after the seconds *)
Definition tail3339 (p : moment) (s : string) : option Z :=
  match (match char "." s with Some s' => nanosecond s' | None => Some (0, s) end) with None => None | Some (nano, s) =>
  match offset (char ":") true s with None => None | Some (off, s) => at_end (said p nano off None) s end end.
Lemma rfc3339_text p sep r : writable p -> In sep ["T"; "t"; " "] -> rfc3339 (date_text p ++ sep ++ time_text p ++ r) = tail3339 p r.
Proof.
  intros (Y & M & D & H & I & S) T. unfold rfc3339, date_text, time_text. rewrite !sapp_assoc.
  rewrite (number_d4 4 _ _ ltac:(lia) Y). cbv iota beta. rewrite char_here. cbv iota beta.
  rewrite (number_d2 2 _ _ ltac:(lia) M). cbv iota beta. rewrite char_here. cbv iota beta.
  rewrite (number_d2 2 _ _ ltac:(lia) D). cbv iota beta.
  assert (E : exists a, sep = String a "" /\ negb (Ascii.eqb a "T" || Ascii.eqb a "t" || Ascii.eqb a " ") = false).
  { destruct T as [<-|[<-|[<-|[]]]]; eexists; split; reflexivity. }
  destruct E as (a & -> & E). change (String a "" ++ ?x) with (String a x). cbv iota beta. rewrite E.
  rewrite (number_d2 2 _ _ ltac:(lia) H). cbv iota beta. rewrite char_here. cbv iota beta.
  rewrite (number_d2 2 _ _ ltac:(lia) I). cbv iota beta. rewrite char_here. cbv iota beta.
  rewrite (number_d2 2 _ _ ltac:(lia) S). reflexivity.
Qed.
Lemma name3_dig a s : 0 <= a <= 9 -> name3 weekdays (String (dig a) s) = None.
Proof. intros H. destruct s as [|b [|c s]]; [reflexivity|reflexivity|]. tencases H; reflexivity. Qed.
Lemma rfc2822_text p r : writable p -> rfc2822 (date_text p ++ r) = None.
Proof.
  intros (Y & _). unfold rfc2822, date_text. rewrite !sapp_assoc. rewrite (trim_d4 _ _ Y).
  pose proof (halves4 _ Y) as (A & B & C). pose proof (halves _ A) as (A1 & _). pose proof (halves _ B) as (B1 & _).
  unfold d4. rewrite !sapp_assoc. unfold d2 at 1. cbn [append]. rewrite (name3_dig _ _ A1). cbv iota beta.
  change (String (dig (year p / 100 / 10)) (String (dig ((year p / 100) mod 10)) ?x)) with (d2 (year p / 100) ++ x).
  rewrite (trim_d2 _ _ A), (number_d2 1 _ _ ltac:(lia) A). cbv iota beta. unfold d2 at 1. cbn [append space]. rewrite (white_dig _ B1). reflexivity.
Qed.
(* offsets *)
Lemma offset_text colon sep zulu z r : is_zone z -> (forall s, colon (sep ++ d2 (zminutes z) ++ s) = Some (d2 (zminutes z) ++ s)) ->
  offset colon zulu (zone_text sep z ++ r) = Some (seconds_east z, r).
Proof.
  intros [H M] C. unfold zone_text, offset, seconds_east. rewrite !sapp_assoc.
  destruct (west z); cbn [append]; rewrite andb_false_r; cbn [Ascii.eqb Bool.eqb]; cbv iota beta;
    rewrite number_d2 by lia; cbv iota beta; rewrite C; rewrite number_d2 by lia; cbv iota beta;
    (destruct (Z.leb_spec (zminutes z) 59); [reflexivity|lia]).
Qed.
(* fractions *)
Definition no_digit (r : string) : Prop := match r with String a _ => digit a = None | EmptyString => True end.
Lemma digits_stop k r v c : no_digit r -> digits k r v c = (v, c, r).
Proof. destruct k, r as [|a r]; cbn; try reflexivity. intros ->. reflexivity. Qed.
Lemma skip_text ds r : Forall (fun d => 0 <= d <= 9) ds -> no_digit r -> skip_digits (digits_text ds ++ r) = r.
Proof.
  intros F N. induction F as [|d ds H F IH]; cbn.
  - destruct r as [|a r]; cbn in *; [reflexivity|]. rewrite N. reflexivity.
  - rewrite (digit_dig _ H). exact IH.
Qed.
Lemma digits_text_run k : forall ds r v c, Forall (fun d => 0 <= d <= 9) ds -> no_digit r ->
  exists v' n, digits k (digits_text ds ++ r) v c = (v', (c + n)%nat, digits_text (skipn k ds) ++ r) /\ (n <= k)%nat /\ (ds <> [] -> (0 < k)%nat -> (0 < n)%nat) /\
    v' * 10 ^ Z.of_nat (k - n) = v * 10 ^ Z.of_nat k + nanos k ds.
Proof.
  induction k as [|k IH]; intros ds r v c F N.
  - exists v, 0%nat. cbn. rewrite Nat.add_0_r. repeat split; lia.
  - destruct F as [|d ds H F].
    + exists v, 0%nat. rewrite digits_stop by exact N. cbn [skipn nanos]. rewrite Nat.add_0_r, Nat.sub_0_r. cbn [digits_text append]. split; [reflexivity|]. split; [lia|]. split; [congruence|lia].
    + destruct (IH ds r (10 * v + d) (S c) F N) as (v' & n & E & L & _ & V). exists v', (S n). cbn [digits_text append digits skipn]. rewrite (digit_dig _ H), E.
      split; [do 2 f_equal; lia|]. split; [lia|]. split; [lia|]. cbn [Nat.sub nanos]. rewrite V. rewrite Nat2Z.inj_succ, Z.pow_succ_r by lia. ring.
Qed.
Lemma nanosecond_text ds r : ds <> [] -> Forall (fun d => 0 <= d <= 9) ds -> no_digit r -> nanosecond (digits_text ds ++ r) = Some (nanos 9 ds, r).
Proof.
  intros E F N. unfold nanosecond, number. destruct (digits_text_run 9 ds r 0 0 F N) as (v & n & -> & L & P & V). specialize (P E ltac:(lia)).
  replace (Nat.ltb (0 + n) 1) with false by (symmetry; apply Nat.ltb_ge; lia). rewrite skip_text; [|apply Forall_forall; intros x I; apply (proj1 (Forall_forall _ _) F); rewrite <- (firstn_skipn 9 ds); apply in_or_app; right; exact I|exact N].
  do 2 f_equal. cbn [Nat.add]. rewrite Nat2Z.inj_sub in V by exact L. change (Z.of_nat 9) with 9 in V. rewrite Z.mul_0_l, Z.add_0_l in V. exact V.
Qed.
Lemma zone_no_digit sep z : no_digit (zone_text sep z).
Proof. unfold zone_text. destruct (west z); reflexivity. Qed.
Lemma zone_end sep z : zone_text sep z = zone_text sep z ++ "".
Proof. unfold zone_text. rewrite !sapp_assoc. reflexivity. Qed.
Lemma colon_text z s : is_zone z -> char ":" (":" ++ d2 (zminutes z) ++ s) = Some (d2 (zminutes z) ++ s).
Proof. intros _. apply char_here. Qed.
Lemma lax_text sep z s : is_zone z -> In sep [""; ":"] -> Some (colon_or_space (sep ++ d2 (zminutes z) ++ s)) = Some (d2 (zminutes z) ++ s).
Proof.
  intros [_ M] I. f_equal. assert (A : colon_or_space (d2 (zminutes z) ++ s) = d2 (zminutes z) ++ s).
  { destruct (halves (zminutes z) ltac:(lia)) as (A & _). unfold d2. cbn [append colon_or_space]. rewrite (white_dig _ A), (dig_eqb _ _ A) by reflexivity. reflexivity. }
  destruct I as [<-|[<-|[]]]; [exact A|]. cbn [append colon_or_space]. cbn [Ascii.eqb Bool.eqb orb]. exact A.
Qed.
Lemma trim_zone sep z r : trim (zone_text sep z ++ r) = zone_text sep z ++ r.
Proof. unfold zone_text. destruct (west z); reflexivity. Qed.

(* a text that is no mail's date *)
Lemma text_parts p r : writable p -> version_to_datetime (date_text p ++ r) =
  match rfc3339 (date_text p ++ r) with Some t => Some t | None => match with_zone (date_text p ++ r) with Some t => Some t | None => naive (date_text p ++ r) end end.
Proof. intros W. unfold version_to_datetime. rewrite (rfc2822_text p r W). reflexivity. Qed.
Lemma or_same {A} (x : option A) : match x with Some t => Some t | None => x end = x.
Proof. destruct x; reflexivity. Qed.
Lemma or_none {A} (x : option A) : match x with Some t => Some t | None => None end = x.
Proof. destruct x; reflexivity. Qed.
(* the last two formats with something after the seconds *)
Lemma others_none p sep r : writable p -> In sep ["T"; "t"; " "] -> r <> "" -> offset (fun s => Some (colon_or_space s)) false (trim (trim r)) = None ->
  with_zone (date_text p ++ sep ++ time_text p ++ r) = None /\ naive (date_text p ++ sep ++ time_text p ++ r) = None.
Proof.
  intros W I R O. unfold with_zone, naive. destruct I as [<-|[<-|[<-|[]]]]; [rewrite date_time_T; [auto|exact W|cbn; tauto]..|].
  rewrite (date_time_text p r W), O. destruct r; [congruence|auto].
Qed.
Lemma others_zone p sep r z : writable p -> In sep ["T"; "t"; " "] -> r <> "" -> offset (fun s => Some (colon_or_space s)) false (trim (trim r)) = Some (seconds_east z, "") ->
  (with_zone (date_text p ++ sep ++ time_text p ++ r) = None \/ with_zone (date_text p ++ sep ++ time_text p ++ r) = said p 0 (seconds_east z) None) /\ naive (date_text p ++ sep ++ time_text p ++ r) = None.
Proof.
  intros W I R O. unfold with_zone, naive. destruct I as [<-|[<-|[<-|[]]]]; [rewrite date_time_T; [auto|exact W|cbn; tauto]..|].
  rewrite (date_time_text p r W), O. destruct r; [congruence|auto].
Qed.
Lemma tail_utc p u : In u ["Z"; "z"] -> tail3339 p u = said p 0 0 None.
Proof. intros [<-|[<-|[]]]; reflexivity. Qed.
Lemma tail_zone p z : is_zone z -> tail3339 p (zone_text ":" z) = said p 0 (seconds_east z) None.
Proof.
  intros Z. unfold tail3339. assert (char "." (zone_text ":" z) = None) as -> by (unfold zone_text; destruct (west z); reflexivity).
  rewrite zone_end. rewrite (offset_text (char ":") ":" true z "" Z (fun s => colon_text z s Z)). reflexivity.
Qed.
Lemma tail_fraction p ds r : ds <> [] -> Forall (fun d => 0 <= d <= 9) ds -> no_digit r ->
  tail3339 p ("." ++ digits_text ds ++ r) = match offset (char ":") true r with None => None | Some (off, s) => at_end (said p (nanos 9 ds) off None) s end.
Proof. intros E F N. unfold tail3339. rewrite char_here, (nanosecond_text ds r E F N). reflexivity. Qed.
Lemma weekday_cases w wn : nth_error weekday_names w = Some wn ->
  (w < 7)%nat /\ (forall s, rfc3339 (wn ++ s) = None) /\ (forall s, date_time (wn ++ s) = None) /\ (forall s, trim (wn ++ s) = wn ++ s) /\ (forall s, name3 weekdays (wn ++ s) = Some (Z.of_nat w, s)).
Proof. do 7 (destruct w as [|w]; [intros E; injection E as <-; repeat split; try reflexivity; lia|]). destruct w; discriminate. Qed.
Lemma month_cases_name k mn : nth_error month_names k = Some mn -> (forall s, trim (mn ++ s) = mn ++ s) /\ forall s, name3 months (mn ++ s) = Some (Z.of_nat k, s).
Proof. do 12 (destruct k as [|k]; [intros E; injection E as <-; repeat split; reflexivity|]). destruct k; discriminate. Qed.
Lemma mail_text w wn mn z p : nth_error weekday_names w = Some wn -> 1 <= month p -> nth_error month_names (Z.to_nat (month p - 1)) = Some mn -> is_zone z -> writable p ->
  version_to_datetime (wn ++ ", " ++ d2 (day p) ++ " " ++ mn ++ " " ++ d4 (year p) ++ " " ++ time_text p ++ " " ++ zone_text "" z) = said p 0 (seconds_east z) (Some (Z.of_nat w)).
Proof.
  intros Hw M1 Hm Hz (Y & M & D & H & I & S). destruct (weekday_cases w wn Hw) as (_ & W1 & W2 & W3 & W4). destruct (month_cases_name _ mn Hm) as (M2 & M3).
  unfold version_to_datetime, with_zone, naive. rewrite W1, W2, or_none. unfold rfc2822. rewrite W3, W4. change (char "," (", " ++ ?x)) with (Some (" " ++ x)). cbv iota beta.
  change (trim (" " ++ ?x)) with (trim x). rewrite (trim_d2 _ _ D), number_d2 by lia. cbv iota beta.
  change (space (" " ++ ?x)) with (Some (trim x)). cbv iota beta. rewrite M2, M3. cbv iota beta.
  change (space (" " ++ ?x)) with (Some (trim x)). cbv iota beta. rewrite (trim_d4 _ _ Y), (long_number_d4 _ _ Y). cbv iota beta.
  change (space (" " ++ ?x)) with (Some (trim x)). cbv iota beta. unfold time_text. rewrite !sapp_assoc. rewrite (trim_d2 _ _ H), number_d2 by lia. cbv iota beta.
  change (trim (":" ++ ?x)) with (":" ++ x). rewrite char_here. cbv iota beta. rewrite (trim_d2 _ _ I), number_d2 by lia. cbv iota beta.
  change (trim (":" ++ ?x)) with (":" ++ x). rewrite char_here. cbv iota beta. rewrite number_d2 by lia. cbv iota beta.
  change (space (" " ++ ?x)) with (Some (trim x)). cbv iota beta. rewrite (zone_end "" z), trim_zone.
  assert (E : offset_2822 (zone_text "" z ++ "") = Some (seconds_east z, "")).
  { unfold offset_2822. assert (letters (zone_text "" z ++ "") = ("", zone_text "" z ++ "")) as -> by (unfold zone_text; destruct (west z); reflexivity).
    apply offset_text; [exact Hz|]. reflexivity. }
  rewrite E. cbn [at_end year_2822]. unfold said. f_equal. lia.
Qed.
Lemma says_said t p frac off wd : says t p frac off wd -> version_to_datetime t = said p frac off wd.
Proof.
  intros [sep u p0 I U W|sep z p0 I Z W|sep u ds p0 I U W N F|sep z ds p0 I Z W N F|colon z p0 C Z W|p0 W|w wn mn z p0 Hw M1 Hm Z W].
  - rewrite text_parts, (rfc3339_text p0 sep u W I), (tail_utc p0 u U) by exact W. destruct (others_none p0 sep u W I) as [-> ->].
    + destruct U as [<-|[<-|[]]]; discriminate.
    + destruct U as [<-|[<-|[]]]; reflexivity.
    + apply or_none.
  - rewrite text_parts, (rfc3339_text p0 sep _ W I), (tail_zone p0 z Z) by exact W. destruct (others_zone p0 sep (zone_text ":" z) z W I) as [O ->].
    + unfold zone_text. destruct (west z); discriminate.
    + rewrite zone_end, !trim_zone. apply offset_text; [exact Z|]. intros s. apply lax_text; [exact Z|cbn; tauto].
    + rewrite or_none. destruct O as [-> | ->]; [apply or_none|apply or_same].
  - rewrite text_parts, (rfc3339_text p0 sep _ W I) by exact W. rewrite (tail_fraction p0 ds u N F) by (destruct U as [<-|[<-|[]]]; reflexivity).
    destruct (others_none p0 sep ("." ++ digits_text ds ++ u) W I) as [-> ->]; [discriminate|reflexivity|]. rewrite or_none. destruct U as [<-|[<-|[]]]; reflexivity.
  - rewrite text_parts, (rfc3339_text p0 sep _ W I) by exact W. rewrite (tail_fraction p0 ds _ N F (zone_no_digit _ _)).
    destruct (others_none p0 sep ("." ++ digits_text ds ++ zone_text ":" z) W I) as [-> ->]; [discriminate|reflexivity|]. rewrite or_none.
    rewrite zone_end. rewrite (offset_text (char ":") ":" true z "" Z (fun s => colon_text z s Z)). reflexivity.
  - rewrite text_parts, (rfc3339_text p0 " " _ W) by (exact W || (cbn; tauto)). change (tail3339 p0 (" " ++ zone_text colon z)) with (@None BinNums.Z). cbv iota.
    unfold with_zone, naive. rewrite (date_time_text p0 _ W). cbv iota beta. change (trim (trim (" " ++ ?x))) with (trim (trim x)). rewrite zone_end, !trim_zone.
    rewrite (offset_text _ colon false z "" Z (fun s => lax_text colon z s Z C)). cbn [at_end append]. apply or_none.
  - replace (time_text p0) with (time_text p0 ++ "") by (unfold time_text; rewrite !sapp_assoc; reflexivity).
    rewrite text_parts, (rfc3339_text p0 " " _ W) by (exact W || (cbn; tauto)). change (tail3339 p0 "") with (@None BinNums.Z). cbv iota.
    unfold with_zone, naive. rewrite (date_time_text p0 _ W). reflexivity.
  - apply mail_text; assumption.
Qed.

(* ---- case ---- *)
Notation low := DdlModel.lower.
Notation lowa := DdlModel.lower_ascii.
Lemma all_ascii (P : ascii -> bool) : forallb P (map ascii_of_nat (seq 0 256)) = true -> forall a, P a = true.
Proof.
  intros H a. apply (proj1 (forallb_forall _ _) H). apply in_map_iff. exists (nat_of_ascii a). split; [apply ascii_nat_embedding|]. apply in_seq. pose proof (nat_ascii_bounded a). lia.
Qed.
Definition same_Z (x y : option Z) : bool := match x, y with Some a, Some b => a =? b | None, None => true | _, _ => false end.
Lemma digit_low a : digit (lowa a) = digit a.
Proof.
  assert (H : same_Z (digit (lowa a)) (digit a) = true) by (revert a; apply all_ascii; vm_compute; reflexivity).
  unfold same_Z in H. destruct (digit (lowa a)), (digit a); try discriminate; [apply Z.eqb_eq in H; congruence|reflexivity].
Qed.
Lemma white_low a : white (lowa a) = white a.
Proof. apply Bool.eqb_prop. revert a. apply all_ascii. vm_compute. reflexivity. Qed.
Lemma letter_low a : letter (lowa a) = letter a.
Proof. apply Bool.eqb_prop. revert a. apply all_ascii. vm_compute. reflexivity. Qed.
Lemma small_low a : small (lowa a) = small a.
Proof. apply Ascii.eqb_eq. revert a. apply all_ascii. vm_compute. reflexivity. Qed.
Definition mark (c : ascii) : bool := forallb (fun a => Bool.eqb (Ascii.eqb (lowa a) c) (Ascii.eqb a c)) (map ascii_of_nat (seq 0 256)).
Lemma eqb_low c a : mark c = true -> Ascii.eqb (lowa a) c = Ascii.eqb a c.
Proof. intros H. apply Bool.eqb_prop. revert a. apply all_ascii. exact H. Qed.
Lemma zulu_low a : Ascii.eqb (lowa a) "Z" || Ascii.eqb (lowa a) "z" = Ascii.eqb a "Z" || Ascii.eqb a "z".
Proof. apply Bool.eqb_prop. revert a. apply all_ascii. vm_compute. reflexivity. Qed.
Lemma tee_low a : Ascii.eqb (lowa a) "T" || Ascii.eqb (lowa a) "t" || Ascii.eqb (lowa a) " " = Ascii.eqb a "T" || Ascii.eqb a "t" || Ascii.eqb a " ".
Proof. apply Bool.eqb_prop. revert a. apply all_ascii. vm_compute. reflexivity. Qed.

Definition lo {A} (x : option (A * string)) : option (A * string) := match x with Some (a, r) => Some (a, low r) | None => None end.
Lemma trim_low s : trim (low s) = low (trim s).
Proof. induction s as [|a s IH]; cbn; [reflexivity|]. rewrite white_low. destruct (white a); [exact IH|reflexivity]. Qed.
Lemma char_low c s : mark c = true -> char c (low s) = option_map low (char c s).
Proof. intros M. destruct s as [|a s]; cbn; [reflexivity|]. rewrite (eqb_low c a M). destruct (Ascii.eqb a c); reflexivity. Qed.
Lemma space_low s : space (low s) = option_map low (space s).
Proof. destruct s as [|a s]; cbn; [reflexivity|]. rewrite white_low, trim_low. destruct (white a); reflexivity. Qed.
Lemma digits_low k : forall s v n, digits k (low s) v n = let '(v', n', r) := digits k s v n in (v', n', low r).
Proof.
  induction k as [|k IH]; intros [|a s] v n; cbn; try reflexivity. rewrite digit_low. destruct (digit a); [apply IH|reflexivity].
Qed.
Lemma number_low i k s : number i k (low s) = lo (number i k s).
Proof. unfold number. rewrite digits_low. destruct (digits k s 0 0) as [[v n] r]. destruct (Nat.ltb n i); reflexivity. Qed.
Lemma length_low s : String.length (low s) = String.length s.
Proof. induction s as [|a s IH]; cbn; [reflexivity|]. rewrite IH. reflexivity. Qed.
Lemma long_number_low i s : long_number i (low s) = lo (long_number i s).
Proof. unfold long_number. rewrite length_low. apply number_low. Qed.
Lemma skip_low s : skip_digits (low s) = low (skip_digits s).
Proof. induction s as [|a s IH]; cbn; [reflexivity|]. rewrite digit_low. destruct (digit a); [exact IH|reflexivity]. Qed.
Lemma nanosecond_low s : nanosecond (low s) = lo (nanosecond s).
Proof. unfold nanosecond. rewrite number_low. destruct (number 1 9 s) as [[[v n] r]|]; cbn; [rewrite skip_low|]; reflexivity. Qed.
Lemma offset_low colon z s : (forall s, colon (low s) = option_map low (colon s)) -> offset colon z (low s) = lo (offset colon z s).
Proof.
  intros C. destruct s as [|a s]; cbn [DdlModel.lower offset]; [reflexivity|]. rewrite zulu_low. destruct (z && _); [reflexivity|].
  rewrite !eqb_low by (vm_compute; reflexivity). destruct (if Ascii.eqb a "+" then _ else _) as [sg|]; [|reflexivity].
  rewrite number_low. destruct (number 2 2 s) as [[[h n] s1]|]; cbn [lo]; [|reflexivity]. rewrite C. destruct (colon s1) as [s2|]; cbn [option_map]; [|reflexivity].
  rewrite number_low. destruct (number 2 2 s2) as [[[m n'] s3]|]; cbn [lo]; [|reflexivity]. destruct (m <=? 59); reflexivity.
Qed.
Lemma colon_or_space_low s : colon_or_space (low s) = low (colon_or_space s).
Proof.
  induction s as [|a s IH]; [reflexivity|]. cbn [DdlModel.lower colon_or_space]. rewrite white_low, eqb_low by (vm_compute; reflexivity). destruct (_ || _); [exact IH|reflexivity].
Qed.
Lemma name3_low names s : name3 names (low s) = lo (name3 names s).
Proof.
  destruct s as [|a [|b [|c s]]]; [reflexivity..|]. unfold name3. cbn [DdlModel.lower]. rewrite !small_low. generalize 0. induction names as [|x l IH]; intros i; [reflexivity|].
  destruct (String.eqb x _); [reflexivity|apply IH].
Qed.
Lemma letters_low s : letters (low s) = let '(w, r) := letters s in (w, low r).
Proof.
  induction s as [|a s IH]; [reflexivity|]. cbn [DdlModel.lower letters]. rewrite letter_low, small_low, IH. destruct (letter a), (letters s) as [w r]; reflexivity.
Qed.
Lemma offset_2822_low s : offset_2822 (low s) = lo (offset_2822 s).
Proof.
  unfold offset_2822. rewrite letters_low. destruct (letters s) as [[|a w] r]; [apply offset_low; reflexivity|]. destruct (zone_name _); reflexivity.
Qed.
Lemma at_end_low {A} (x : option A) s : at_end x (low s) = at_end x s.
Proof. destruct s; reflexivity. Qed.
Lemma signed_year_low s : signed_year (low s) = lo (signed_year s).
Proof.
  unfold signed_year. rewrite !char_low by (vm_compute; reflexivity). destruct (char "-" s) as [s1|], (char "+" s) as [s2|]; cbn [option_map]; rewrite ?long_number_low, ?number_low; try reflexivity;
    destruct (long_number 1 s1) as [[[y n] r]|]; reflexivity.
Qed.
Ltac lowstep := cbn [lo option_map]; cbv iota beta; rewrite ?trim_low;
  first [ rewrite number_low; match goal with |- context [lo (number ?a ?b ?s)] => destruct (number a b s) as [[[? ?] ?]|]; [|reflexivity] end
        | rewrite signed_year_low; match goal with |- context [lo (signed_year ?s)] => destruct (signed_year s) as [[[? ?] ?]|]; [|reflexivity] end
        | rewrite long_number_low; match goal with |- context [lo (long_number ?a ?s)] => destruct (long_number a s) as [[[? ?] ?]|]; [|reflexivity] end
        | rewrite name3_low; match goal with |- context [lo (name3 ?a ?s)] => destruct (name3 a s) as [[? ?]|]; [|reflexivity] end
        | rewrite space_low; match goal with |- context [option_map low (space ?s)] => destruct (space s) as [?|]; [|reflexivity] end
        | rewrite char_low by (vm_compute; reflexivity); match goal with |- context [option_map low (char ?c ?s)] => destruct (char c s) as [?|]; [|reflexivity] end ].
Lemma date_time_low s : match date_time (low s), date_time s with Some (f, r), Some (g, r') => f = g /\ r = low r' | None, None => True | _, _ => False end.
Proof.
  unfold date_time.
  cbn [lo option_map]. rewrite trim_low, signed_year_low. destruct (signed_year (trim s)) as [[[y n] s1]|]; cbn [lo]; [|exact Logic.I].
  rewrite char_low by (vm_compute; reflexivity). destruct (char "-" s1) as [s2|]; cbn [option_map]; [|exact Logic.I].
  rewrite trim_low, number_low. destruct (number 1 2 (trim s2)) as [[[m n1] s3]|]; cbn [lo]; [|exact Logic.I].
  rewrite char_low by (vm_compute; reflexivity). destruct (char "-" s3) as [s4|]; cbn [option_map]; [|exact Logic.I].
  rewrite trim_low, number_low. destruct (number 1 2 (trim s4)) as [[[d n2] s5]|]; cbn [lo]; [|exact Logic.I].
  rewrite !trim_low, number_low. destruct (number 1 2 (trim (trim s5))) as [[[h n3] s6]|]; cbn [lo]; [|exact Logic.I].
  rewrite char_low by (vm_compute; reflexivity). destruct (char ":" s6) as [s7|]; cbn [option_map]; [|exact Logic.I].
  rewrite trim_low, number_low. destruct (number 1 2 (trim s7)) as [[[mi n4] s8]|]; cbn [lo]; [|exact Logic.I].
  rewrite char_low by (vm_compute; reflexivity). destruct (char ":" s8) as [s9|]; cbn [option_map]; [|exact Logic.I].
  rewrite trim_low, number_low. destruct (number 1 2 (trim s9)) as [[[ss n5] s10]|]; cbn [lo]; [|exact Logic.I]. split; reflexivity.
Qed.
Lemma with_zone_low s : with_zone (low s) = with_zone s.
Proof.
  unfold with_zone. pose proof (date_time_low s) as D. destruct (date_time (low s)) as [[f r]|], (date_time s) as [[g r']|]; try contradiction; [|reflexivity].
  destruct D as [-> ->]. rewrite !trim_low, offset_low by (intros x; cbn; rewrite colon_or_space_low; reflexivity).
  destruct (offset _ false (trim (trim r'))) as [[off r]|]; cbn [lo]; [apply at_end_low|reflexivity].
Qed.
Lemma naive_low s : naive (low s) = naive s.
Proof.
  unfold naive. pose proof (date_time_low s) as D. destruct (date_time (low s)) as [[f r]|], (date_time s) as [[g r']|]; try contradiction; [|reflexivity].
  destruct D as [-> ->]. apply at_end_low.
Qed.
Lemma rfc3339_low s : rfc3339 (low s) = rfc3339 s.
Proof.
  unfold rfc3339. do 5 lowstep. cbn [lo option_map]. cbv iota beta.
  match goal with |- match low ?x with _ => _ end = _ => destruct x as [|a s9]; cbn [DdlModel.lower]; [reflexivity|] end.
  rewrite tee_low. destruct (negb _); [reflexivity|]. do 5 lowstep. cbn [lo option_map]. cbv iota beta.
  rewrite char_low by (vm_compute; reflexivity).
  match goal with |- context [option_map low (char "." ?x)] => set (tail := x) end.
  assert (E : match option_map low (char "." tail) with Some s' => nanosecond s' | None => Some (0, low tail) end = lo (match char "." tail with Some s' => nanosecond s' | None => Some (0, tail) end)).
  { destruct (char "." tail) as [s12|]; cbn [option_map lo]; [apply nanosecond_low|reflexivity]. }
  rewrite E. destruct (match char "." tail with Some s' => nanosecond s' | None => Some (0, tail) end) as [[nano t2]|]; cbn [lo]; [|reflexivity].
  rewrite offset_low by (intros x; apply char_low; vm_compute; reflexivity). destruct (offset _ true t2) as [[off t3]|]; cbn [lo]; [apply at_end_low|reflexivity].
Qed.
Lemma rfc2822_low s : rfc2822 (low s) = rfc2822 s.
Proof.
  unfold rfc2822. rewrite trim_low.
  assert (E : match name3 weekdays (low (trim s)) with Some (w, s1) => match char "," s1 with Some s2 => Some (Some w, s2) | None => None end | None => Some (None, low (trim s)) end
            = lo (match name3 weekdays (trim s) with Some (w, s1) => match char "," s1 with Some s2 => Some (Some w, s2) | None => None end | None => Some (None, trim s) end)).
  { rewrite name3_low. destruct (name3 weekdays (trim s)) as [[w s1]|]; cbn [lo]; [|reflexivity]. rewrite char_low by (vm_compute; reflexivity). destruct (char "," s1); reflexivity. }
  rewrite E. clear E. destruct (match name3 weekdays (trim s) with Some (w, s1) => _ | None => _ end) as [[wd s1]|]; [|reflexivity].
  do 9 lowstep. cbn [lo option_map]. cbv iota beta. rewrite trim_low, char_low by (vm_compute; reflexivity).
  match goal with |- context [option_map low (char ":" (trim ?x))] => set (tail := x) end.
  assert (E : match option_map low (char ":" (trim tail)) with Some s' => match number 2 2 s' with Some (ss, _, s2) => Some (ss, s2) | None => None end | None => Some (0, low tail) end
            = lo (match char ":" (trim tail) with Some s' => match number 2 2 s' with Some (ss, _, s2) => Some (ss, s2) | None => None end | None => Some (0, tail) end)).
  { destruct (char ":" (trim tail)) as [t2|]; cbn [option_map lo]; [|reflexivity]. rewrite number_low. destruct (number 2 2 t2) as [[[? ?] ?]|]; reflexivity. }
  rewrite E. clear E. destruct (match char ":" (trim tail) with Some s' => _ | None => _ end) as [[ss t2]|]; [|reflexivity]. cbn [lo]. cbv iota beta.
  rewrite space_low. destruct (space t2) as [t3|]; cbn [option_map]; [|reflexivity]. rewrite offset_2822_low. destruct (offset_2822 t3) as [[off t4]|]; cbn [lo]; [apply at_end_low|reflexivity].
Qed.
Lemma datetime_low s : version_to_datetime (low s) = version_to_datetime s.
Proof. unfold version_to_datetime. rewrite rfc3339_low, rfc2822_low, with_zone_low, naive_low. reflexivity. Qed.
