(* Lemmas for RemoteProps.v *)
From Coq Require Import Ascii String List Arith NArith Bool Lia.
From Verif Require Import HttpModel RemoteModel RemoteSpec.
Import ListNotations.
Open Scope list_scope.

(* ---- Numbers ---- *)
Lemma digit_value_digit d : (d < 10)%N -> digit_value (digit d) = Some d.
Proof.
  intros H. unfold digit_value, digit. rewrite N_ascii_embedding by lia. replace (48 <=? 48 + d)%N with true by (symmetry; apply N.leb_le; lia).
  replace (48 + d <=? 57)%N with true by (symmetry; apply N.leb_le; lia). cbn [andb]. f_equal. lia.
Qed.
Lemma digit_value_inv c d : digit_value c = Some d -> c = digit d /\ (d < 10)%N.
Proof.
  unfold digit_value, digit. destruct (N.leb_spec 48 (N_of_ascii c)); [|discriminate]. destruct (N.leb_spec (N_of_ascii c) 57); [|discriminate]. cbn [andb].
  intros E. injection E as <-. split; [|lia]. replace (48 + (N_of_ascii c - 48))%N with (N_of_ascii c) by lia. symmetry. apply ascii_N_embedding.
Qed.
Lemma fold_digits_app t : forall v r, fold_digits v (t ++ r) = match fold_digits v t with Some w => fold_digits w r | None => None end.
Proof. induction t as [|c t IH]; intros v r; [reflexivity|]. cbn [app fold_digits]. destruct (digit_value c); [apply IH|reflexivity]. Qed.
Lemma numeral_fold t n : numeral t n -> fold_digits 0 t = Some n.
Proof.
  induction 1 as [d H|t n d H IH D]; [cbn [fold_digits]; fold (digit d); rewrite (digit_value_digit d H); reflexivity|].
  rewrite fold_digits_app, IH. cbn [fold_digits]. fold (digit d). rewrite (digit_value_digit d D). reflexivity.
Qed.
Lemma numeral_fun t n m : numeral t n -> numeral t m -> n = m.
Proof. intros A B. apply numeral_fold in A, B. congruence. Qed.
Lemma numeral_chars t n c : numeral t n -> In c t -> digit_value c <> None.
Proof.
  induction 1 as [d H|t n d H IH D]; cbn [In]; intros I.
  - destruct I as [<-|[]]. fold (digit d). rewrite (digit_value_digit d H). discriminate.
  - apply in_app_iff in I. destruct I as [I|[<-|[]]]; [exact (IH I)|]. fold (digit d). rewrite (digit_value_digit d D). discriminate.
Qed.
Lemma numeral_ne t n : numeral t n -> t <> [].
Proof. destruct 1; [discriminate|]. intros E. apply app_eq_nil in E. destruct E; discriminate. Qed.
Lemma to_digits_numeral f : forall n acc, (n < 10 ^ (N.of_nat f + 1))%N -> exists t, to_digits f n acc = t ++ acc /\ numeral t n.
Proof.
  induction f as [|f IH]; intros n acc H; cbn [to_digits].
  - exists [digit n]. rewrite N.mod_small by lia. split; [reflexivity|]. apply one_digit. lia.
  - destruct (N.ltb_spec n 10).
    + exists [digit n]. rewrite N.mod_small by lia. split; [reflexivity|]. apply one_digit. lia.
    + assert (Q : (n / 10 < 10 ^ (N.of_nat f + 1))%N).
      { apply N.div_lt_upper_bound; [lia|]. rewrite <- N.pow_succ_r'. replace (N.succ (N.of_nat f + 1)) with (N.of_nat (S f) + 1)%N by lia. exact H. }
      destruct (IH (n / 10)%N (digit (n mod 10) :: acc) Q) as (t & E & T). exists (t ++ [digit (n mod 10)]). rewrite E, <- app_assoc. split; [reflexivity|].
      assert (D : (n mod 10 < 10)%N) by (apply N.mod_lt; lia). pose proof (more_digits t (n / 10) (n mod 10) T D) as M.
      rewrite <- (N.div_mod n 10) in M by lia. exact M.
Qed.
Lemma digits_numeral n : numeral (digits n) n.
Proof.
  unfold digits. destruct (to_digits_numeral (N.to_nat (N.size n)) n []) as (t & E & T).
  - rewrite N2Nat.id. apply N.lt_le_trans with (2 ^ N.size n)%N; [apply N.size_gt|]. apply N.le_trans with (10 ^ N.size n)%N.
    + apply N.pow_le_mono_l. lia.
    + apply N.pow_le_mono_r; lia.
  - rewrite E, app_nil_r. exact T.
Qed.
Lemma parse_numeral t n : numeral t n -> (n <= max64)%N -> parse_number t = Some n.
Proof.
  intros T B. unfold parse_number. destruct t as [|c r]; [exfalso; exact (numeral_ne _ _ T eq_refl)|].
  destruct (Ascii.eqb_spec c "+") as [->|]; [exfalso; exact (numeral_chars _ _ _ T (or_introl eq_refl) eq_refl)|].
  rewrite (numeral_fold _ _ T). replace (n <=? max64)%N with true by (symmetry; apply N.leb_le; exact B). reflexivity.
Qed.
Lemma no_char c t n : numeral t n -> digit_value c = None -> ~ In c t.
Proof. intros T D I. exact (numeral_chars _ _ _ T I D). Qed.

(* ---- Splitting texts ---- *)
Lemma split_once_app c a b : ~ In c a -> split_once c (a ++ c :: b) = Some (a, b).
Proof.
  induction a as [|x a IH]; cbn [app split_once]; intros N; [rewrite Ascii.eqb_refl; reflexivity|].
  destruct (Ascii.eqb_spec x c) as [->|_]; [exfalso; apply N; left; reflexivity|]. rewrite IH; [reflexivity|]. intros I. apply N. right; exact I.
Qed.
Lemma sep_unique (c : ascii) (a b a' b' : list ascii) : ~ In c a -> ~ In c a' -> a ++ c :: b = a' ++ c :: b' -> a = a' /\ b = b'.
Proof.
  intros A A' E. pose proof (split_once_app c a b A) as S. rewrite E, (split_once_app c a' b' A') in S. injection S as -> ->. split; reflexivity.
Qed.
Lemma strip_prefix_app p t : strip_prefix p (p ++ t) = Some t.
Proof. induction p as [|c p IH]; cbn; [reflexivity|]. rewrite Ascii.eqb_refl. exact IH. Qed.
Lemma strip_prefix_some p : forall t r, strip_prefix p t = Some r -> t = p ++ r.
Proof.
  induction p as [|c p IH]; intros t r; cbn; [congruence|]. destruct t as [|x t]; [discriminate|]. destruct (Ascii.eqb_spec c x) as [<-|]; [|discriminate]. intros H. f_equal. exact (IH _ _ H).
Qed.

(* ---- Content-Range ---- *)
Lemma digit_not_space c : digit_value c <> None -> space c = false.
Proof.
  intros H. destruct (digit_value c) as [d|] eqn:E; [|congruence]. apply digit_value_inv in E. destruct E as [-> D]. unfold space, digit, nat_of_ascii.
  rewrite N_ascii_embedding by lia. destruct (Nat.eqb_spec (N.to_nat (48 + d)) 32); [lia|]. cbn [orb].
  destruct (Nat.leb_spec 9 (N.to_nat (48 + d))), (Nat.leb_spec (N.to_nat (48 + d)) 13); cbn; try reflexivity; lia.
Qed.
Lemma trim_start_id t c r : t = c :: r -> space c = false -> trim_start t = t.
Proof. intros -> S. cbn. rewrite S. reflexivity. Qed.
Lemma trim_range t n : numeral t n -> forall c r, space c = false -> trim (c :: r ++ t) = c :: r ++ t.
Proof.
  intros T c r S. unfold trim. rewrite (trim_start_id _ c _ eq_refl S).
  assert (exists t' d, t = t' ++ [d] /\ digit_value d <> None) as (t' & d & -> & D).
  { destruct T as [d D|t n d T D]; [exists [], (digit d)|exists t, (digit d)]; (split; [reflexivity|rewrite (digit_value_digit d D); discriminate]). }
  rewrite app_comm_cons, app_assoc, rev_app_distr. change (rev [d] ++ rev ((c :: r) ++ t')) with (d :: rev ((c :: r) ++ t')).
  rewrite (trim_start_id _ d _ eq_refl (digit_not_space d D)). cbn [rev]. rewrite rev_involutive. reflexivity.
Qed.
Lemma parse_content_range_of checked t f l n : content_range_of t f l n -> (f <= max64)%N -> (l < max64)%N -> (n <= max64)%N -> parse_content_range checked t = Range f (l + 1) n.
Proof.
  intros (tf & tl & tn & F & L & N & ->) BF BL BN. unfold parse_content_range.
  replace (s_ "bytes " ++ tf ++ s_ "-" ++ tl ++ s_ "/" ++ tn) with ("b"%char :: (s_ "ytes " ++ tf ++ s_ "-" ++ tl ++ s_ "/") ++ tn) by (rewrite <- !app_assoc; reflexivity).
  rewrite (trim_range tn n N) by reflexivity.
  replace ("b"%char :: (s_ "ytes " ++ tf ++ s_ "-" ++ tl ++ s_ "/") ++ tn) with (s_ "bytes " ++ ((tf ++ s_ "-" ++ tl) ++ "/"%char :: tn)) by (rewrite <- !app_assoc; reflexivity).
  rewrite strip_prefix_app, split_once_app.
  - rewrite (parse_numeral tn n N BN). change (tf ++ s_ "-" ++ tl) with (tf ++ "-"%char :: tl). rewrite (split_once_app _ _ _ (no_char "-" tf f F eq_refl)).
    rewrite (parse_numeral tf f F BF), (parse_numeral tl l L) by lia. destruct (N.eqb_spec l max64); [lia|reflexivity].
  - intros I. apply in_app_iff in I. destruct I as [I|[I|I]]; [exact (no_char "/" tf f F eq_refl I)|discriminate|exact (no_char "/" tl l L eq_refl I)].
Qed.
Lemma take_digits t n : numeral t n -> forall r, (match r with c :: _ => digit_value c = None | [] => True end) -> take_while is_digit (t ++ r) = (t, r).
Proof.
  intros T r R. assert (A : forall c, In c t -> digit_value c <> None) by (intros c; apply (numeral_chars t n c T)). clear T.
  induction t as [|c t IH]; cbn [app take_while].
  - destruct r as [|c r]; [reflexivity|]. cbn. unfold is_digit. rewrite R. reflexivity.
  - unfold is_digit at 1. destruct (digit_value c) eqn:D; [|exfalso; exact (A c (or_introl eq_refl) D)]. rewrite (IH (fun x I => A x (or_intror I))). reflexivity.
Qed.
Lemma numeral_head t n : numeral t n -> exists c r, t = c :: r /\ digit_value c <> None.
Proof. intros T. destruct t as [|c r]; [exfalso; exact (numeral_ne _ _ T eq_refl)|]. exists c, r. split; [reflexivity|]. exact (numeral_chars _ _ c T (or_introl eq_refl)). Qed.
Lemma opt_digit t n r : numeral t n -> forall f, (forall c, digit_value c <> None -> f c = false) -> opt f (t ++ r) = t ++ r.
Proof. intros T f F. destruct (numeral_head t n T) as (c & r' & -> & D). cbn. rewrite (F c D). reflexivity. Qed.
Lemma digit_not c0 : digit_value c0 = None -> forall c, digit_value c <> None -> Ascii.eqb c0 c = false.
Proof. intros H c D. destruct (Ascii.eqb_spec c0 c) as [<-|]; [congruence|reflexivity]. Qed.
Lemma take_space t n : numeral t n -> forall r, take_while space (" "%char :: t ++ r) = ([" "%char], t ++ r).
Proof. intros T r. destruct (numeral_head t n T) as (c & r' & -> & D). cbn. rewrite (digit_not_space c D). reflexivity. Qed.
Lemma group4_start tf f r : numeral tf f -> group4 (s_ "bytes " ++ tf ++ "-"%char :: r) =
  let t := snd (take_while is_digit (opt space r)) in let t := opt space (opt (Ascii.eqb "/") (opt space t)) in
  match take_while is_digit t with ([], c :: _) => Some (if Ascii.eqb c "*" then Some (s_ "*") else None) | ([], []) => Some None | (d, _) => Some (Some d) end.
Proof.
  intros F. unfold group4. change (s_ "bytes " ++ tf ++ "-"%char :: r) with (s_ "bytes" ++ " "%char :: tf ++ "-"%char :: r). rewrite strip_prefix_app, (take_space tf f F).
  rewrite (take_digits tf f F ("-"%char :: r) eq_refl). destruct tf as [|c tf]; [exfalso; exact (numeral_ne _ _ F eq_refl)|]. cbn [opt space nat_of_ascii]. reflexivity.
Qed.
Lemma group4_size tf f tl l tn n : numeral tf f -> numeral tl l -> numeral tn n -> group4 (s_ "bytes " ++ tf ++ s_ "-" ++ tl ++ s_ "/" ++ tn) = Some (Some tn).
Proof.
  intros F L N. change (s_ "bytes " ++ tf ++ s_ "-" ++ tl ++ s_ "/" ++ tn) with (s_ "bytes " ++ tf ++ "-"%char :: tl ++ "/"%char :: tn). rewrite (group4_start tf f _ F).
  rewrite (opt_digit tl l _ L space digit_not_space), (take_digits tl l L ("/"%char :: tn) eq_refl). cbv zeta. cbn [snd].
  change (opt (Ascii.eqb "/") (opt space ("/"%char :: tn))) with tn. rewrite <- (app_nil_r tn). rewrite (opt_digit tn n _ N space digit_not_space), (take_digits tn n N [] Logic.I).
  rewrite app_nil_r. destruct tn as [|c tn]; [exfalso; exact (numeral_ne _ _ N eq_refl)|]. reflexivity.
Qed.
Lemma group4_no_size tf f tl l : numeral tf f -> numeral tl l -> group4 (s_ "bytes " ++ tf ++ s_ "-" ++ tl) = Some None.
Proof.
  intros F L. change (s_ "bytes " ++ tf ++ s_ "-" ++ tl) with (s_ "bytes " ++ tf ++ "-"%char :: tl). rewrite (group4_start tf f _ F).
  rewrite <- (app_nil_r tl), (opt_digit tl l _ L space digit_not_space), (take_digits tl l L [] Logic.I). reflexivity.
Qed.
Lemma group4_star tf f tl l : numeral tf f -> numeral tl l -> group4 (s_ "bytes " ++ tf ++ s_ "-" ++ tl ++ s_ "/*") = Some (Some (s_ "*")).
Proof.
  intros F L. change (s_ "bytes " ++ tf ++ s_ "-" ++ tl ++ s_ "/*") with (s_ "bytes " ++ tf ++ "-"%char :: tl ++ s_ "/*"). rewrite (group4_start tf f _ F).
  rewrite (opt_digit tl l _ L space digit_not_space), (take_digits tl l L (s_ "/*") eq_refl). reflexivity.
Qed.

(* ---- What a request selects ---- *)
Lemma selects_request a e len f l : selects (s_ "bytes=" ++ digits a ++ s_ "-" ++ digits e) len f l -> (a <= e)%N /\ (a < len)%N /\ f = a /\ l = N.min e (len - 1).
Proof.
  pose proof (digits_numeral a) as A. pose proof (digits_numeral e) as B. intros S. remember (s_ "bytes=" ++ digits a ++ s_ "-" ++ digits e) as h eqn:H.
  destruct S as [ta a' tb b' len A' B' L1 L2|ta a' len A' L2|tn n len N P L].
  - apply app_inv_head in H. change (ta ++ s_ "-" ++ tb) with (ta ++ "-"%char :: tb) in H. change (digits a ++ s_ "-" ++ digits e) with (digits a ++ "-"%char :: digits e) in H.
    apply sep_unique in H; [|exact (no_char "-" ta a' A' eq_refl)|exact (no_char "-" _ a A eq_refl)]. destruct H as [-> ->].
    pose proof (numeral_fun _ _ _ A A'). pose proof (numeral_fun _ _ _ B B'). subst. split; [exact L1|]. split; [exact L2|]. split; reflexivity.
  - apply app_inv_head in H. change (ta ++ s_ "-") with (ta ++ "-"%char :: []) in H. change (digits a ++ s_ "-" ++ digits e) with (digits a ++ "-"%char :: digits e) in H.
    apply sep_unique in H; [|exact (no_char "-" ta a' A' eq_refl)|exact (no_char "-" _ a A eq_refl)]. destruct H as [_ H]. exfalso. exact (numeral_ne _ _ B (eq_sym H)).
  - exfalso. change (s_ "bytes=-" ++ tn) with (s_ "bytes=" ++ "-"%char :: tn) in H. apply app_inv_head in H. destruct (numeral_head _ _ A) as (c & r & E & D). rewrite E in H.
    injection H as <- _. apply D. reflexivity.
Qed.
Lemma selects_offset a len f l : selects (s_ "bytes=" ++ digits a ++ s_ "-") len f l -> (a < len)%N /\ f = a /\ l = (len - 1)%N.
Proof.
  pose proof (digits_numeral a) as A. intros S. remember (s_ "bytes=" ++ digits a ++ s_ "-") as h eqn:H.
  destruct S as [ta a' tb b' len A' B' L1 L2|ta a' len A' L2|tn n len N P L].
  - apply app_inv_head in H. change (ta ++ s_ "-" ++ tb) with (ta ++ "-"%char :: tb) in H. change (digits a ++ s_ "-") with (digits a ++ "-"%char :: []) in H.
    apply sep_unique in H; [|exact (no_char "-" ta a' A' eq_refl)|exact (no_char "-" _ a A eq_refl)]. destruct H as [_ ->]. exfalso. exact (numeral_ne _ _ B' eq_refl).
  - apply app_inv_head in H. apply app_inv_tail in H. subst ta. pose proof (numeral_fun _ _ _ A A'). subst. split; [exact L2|]. split; reflexivity.
  - exfalso. change (s_ "bytes=-" ++ tn) with (s_ "bytes=" ++ "-"%char :: tn) in H. apply app_inv_head in H. destruct (numeral_head _ _ A) as (c & r & E & D). rewrite E in H.
    injection H as <- _. apply D. reflexivity.
Qed.
Lemma selects_suffix n len f l : selects (s_ "bytes=-" ++ digits n) len f l -> (0 < n)%N /\ (0 < len)%N /\ f = (len - N.min n len)%N /\ l = (len - 1)%N.
Proof.
  pose proof (digits_numeral n) as A. intros S. remember (s_ "bytes=-" ++ digits n) as h eqn:H.
  destruct S as [ta a' tb b' len A' B' L1 L2|ta a' len A' L2|tn n' len N P L].
  - exfalso. change (s_ "bytes=-" ++ digits n) with (s_ "bytes=" ++ "-"%char :: digits n) in H. apply app_inv_head in H. destruct (numeral_head _ _ A') as (c & r & E & D). rewrite E in H.
    injection H as -> _. apply D. reflexivity.
  - exfalso. change (s_ "bytes=-" ++ digits n) with (s_ "bytes=" ++ "-"%char :: digits n) in H. apply app_inv_head in H. destruct (numeral_head _ _ A') as (c & r & E & D). rewrite E in H.
    injection H as -> _. apply D. reflexivity.
  - apply app_inv_head in H. subst tn. pose proof (numeral_fun _ _ _ A N). subst. split; [exact P|]. split; [exact L|]. split; reflexivity.
Qed.
Lemma bytes_clip f a e : (a < size_of f)%N -> bytes f a (N.min e (size_of f - 1)) = bytes f a e.
Proof.
  unfold bytes, size_of. intros H. destruct (N.le_gt_cases e (N.of_nat (List.length f) - 1)) as [L|L]; [rewrite N.min_l by exact L; reflexivity|]. rewrite N.min_r by lia.
  rewrite !firstn_all2; [reflexivity| |]; rewrite skipn_length; lia.
Qed.
