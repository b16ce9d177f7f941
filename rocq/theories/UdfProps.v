(** C58, C59, C60, C89, C90: user defined functions in WebAssembly.

    Specification: [UdfSpec].  Model of src/wasm_udf: [UdfModel]. *)
From Coq Require Import List ZArith Lia Bool.
From Verif Require Import UdfModel UdfSpec UdfProofs.
Import ListNotations.
Open Scope Z_scope.

(* ================================================================== *)
(** * A module for the examples *)

(** [alloc] grows the memory and returns the old end; the function copies what
    follows the one-byte array header of its argument list behind a new length;
    [dealloc] does nothing. *)
Definition echo_run (st : store unit) (p : Z) : option (store unit * Z) :=
  match mread (st_mem st) p 4 with
  | None => None
  | Some b4 =>
      match mread (st_mem st) (p + 4) (unle b4) with
      | None => None
      | Some buf =>
          let body := skipn 1 buf in
          Some (mkStore (st_mem st ++ le 4 (zlen body) ++ body) tt, zlen (st_mem st))
      end
  end.
Definition echo_module : wmodule unit :=
  mkModule unit (mkStore [] tt)
    (fun st n => Some (mkStore (st_mem st ++ repeat 0 (Z.to_nat n + 8)) tt, zlen (st_mem st)))
    (fun st _ _ => Some st)
    echo_run.

Lemma enc_one : forall v, zlen (enc (MArr [v])) = 1 + zlen (enc v).
Proof.
  intros v. cbn [enc flat_map]. rewrite app_nil_r, zlen_app. reflexivity.
Qed.

Lemma echo_body : forall v, skipn 1 (enc (MArr [v])) = enc v.
Proof. intros v. cbn [enc flat_map]. rewrite app_nil_r. reflexivity. Qed.

Lemma echo_echoes : echoes echo_module.
Proof.
  intros st st' p q v Hv Hh H. cbn [m_udf echo_module] in H. unfold echo_run in H.
  rewrite (holds_size _ _ _ Hh) in H.
  pose proof Hh as (Hp & Hl & Hsz & _).
  pose proof (zlen_nonneg (enc (MArr [v]))) as Hn.
  assert (Hs : unle (le 4 (zlen (enc (MArr [v])))) = zlen (enc (MArr [v]))).
  { rewrite unle_le. change (256 ^ Z.of_nat 4) with (2 ^ 32). apply Z.mod_small. lia. }
  rewrite Hs, (holds_body _ _ _ Hh), echo_body in H. cbv zeta in H.
  assert (Hst : st' = mkStore (st_mem st ++ le 4 (zlen (enc v)) ++ enc v) tt) by congruence.
  assert (Hq : q = zlen (st_mem st)) by congruence.
  subst st' q. clear H. cbn [st_mem].
  assert (Hz : zlen (enc (MArr [v])) = 1 + zlen (enc v)).
  { apply enc_one. }
  assert (H4 : zlen (le 4 (zlen (enc v))) = 4) by (unfold zlen at 1; now rewrite le_length).
  assert (Hnat : Z.to_nat (zlen (st_mem st)) = length (st_mem st)) by (unfold zlen; lia).
  split; [apply zlen_nonneg|]. split; [|split; [lia|split]].
  - rewrite !zlen_app, H4. lia.
  - intros i Hi. rewrite Hnat.
    rewrite nth_error_app2 by lia.
    replace (length (st_mem st) + i - length (st_mem st))%nat with i by lia.
    rewrite nth_error_app1 by (rewrite le_length; lia). now apply nth_le.
  - intros i Hi. rewrite Hnat.
    rewrite nth_error_app2 by lia.
    replace (length (st_mem st) + 4 + i - length (st_mem st))%nat with (4 + i)%nat by lia.
    rewrite nth_error_app2 by (rewrite le_length; lia).
    rewrite le_length. f_equal. lia.
Qed.

(** The module returns on every argument of less than 2 GB. *)
Lemma echo_call : forall st v, representable v -> zlen (enc v) < 2 ^ 31 - 16 ->
  exists st', call echo_module st [v] = UOk (st', v).
Proof.
  intros st v Hv Hlen. unfold call.
  assert (Hz : zlen (enc (MArr [v])) = 1 + zlen (enc v)).
  { apply enc_one. }
  pose proof (zlen_nonneg (enc v)) as Hn.
  assert (Hw : exists st1 p, write_udf_input echo_module st (MArr [v])
                             = UOk (st1, p, zlen (enc (MArr [v])) + 4)).
  { unfold write_udf_input, size_bytes.
    replace (zlen (enc (MArr [v])) + 4 <? two31) with true
      by (symmetry; apply Z.ltb_lt; change two31 with (2 ^ 31); lia).
    cbn [negb m_alloc echo_module].
    pose proof (zlen_nonneg (st_mem st)) as Hm.
    replace (zlen (st_mem st) <? 0) with false by (symmetry; apply Z.ltb_ge; lia).
    cbn [st_mem st_glob].
    set (big := st_mem st ++ repeat 0 (Z.to_nat (zlen (enc (MArr [v])) + 4) + 8)).
    assert (Hbig : zlen big = zlen (st_mem st) + zlen (enc (MArr [v])) + 12).
    { unfold big. rewrite zlen_app. unfold zlen at 2. rewrite repeat_length. lia. }
    assert (H8 : zlen (le 8 (zlen (enc (MArr [v])))) = 8)
      by (unfold zlen at 1; now rewrite le_length).
    destruct (mwrite big (zlen (st_mem st)) (le 8 (zlen (enc (MArr [v]))))) as [mem2|] eqn:E1.
    - pose proof (mwrite_length _ _ _ _ Hm E1) as Hl2.
      assert (Hl2' : zlen mem2 = zlen big) by (unfold zlen; lia).
      unfold mwrite at 1.
      replace (zlen (st_mem st) + 4 + zlen (enc (MArr [v])) <=? zlen mem2) with true
        by (symmetry; apply Z.leb_le; lia).
      eexists. exists (zlen (st_mem st)). reflexivity.
    - exfalso. unfold mwrite in E1.
      replace (zlen (st_mem st) + zlen (le 8 (zlen (enc (MArr [v])))) <=? zlen big) with true
        in E1 by (symmetry; apply Z.leb_le; lia).
      discriminate. }
  destruct Hw as (st1 & p & Hw). rewrite Hw. cbn [obind].
  destruct (write_holds _ _ _ _ _ _ _ Hw) as (st0 & mem2 & _ & Hp & _ & Hlt & Hw1 & Hw2 & _).
  assert (Hz1 : zlen (enc (MArr [v])) < 2 ^ 31) by lia.
  pose proof (two_writes_hold _ _ _ _ _ Hp Hz1 Hw1 Hw2) as Hh.
  assert (Hu : exists st2 q, m_udf echo_module st1 p = Some (st2, q)).
  { cbn [m_udf echo_module]. unfold echo_run. rewrite (holds_size _ _ _ Hh).
    assert (Hs : unle (le 4 (zlen (enc (MArr [v])))) = zlen (enc (MArr [v]))).
    { rewrite unle_le. change (256 ^ Z.of_nat 4) with (2 ^ 32). apply Z.mod_small. lia. }
    rewrite Hs, (holds_body _ _ _ Hh). eexists. eexists. reflexivity. }
  destruct Hu as (st2 & q & Hu). rewrite Hu.
  pose proof (echo_echoes _ _ _ _ _ Hv Hh Hu) as Hr.
  rewrite (read_holds _ _ _ _ Hv Hr).
  replace (zlen (enc v) + 4 <? 2 ^ 31) with true by (symmetry; apply Z.ltb_lt; lia).
  cbn [obind m_dealloc echo_module]. eexists. reflexivity.
Qed.

(* ================================================================== *)
(** * C58: values round trip *)

Lemma i64_bounds : forall z, - 2 ^ 63 <= as_i64 z < 2 ^ 63.
Proof.
  intros z. unfold as_i64, signed. change (2 ^ (64 - 1)) with (2 ^ 63).
  change two64 with (2 ^ 64).
  pose proof (Z.mod_pos_bound z (2 ^ 64) ltac:(lia)).
  destruct (z mod 2 ^ 64 <? 2 ^ 63) eqn:E; [apply Z.ltb_lt in E | apply Z.ltb_ge in E]; lia.
Qed.

Lemma decimal_bounds_ok : forall p s, decimal_ok p s = true -> 1 <= p <= 38 /\ s <= p.
Proof.
  intros p s H. unfold decimal_ok in H.
  apply andb_true_iff in H as [H H4]. apply andb_true_iff in H as [H H3].
  apply andb_true_iff in H as [H1 H2].
  apply Z.leb_le in H1, H2, H3. split; [lia|].
  apply orb_true_iff in H4 as [H4|H4].
  - apply negb_true_iff in H4. apply Z.ltb_ge in H4. lia.
  - now apply Z.leb_le in H4.
Qed.

Lemma fits_representable : forall w t x, fits w t x ->
  (match t with FDECIMAL p s => decimal_ok p s = true /\ 0 <= s | _ => True end) ->
  representable (value_from t x).
Proof.
  intros w t x H Hd.
  destruct t; destruct x; cbn [fits] in H; try contradiction; cbn [value_from];
    try (constructor; lia); try constructor; try (destruct H; lia).
  - cbn. lia.
  - destruct Hd as [Hd Hs]. apply decimal_bounds_ok in Hd as [Hp Hsp].
    repeat apply Forall_cons; try apply Forall_nil; constructor; try lia;
      match goal with |- context [as_i64 ?e] => pose proof (i64_bounds e); lia end.
Qed.

Lemma int_back : forall bits z, 1 <= bits <= 64 ->
  - 2 ^ (bits - 1) <= z < 2 ^ (bits - 1) -> dec_int bits (MInt z) = UOk (XInt z).
Proof.
  intros bits z Hb Hz. unfold dec_int, m_i64.
  assert (2 ^ (bits - 1) <= 2 ^ 63) by (apply Z.pow_le_mono_r; lia).
  replace (- 2 ^ 63 <=? z) with true by (symmetry; apply Z.leb_le; lia).
  replace (z <? 2 ^ 63) with true by (symmetry; apply Z.ltb_lt; lia). cbn [andb].
  replace (- 2 ^ (bits - 1) <=? z) with true by (symmetry; apply Z.leb_le; lia).
  replace (z <? 2 ^ (bits - 1)) with true by (symmetry; apply Z.ltb_lt; lia). reflexivity.
Qed.

(** Every value except decimals comes back from the wire as it was sent. *)
Lemma value_back : forall w t x, fits w t x -> is_decimal t = false ->
  decode_value w t (value_from t x) = UOk x.
Proof.
  intros w t x H Hd.
  destruct t; destruct x; cbn [fits] in H; try contradiction; try discriminate Hd;
    cbn [value_from decode_value]; try reflexivity;
    try (apply int_back; [lia | cbn in *; lia]).
  - destruct H as [-> _]. reflexivity.
  - destruct H as [-> _]. reflexivity.
  - destruct H as [-> _]. reflexivity.
Qed.

(** What a decimal comes back as. *)
Definition decimal_back (v : Z) : Z := if v mod 2 ^ 64 <? 2 ^ 63 then v else v - 2 ^ 64.

Lemma m_i64_ok : forall z, m_i64 (MInt (as_i64 z)) = Some (as_i64 z).
Proof.
  intros z. unfold m_i64. pose proof (i64_bounds z).
  replace (- 2 ^ 63 <=? as_i64 z) with true by (symmetry; apply Z.leb_le; lia).
  replace (as_i64 z <? 2 ^ 63) with true by (symmetry; apply Z.ltb_lt; lia). reflexivity.
Qed.

Lemma as_i64_small : forall z, - 2 ^ 63 <= z < 2 ^ 63 -> as_i64 z = z.
Proof.
  intros z Hz. unfold as_i64. change two64 with (2 ^ 64).
  apply signed_mod; [lia|]. exact Hz.
Qed.

Lemma join_back : forall v, - 10 ^ 38 < v < 10 ^ 38 ->
  join_halves (as_i64 (v / two64)) (as_i64 v) = decimal_back v.
Proof.
  intros v Hv. unfold join_halves, decimal_back.
  change two64 with (2 ^ 64).
  assert (Hd : - 2 ^ 63 <= v / 2 ^ 64 < 2 ^ 63).
  { split.
    - apply Z.div_le_lower_bound; lia.
    - apply Z.div_lt_upper_bound; lia. }
  rewrite (as_i64_small (v / 2 ^ 64) Hd).
  unfold as_i64 at 1. change two64 with (2 ^ 64). unfold signed at 2.
  change (2 ^ (64 - 1)) with (2 ^ 63).
  pose proof (Z.div_mod v (2 ^ 64) ltac:(lia)) as Hdm.
  destruct (v mod 2 ^ 64 <? 2 ^ 63) eqn:E.
  - replace (v mod 2 ^ 64 + v / 2 ^ 64 * 2 ^ 64) with v by lia.
    apply signed_mod; [lia|]. change (128 - 1) with 127. lia.
  - replace (v mod 2 ^ 64 - 2 ^ 64 + v / 2 ^ 64 * 2 ^ 64) with (v - 2 ^ 64) by lia.
    apply signed_mod; [lia|]. change (128 - 1) with 127. lia.
Qed.

Lemma pow10_le : forall p, 0 <= p <= 38 -> 10 ^ p <= 10 ^ 38.
Proof. intros p Hp. apply Z.pow_le_mono_r; lia. Qed.

Lemma decimal_value_back : forall w p s v,
  decimal_ok p s = true -> 0 <= s -> - 10 ^ p < v < 10 ^ p ->
  decode_value w (FDECIMAL p s) (value_from (FDECIMAL p s) (XDec v))
  = UOk (XDec (decimal_back v)).
Proof.
  intros w p s v Hok Hs Hv. apply decimal_bounds_ok in Hok as [Hp Hsp].
  pose proof (pow10_le p ltac:(lia)).
  cbn [value_from decode_value dec_decimal].
  unfold m_u64.
  replace (0 <=? p) with true by (symmetry; apply Z.leb_le; lia).
  replace (p <? 2 ^ 64) with true by (symmetry; apply Z.ltb_lt; lia).
  replace (0 <=? s) with true by (symmetry; apply Z.leb_le; lia).
  replace (s <? 2 ^ 64) with true by (symmetry; apply Z.ltb_lt; lia).
  cbn [andb].
  replace (p <? 256) with true by (symmetry; apply Z.ltb_lt; lia).
  replace (s <? 128) with true by (symmetry; apply Z.ltb_lt; lia).
  rewrite !Z.eqb_refl. cbn [negb]. rewrite !m_i64_ok.
  rewrite join_back by lia. reflexivity.
Qed.

(** Echoing through any module that returns its argument. *)
Lemma echoes_computes : forall G (m : wmodule G), echoes m ->
  forall st st' v r, representable v ->
  call m st [v] = UOk (st', r) -> r = v.
Proof.
  intros G m He st st' v r Hv H. unfold call in H.
  destruct (write_udf_input m st (MArr [v])) as [[[st1 p] size]| |] eqn:Ew;
    cbn [obind] in H; try discriminate.
  destruct (write_holds _ _ _ _ _ _ _ Ew) as (st0 & mem2 & Ha & Hp & Hsz & Hlt & Hw1 & Hw2 & _).
  assert (Hz : zlen (enc (MArr [v])) < 2 ^ 31) by lia.
  pose proof (two_writes_hold _ _ _ _ _ Hp Hz Hw1 Hw2) as Hh.
  destruct (m_udf m st1 p) as [[st2 q]|] eqn:Eu; [|discriminate].
  pose proof (He _ _ _ _ _ Hv Hh Eu) as Hr.
  rewrite (read_holds _ _ _ _ Hv Hr) in H.
  destruct (zlen (enc v) + 4 <? 2 ^ 31); cbn [obind] in H; [|discriminate].
  destruct (m_dealloc m st2 p size) as [st3|]; [|discriminate].
  destruct (m_dealloc m st3 q _) as [st4|]; [|discriminate].
  now injection H as _ <-.
Qed.

Lemma echo_row : forall t a r, a_type a = arrow_type t ->
  encode_row [t] [a] r = match nth_error (a_slots a) r with
                         | None => UPanic
                         | Some s => UOk [value_from t (s_val s)]
                         end.
Proof.
  intros t a r Ht. unfold encode_row. cbn [length seq combine omap].
  unfold encode_input, get_value. cbn [nth_error]. rewrite Ht.
  replace (atype_eqb (arrow_type t) (arrow_type t)) with true
    by (now destruct (arrow_type t)).
  destruct (nth_error (a_slots a) r); reflexivity.
Qed.

Lemma echo_rows : forall G (m : wmodule G) t a, echoes m -> a_type a = arrow_type t ->
  Forall (fun s => representable (value_from t (s_val s))) (a_slots a) ->
  forall rows st vs,
  run_rows m [t] [a] rows st = UOk vs ->
  Forall2 (fun r v => exists s, nth_error (a_slots a) r = Some s /\ v = value_from t (s_val s))
          rows vs.
Proof.
  intros G m t a He Ht Hrep rows. induction rows as [|r rs IH]; intros st vs H;
    cbn [run_rows] in H.
  - injection H as <-. constructor.
  - rewrite (echo_row t a r Ht) in H.
    destruct (nth_error (a_slots a) r) as [s|] eqn:En; cbn [obind] in H; [|discriminate].
    destruct (call m st [value_from t (s_val s)]) as [[st' v]| |] eqn:Ec; cbn [obind] in H;
      try discriminate.
    destruct (run_rows m [t] [a] rs st') as [vs'| |] eqn:Er; cbn [obind] in H; try discriminate.
    injection H as <-. constructor.
    + exists s. split; [assumption|].
      assert (Hs : representable (value_from t (s_val s))).
      { rewrite Forall_forall in Hrep. apply Hrep. now apply nth_error_In with r. }
      exact (echoes_computes _ _ He _ _ _ _ Hs Ec).
    + exact (IH st' vs' Er).
Qed.

Lemma rows_all : forall (R : slot -> mval -> Prop) slots vs k,
  Forall2 (fun r v => exists s, nth_error slots (r - k) = Some s /\ R s v)
          (seq k (length slots)) vs ->
  Forall2 R slots vs.
Proof.
  intros R slots. induction slots as [|s slots IH]; intros vs k H; cbn [length seq] in H.
  - inversion H; subst. constructor.
  - inversion H as [|? v ? vs' Hv Ht]; subst. constructor.
    + destruct Hv as (s' & Hs' & HR). rewrite Nat.sub_diag in Hs'. now injection Hs' as <-.
    + apply IH with (S k).
      assert (Hin : Forall (fun r => (S k <= r)%nat) (seq (S k) (length slots))).
      { apply Forall_forall. intros r Hr. apply in_seq in Hr. lia. }
      clear -Ht Hin. revert Hin. induction Ht as [|r v' rs vs Hr Ht IHt]; intros Hin; constructor.
      * inversion Hin; subst. destruct Hr as (s' & Hs' & HR). exists s'. split; [|assumption].
        replace (r - k)%nat with (S (r - S k)) in Hs' by lia. exact Hs'.
      * inversion Hin; subst. now apply IHt.
Qed.

Lemma to_arrays_one : forall a, to_arrays [CArray a] = [a].
Proof. reflexivity. Qed.

(** What a module that returns its argument gives for a whole column, in terms of
    what comes back of each value. *)
Lemma echo_column : forall G (m : wmodule G) w t a out (back : scal -> scal),
  echoes m -> a_type a = arrow_type t ->
  Forall (fun s => representable (value_from t (s_val s)) /\
                   decode_value w t (value_from t (s_val s)) = UOk (back (s_val s))) (a_slots a) ->
  udf_messagepack w m [t] t [CArray a] = UOk out ->
  out = mkArray (arrow_type t) (map (fun s => mkSlot true (back (s_val s))) (a_slots a)).
Proof.
  intros G m w t a out back He Ht Hall H. unfold udf_messagepack in H.
  cbn [length Nat.eqb negb] in H. rewrite to_arrays_one in H.
  destruct (run_rows m [t] [a] (seq 0 (length (a_slots a))) (m_init m)) as [vs| |] eqn:Er;
    cbn [obind] in H; try discriminate.
  assert (Hrep : Forall (fun s => representable (value_from t (s_val s))) (a_slots a)).
  { eapply Forall_impl; [|exact Hall]. intros s Hs. apply Hs. }
  pose proof (echo_rows _ _ _ _ He Ht Hrep _ _ _ Er) as Hv.
  assert (Hv' : Forall2 (fun s v => v = value_from t (s_val s)) (a_slots a) vs).
  { apply rows_all with 0%nat.
    clear -Hv. induction Hv as [|r v rs vs Hr Ht IH]; constructor; [|assumption].
    rewrite Nat.sub_0_r. exact Hr. }
  unfold decode_results in H.
  assert (Ho : omap (decode_value w t) vs = UOk (map (fun s => back (s_val s)) (a_slots a))).
  { apply omap_intro. clear -Hv' Hall. induction Hv' as [|s v slots vs Hs Ht IH]; cbn [map];
      constructor.
    - inversion Hall as [|? ? Hh Hr]; subst. apply Hh.
    - inversion Hall; subst. now apply IH. }
  rewrite Ho in H. cbn [obind] in H. cbv zeta in H. rewrite map_map in H.
  destruct t; try (injection H as <-; reflexivity).
  destruct (decimal_ok precision scale); [|discriminate].
  injection H as <-. reflexivity.
Qed.

(** C58 for every type but DECIMAL and for columns without NULL: whenever a module
    that returns its argument unchanged returns, the result is the input column. *)
Theorem c58_partial : forall G (m : wmodule G) w t a out,
  echoes m ->
  is_decimal t = false ->
  a_type a = arrow_type t ->
  Forall (fun s => s_valid s = true /\ fits w t (s_val s)) (a_slots a) ->
  udf_messagepack w m [t] t [CArray a] = UOk out ->
  sql_column out = sql_column a /\ a_type out = a_type a.
Proof.
  intros G m w t a out He Hd Ht Hall H.
  assert (Hb : Forall (fun s => representable (value_from t (s_val s)) /\
                 decode_value w t (value_from t (s_val s)) = UOk ((fun x => x) (s_val s)))
                      (a_slots a)).
  { eapply Forall_impl; [|exact Hall]. intros s [_ Hs]. split.
    - apply fits_representable with w; [assumption|]. now destruct t.
    - now apply value_back. }
  rewrite (echo_column _ _ _ _ _ _ _ He Ht Hb H).
  unfold sql_column. cbn [a_slots a_type]. split; [|now rewrite Ht].
  rewrite map_map. apply map_ext_in. intros s Hin.
  rewrite Forall_forall in Hall. destruct (Hall s Hin) as [Hv _].
  unfold sql_value. cbn [s_valid s_val]. now rewrite Hv.
Qed.
Print Assumptions c58_partial.

(** C58, DECIMAL: what exactly comes back. *)
Theorem c58_decimal : forall G (m : wmodule G) w p s a out,
  echoes m ->
  decimal_ok p s = true -> 0 <= s ->
  a_type a = ADecimal p s ->
  Forall (fun x => s_valid x = true /\ fits w (FDECIMAL p s) (s_val x)) (a_slots a) ->
  udf_messagepack w m [FDECIMAL p s] (FDECIMAL p s) [CArray a] = UOk out ->
  sql_column out
  = map (fun o => match o with
                  | Some (XDec v) =>
                      Some (XDec (if v mod 2 ^ 64 <? 2 ^ 63 then v else v - 2 ^ 64))
                  | other => other
                  end) (sql_column a).
Proof.
  intros G m w p s a out He Hok Hs Ht Hall H.
  set (back := fun x => match x with XDec v => XDec (decimal_back v) | y => y end).
  assert (Hb : Forall (fun x => representable (value_from (FDECIMAL p s) (s_val x)) /\
                 decode_value w (FDECIMAL p s) (value_from (FDECIMAL p s) (s_val x))
                 = UOk (back (s_val x))) (a_slots a)).
  { eapply Forall_impl; [|exact Hall]. intros x [_ Hx]. split.
    - apply fits_representable with w; [assumption|]. now split.
    - destruct (s_val x); try (cbn in Hx; contradiction).
      now apply decimal_value_back. }
  rewrite (echo_column _ _ _ (FDECIMAL p s) _ _ _ He Ht Hb H).
  unfold sql_column. cbn [a_slots]. rewrite !map_map. apply map_ext_in. intros x Hin.
  rewrite Forall_forall in Hall. destruct (Hall x Hin) as [Hv Hx].
  unfold sql_value. cbn [s_valid s_val]. rewrite Hv.
  destruct (s_val x); try (cbn in Hx; contradiction). reflexivity.
Qed.
Print Assumptions c58_decimal.

(** Running [echo_module] always succeeds on values under 2 GB. *)
Lemma echo_runs : forall t a, a_type a = arrow_type t ->
  Forall (fun s => representable (value_from t (s_val s)) /\
                   zlen (enc (value_from t (s_val s))) < 2 ^ 31 - 16) (a_slots a) ->
  forall rows st, Forall (fun r => (r < length (a_slots a))%nat) rows ->
  exists vs, run_rows echo_module [t] [a] rows st = UOk vs.
Proof.
  intros t a Ht Hall rows. induction rows as [|r rs IH]; intros st Hr; cbn [run_rows].
  - eexists. reflexivity.
  - inversion Hr as [|? ? Hlt Hrs]; subst. rewrite (echo_row t a r Ht).
    destruct (nth_error (a_slots a) r) as [s|] eqn:En.
    + cbn [obind]. rewrite Forall_forall in Hall.
      destruct (Hall s (nth_error_In _ _ En)) as [H1 H2].
      destruct (echo_call st _ H1 H2) as [st' ->]. cbn [obind].
      destruct (IH st' Hrs) as [vs ->]. cbn [obind]. eexists. reflexivity.
    + apply nth_error_None in En. lia.
Qed.

Lemma echo_udf : forall w t a (back : scal -> scal), a_type a = arrow_type t ->
  match t with FDECIMAL p s => decimal_ok p s = true | _ => True end ->
  Forall (fun s => representable (value_from t (s_val s)) /\
                   zlen (enc (value_from t (s_val s))) < 2 ^ 31 - 16 /\
                   decode_value w t (value_from t (s_val s)) = UOk (back (s_val s)))
         (a_slots a) ->
  udf_messagepack w echo_module [t] t [CArray a]
  = UOk (mkArray (arrow_type t) (map (fun s => mkSlot true (back (s_val s))) (a_slots a))).
Proof.
  intros w t a back Ht Hd Hall.
  assert (H1 : Forall (fun s => representable (value_from t (s_val s)) /\
                 zlen (enc (value_from t (s_val s))) < 2 ^ 31 - 16) (a_slots a)).
  { eapply Forall_impl; [|exact Hall]. intros s (A & B & _). now split. }
  assert (H2 : Forall (fun s => representable (value_from t (s_val s)) /\
                 decode_value w t (value_from t (s_val s)) = UOk (back (s_val s))) (a_slots a)).
  { eapply Forall_impl; [|exact Hall]. intros s (A & _ & B). now split. }
  assert (Hrows : Forall (fun r => (r < length (a_slots a))%nat) (seq 0 (length (a_slots a)))).
  { apply Forall_forall. intros r Hr. apply in_seq in Hr. lia. }
  destruct (echo_runs t a Ht H1 (seq 0 (length (a_slots a))) (m_init echo_module) Hrows)
    as [vs Hvs].
  assert (Hrep : Forall (fun s => representable (value_from t (s_val s))) (a_slots a)).
  { eapply Forall_impl; [|exact H1]. intros s Hs. apply Hs. }
  pose proof (echo_rows _ _ _ _ echo_echoes Ht Hrep _ _ _ Hvs) as Hv.
  assert (Hv' : Forall2 (fun s v => v = value_from t (s_val s)) (a_slots a) vs).
  { apply rows_all with 0%nat.
    clear -Hv. induction Hv as [|r v rs vs Hr Ht IH]; constructor; [|assumption].
    rewrite Nat.sub_0_r. exact Hr. }
  unfold udf_messagepack. cbn [length Nat.eqb negb]. rewrite to_arrays_one, Hvs. cbn [obind].
  unfold decode_results.
  assert (Ho : omap (decode_value w t) vs = UOk (map (fun s => back (s_val s)) (a_slots a))).
  { apply omap_intro. clear -Hv' H2. induction Hv' as [|s v slots vs Hs Ht IH]; cbn [map];
      constructor.
    - inversion H2 as [|? ? Hh Hr]; subst. apply Hh.
    - inversion H2; subst. now apply IH. }
  rewrite Ho. cbn [obind]. cbv zeta. rewrite map_map.
  destruct t; try reflexivity. now rewrite Hd.
Qed.

(** The hypotheses are met: there is a module that returns its argument, and on
    every column without NULL of values under 2 GB it does return. *)
Theorem c58_echo_returns : forall w t a,
  is_decimal t = false ->
  a_type a = arrow_type t ->
  Forall (fun s => s_valid s = true /\ fits w t (s_val s) /\
                   zlen (enc (value_from t (s_val s))) < 2 ^ 31 - 16) (a_slots a) ->
  echoes echo_module /\ udf_messagepack w echo_module [t] t [CArray a] = UOk a.
Proof.
  intros w t a Hd Ht Hall. split; [exact echo_echoes|].
  rewrite (echo_udf w t a (fun x => x) Ht).
  - f_equal. destruct a as [at0 slots]. cbn [a_type a_slots] in *. subst at0. f_equal.
    rewrite <- (map_id slots) at 2. apply map_ext_in. intros s Hin.
    rewrite Forall_forall in Hall. destruct (Hall s Hin) as (Hv & _ & _).
    destruct s as [va x]. cbn in Hv |- *. now rewrite Hv.
  - now destruct t.
  - eapply Forall_impl; [|exact Hall]. intros s (_ & Hf & Hl). split; [|split].
    + apply fits_representable with w; [assumption|]. now destruct t.
    + assumption.
    + now apply value_back.
Qed.
Print Assumptions c58_echo_returns.

Lemma enc_int_short : forall z, (length (enc_int z) <= 9)%nat.
Proof.
  intros z. unfold enc_int.
  repeat match goal with |- context [if ?c then _ else _] => destruct c end;
    cbn [length]; rewrite ?be_length; lia.
Qed.

Lemma decimal_enc_short : forall p s v,
  zlen (enc (value_from (FDECIMAL p s) (XDec v))) < 2 ^ 31 - 16.
Proof.
  intros p s v. cbn [value_from enc flat_map]. rewrite app_nil_r.
  change (enc_arr_head (zlen [MInt p; MInt s; MInt (as_i64 (v / two64)); MInt (as_i64 v)]))
    with [148].
  rewrite !zlen_app. unfold zlen. cbn [length].
  pose proof (enc_int_short p). pose proof (enc_int_short s).
  pose proof (enc_int_short (as_i64 v)). pose proof (enc_int_short (as_i64 (v / two64))).
  lia.
Qed.

(** C58 fails for decimals: the low half is read back as a signed number.  Every
    decimal whose 64th bit from below is set, among them every small negative one,
    comes back smaller by 2^64. *)
Theorem c58_decimal_refuted : forall w p s v,
  decimal_ok p s = true -> 0 <= s ->
  - 10 ^ p < v < 10 ^ p ->
  2 ^ 63 <= v mod 2 ^ 64 ->
  let a := mkArray (ADecimal p s) [mkSlot true (XDec v)] in
  echoes echo_module /\
  udf_messagepack w echo_module [FDECIMAL p s] (FDECIMAL p s) [CArray a]
  = UOk (mkArray (ADecimal p s) [mkSlot true (XDec (v - 2 ^ 64))]).
Proof.
  intros w p s v Hok Hs Hv Hbit a. split; [exact echo_echoes|].
  set (back := fun x => match x with XDec v => XDec (decimal_back v) | y => y end).
  rewrite (echo_udf w (FDECIMAL p s) a back).
  - unfold a. cbn [a_slots map s_val back arrow_type]. unfold back, decimal_back.
    replace (v mod 2 ^ 64 <? 2 ^ 63) with false by (symmetry; apply Z.ltb_ge; lia).
    reflexivity.
  - reflexivity.
  - assumption.
  - unfold a. cbn [a_slots]. constructor; [|constructor]. cbn [s_val].
    split; [|split].
    + apply fits_representable with w; [exact Hv | now split].
    + apply decimal_enc_short.
    + now apply decimal_value_back.
Qed.
Print Assumptions c58_decimal_refuted.

(** Every negative decimal down to -2^63 is one of them: -1 comes back as
    -18446744073709551617. *)
Theorem c58_negative_decimal_refuted : forall w p s v,
  decimal_ok p s = true -> 0 <= s ->
  - 10 ^ p < v < 0 -> - 2 ^ 63 <= v ->
  exists out,
    udf_messagepack w echo_module [FDECIMAL p s] (FDECIMAL p s)
      [CArray (mkArray (ADecimal p s) [mkSlot true (XDec v)])] = UOk out /\
    sql_column out <> [Some (XDec v)].
Proof.
  intros w p s v Hok Hs Hv Hlow.
  assert (Hm : v mod 2 ^ 64 = v + 2 ^ 64).
  { symmetry. apply Z.mod_unique with (-1); lia. }
  eexists. split.
  - apply (c58_decimal_refuted w p s v); try assumption; lia.
  - cbn. intros H. injection H as H. lia.
Qed.
Print Assumptions c58_negative_decimal_refuted.

(** A decimal with a negative scale never comes back at all. *)
Theorem c58_negative_scale_refuted : forall G (m : wmodule G) w tys p s args out,
  s < 0 ->
  udf_messagepack w m tys (FDECIMAL p s) args = UOk out -> a_slots out = [].
Proof.
  intros G m w tys p s args out Hs H. unfold udf_messagepack in H.
  destruct (negb _); [discriminate|]. cbv zeta in H.
  destruct (to_arrays args) as [|a0 rest]; [discriminate|].
  destruct (run_rows _ _ _ _ _) as [vs| |]; cbn [obind] in H; try discriminate.
  unfold decode_results in H.
  destruct (omap (decode_value w (FDECIMAL p s)) vs) as [xs| |] eqn:Eo; cbn [obind] in H;
    try discriminate.
  cbv zeta in H. destruct (decimal_ok p s); [|discriminate]. injection H as <-.
  cbn [a_slots]. destruct vs as [|v vs]; cbn [omap] in Eo; [injection Eo as <-; reflexivity|].
  exfalso. cbn [decode_value] in Eo.
  assert (Hd : dec_decimal p s v = UErr).
  { unfold dec_decimal.
    destruct v as [| | | | | |[|vp [|vs' [|vh [|vl [|]]]]]]; try reflexivity.
    destruct (m_u64 vp) as [p'|]; [|reflexivity].
    destruct (negb (p' <? 256)); [reflexivity|]. destruct (negb (p' =? p)); [reflexivity|].
    destruct (m_u64 vs') as [s'|] eqn:Es; [|reflexivity].
    destruct (negb (s' <? 128)); [reflexivity|].
    destruct (s' =? s) eqn:E; cbn [negb]; [|reflexivity].
    apply Z.eqb_eq in E. exfalso. unfold m_u64 in Es. destruct vs'; try discriminate.
    destruct ((0 <=? z) && (z <? 2 ^ 64)) eqn:Eb; [|discriminate].
    injection Es as <-. apply andb_true_iff in Eb as [Eb _]. apply Z.leb_le in Eb. lia. }
  rewrite Hd in Eo. discriminate.
Qed.
Print Assumptions c58_negative_scale_refuted.

(** The type DECIMAL of a CREATE FUNCTION statement: no function declared to
    return it ever returns, whatever the module does. *)
Theorem c58_named_decimal_refuted : forall G (m : wmodule G) w tys args out,
  udf_messagepack w m tys named_decimal args <> UOk out.
Proof.
  intros G m w tys args out H. unfold udf_messagepack in H.
  destruct (negb _); [discriminate|]. cbv zeta in H.
  destruct (to_arrays args) as [|a0 rest]; [discriminate|].
  destruct (run_rows _ _ _ _ _) as [vs| |]; cbn [obind] in H; try discriminate.
  unfold decode_results, named_decimal in H.
  destruct (omap (decode_value w (FDECIMAL 0 0)) vs); cbn [obind] in H; try discriminate.
Qed.
Print Assumptions c58_named_decimal_refuted.

(** C58 fails for NULL: no module and no argument ever give a NULL, and a NULL
    argument reaches the function as the value that happens to be in the buffer. *)
Theorem c58_null_refuted : forall G (m : wmodule G) w tys ret args out,
  udf_messagepack w m tys ret args = UOk out -> ~ In None (sql_column out).
Proof.
  intros G m w tys ret args out H. unfold udf_messagepack in H.
  destruct (negb _); [discriminate|]. cbv zeta in H.
  destruct (to_arrays args) as [|a0 rest]; [discriminate|].
  destruct (run_rows _ _ _ _ _) as [vs| |]; cbn [obind] in H; try discriminate.
  unfold decode_results in H.
  destruct (omap (decode_value w ret) vs) as [xs| |]; cbn [obind] in H; try discriminate.
  cbv zeta in H.
  assert (Ho : out = mkArray (arrow_type ret) (map (mkSlot true) xs)).
  { destruct ret; try (injection H as <-; reflexivity).
    destruct (decimal_ok precision scale); [|discriminate]. injection H as <-. reflexivity. }
  subst out. unfold sql_column. cbn [a_slots]. rewrite map_map.
  intros Hin. apply in_map_iff in Hin as (x & Hx & _). discriminate Hx.
Qed.
Print Assumptions c58_null_refuted.

Theorem c58_null_becomes_value_refuted : forall w t filler,
  is_decimal t = false -> fits w t filler ->
  zlen (enc (value_from t filler)) < 2 ^ 31 - 16 ->
  udf_messagepack w echo_module [t] t [CArray (column t [None] filler)]
  = UOk (column t [Some filler] filler).
Proof.
  intros w t filler Hd Hf Hl.
  rewrite (echo_udf w t _ (fun x => x)).
  - reflexivity.
  - reflexivity.
  - now destruct t.
  - cbn [column a_slots map]. constructor; [|constructor]. cbn [s_val].
    split; [|split].
    + apply fits_representable with w; [assumption|]. now destruct t.
    + assumption.
    + now apply value_back.
Qed.
Print Assumptions c58_null_becomes_value_refuted.

(** Instances. *)
Definition w0 : world := mkWorld (fun _ => true) (fun z => z) (fun z => z).

Example c58_ints :
  udf_messagepack w0 echo_module [FBIGINT] FBIGINT
    [CArray (column FBIGINT [Some (XInt (-9223372036854775808)); Some (XInt 300)] (XInt 0))]
  = UOk (column FBIGINT [Some (XInt (-9223372036854775808)); Some (XInt 300)] (XInt 0)).
Proof. vm_compute. reflexivity. Qed.

Example c58_text :
  udf_messagepack w0 echo_module [FTEXT] FTEXT
    [CArray (column FTEXT [Some (XText [104; 105]); Some (XText [])] (XText []))]
  = UOk (column FTEXT [Some (XText [104; 105]); Some (XText [])] (XText [])).
Proof. vm_compute. reflexivity. Qed.

Example c58_decimal_minus_one :
  udf_messagepack w0 echo_module [FDECIMAL 38 2] (FDECIMAL 38 2)
    [CArray (column (FDECIMAL 38 2) [Some (XDec (-1)); Some (XDec 12345)] (XDec 0))]
  = UOk (column (FDECIMAL 38 2)
           [Some (XDec (-18446744073709551617)); Some (XDec 12345)] (XDec 0)).
Proof. vm_compute. reflexivity. Qed.

Example c58_null_is_zero :
  udf_messagepack w0 echo_module [FINT] FINT
    [CArray (column FINT [None; Some (XInt 5)] (XInt 0))]
  = UOk (column FINT [Some (XInt 0); Some (XInt 5)] (XInt 0)).
Proof. vm_compute. reflexivity. Qed.

(* ================================================================== *)
(** * C59: input buffers *)

(** What the module finds at the pointer it is given is the length-prefixed
    encoding, and the buffer it was asked for has exactly that size. *)
Theorem c59_contents : forall G (m : wmodule G) st v st' p size,
  write_udf_input m st v = UOk (st', p, size) ->
  holds (st_mem st') p (enc v) /\ size = 4 + zlen (enc v) /\
  exists st1, m_alloc m st size = Some (st1, p).
Proof.
  intros G m st v st' p size H.
  destruct (write_holds _ _ _ _ _ _ _ H) as (st1 & mem2 & Ha & Hp & Hsz & Hlt & Hw1 & Hw2 & _).
  split; [|split].
  - assert (Hz : zlen (enc v) < 2 ^ 31) by lia. exact (two_writes_hold _ _ _ _ _ Hp Hz Hw1 Hw2).
  - lia.
  - exists st1. now rewrite Hsz.
Qed.
Print Assumptions c59_contents.

(** C59 for encodings of at least four bytes: nothing outside the buffer the
    module allocated is written. *)
Theorem c59_partial : forall G (m : wmodule G) st v st' p size st1,
  4 <= zlen (enc v) ->
  m_alloc m st (zlen (enc v) + 4) = Some (st1, p) ->
  write_udf_input m st v = UOk (st', p, size) ->
  forall i, Z.of_nat i < p \/ p + size <= Z.of_nat i ->
  nth_error (st_mem st') i = nth_error (st_mem st1) i.
Proof.
  intros G m st v st' p size st1 Hlen Ha0 H i Hi.
  destruct (write_holds _ _ _ _ _ _ _ H) as (st1' & mem2 & Ha & Hp & Hsz & Hlt & Hw1 & Hw2 & _).
  rewrite Ha0 in Ha. injection Ha as <-. unfold zlen in Hlen, Hsz.
  assert (Hp4 : 0 <= p + 4) by lia.
  rewrite (mwrite_out _ _ _ _ _ Hp4 Hw2) by lia.
  apply (mwrite_out _ _ _ _ _ Hp Hw1). rewrite le_length. lia.
Qed.
Print Assumptions c59_partial.

(** C59 fails for encodings under four bytes: the eight byte length overwrites
    what lies behind the buffer with zeros. *)
Theorem c59_refuted : forall G (m : wmodule G) st v st' p size,
  zlen (enc v) < 4 ->
  write_udf_input m st v = UOk (st', p, size) ->
  forall i, p + size <= Z.of_nat i < p + 8 ->
  nth_error (st_mem st') i = Some 0.
Proof.
  intros G m st v st' p size Hlen H i Hi.
  destruct (write_holds _ _ _ _ _ _ _ H) as (st1 & mem2 & Ha & Hp & Hsz & Hlt & Hw1 & Hw2 & _).
  pose proof (zlen_nonneg (enc v)) as Hn.
  assert (Hp4 : 0 <= p + 4) by lia.
  assert (Hlen' : length (enc v) = Z.to_nat (zlen (enc v))) by (unfold zlen; lia).
  rewrite (mwrite_out _ _ _ _ _ Hp4 Hw2) by lia.
  replace i with (Z.to_nat p + (i - Z.to_nat p))%nat by lia.
  rewrite (mwrite_in _ _ _ _ _ Hp Hw1) by (rewrite le_length; lia).
  rewrite nth_le by lia. f_equal.
  assert (Hk : 256 ^ 1 <= 256 ^ Z.of_nat (i - Z.to_nat p)) by (apply Z.pow_le_mono_r; lia).
  rewrite Z.div_small by lia. reflexivity.
Qed.
Print Assumptions c59_refuted.

(** Such a call is the most common one: a single argument that is a boolean or an
    integer from -32 to 127 overwrites two bytes of the module's memory behind its
    buffer, whatever they were. *)
Theorem c59_single_small_argument_refuted : forall G (m : wmodule G) st v st' p size,
  (exists b, v = MBool b) \/ (exists z, v = MInt z /\ -32 <= z < 128) ->
  write_udf_input m st (MArr [v]) = UOk (st', p, size) ->
  size = 6 /\
  nth_error (st_mem st') (Z.to_nat p + 6) = Some 0 /\
  nth_error (st_mem st') (Z.to_nat p + 7) = Some 0.
Proof.
  intros G m st v st' p size Hv H.
  assert (He : zlen (enc (MArr [v])) = 2).
  { destruct Hv as [[b ->]|(z & -> & Hz)].
    - now destruct b.
    - cbn [enc flat_map]. rewrite app_nil_r, zlen_app. unfold enc_int.
      destruct (0 <=? z) eqn:E0.
      + replace (z <? 128) with true by (symmetry; apply Z.ltb_lt; lia). reflexivity.
      + replace (-32 <=? z) with true by (symmetry; apply Z.leb_le; lia). reflexivity. }
  destruct (c59_contents _ _ _ _ _ _ _ H) as (Hh & Hs & _).
  pose proof Hh as (Hp & _).
  assert (Hlt : zlen (enc (MArr [v])) < 4) by lia.
  split; [lia|]. split.
  - apply (c59_refuted _ _ _ _ _ _ _ Hlt H). lia.
  - apply (c59_refuted _ _ _ _ _ _ _ Hlt H). lia.
Qed.
Print Assumptions c59_single_small_argument_refuted.

(** And a buffer at the very end of the memory is refused although it is large
    enough. *)
Theorem c59_end_of_memory_refuted : forall G (m : wmodule G) st v st1 p,
  zlen (enc v) < 4 ->
  m_alloc m st (zlen (enc v) + 4) = Some (st1, p) -> 0 <= p ->
  p + (zlen (enc v) + 4) = zlen (st_mem st1) ->
  write_udf_input m st v = UErr.
Proof.
  intros G m st v st1 p Hlen Ha Hp Hend. unfold write_udf_input, size_bytes.
  replace (zlen (enc v) + 4 <? two31) with true
    by (symmetry; apply Z.ltb_lt; change two31 with (2 ^ 31); lia).
  cbn [negb]. rewrite Ha.
  replace (p <? 0) with false by (symmetry; apply Z.ltb_ge; lia).
  unfold mwrite at 1.
  assert (H8 : zlen (le 8 (zlen (enc v))) = 8) by (unfold zlen at 1; now rewrite le_length).
  rewrite H8.
  replace (p + 8 <=? zlen (st_mem st1)) with false by (symmetry; apply Z.leb_gt; lia).
  reflexivity.
Qed.
Print Assumptions c59_end_of_memory_refuted.

(** A module whose heap starts with the buffer and has other data right behind
    it: calling a function of one boolean damages that data. *)
Definition heap_module : wmodule unit :=
  mkModule unit (mkStore (repeat 0 6 ++ [77; 77; 77; 77]) tt)
    (fun st _ => Some (st, 0)) (fun st _ _ => Some st) (fun st p => Some (st, p)).
Example c59_damage :
  match write_udf_input heap_module (m_init heap_module) (MArr [MBool true]) with
  | UOk (st', p, size) => (st_mem st', p, size)
  | _ => ([], 0, 0)
  end = ([2; 0; 0; 0; 145; 195; 0; 0; 77; 77], 0, 6).
Proof. vm_compute. reflexivity. Qed.
Example c59_no_damage :
  match write_udf_input heap_module (m_init heap_module) (MArr [MInt 1; MInt 2; MInt 3]) with
  | UOk (st', p, size) => (st_mem st', p, size)
  | _ => ([], 0, 0)
  end = ([4; 0; 0; 0; 147; 1; 2; 3; 77; 77], 0, 8).
Proof. vm_compute. reflexivity. Qed.
