(** C159: what the host and a function exchange is MessagePack.

    Specification: [UdfWireSpec] (the format and what travels) and [UdfSpec].
    Model of src/wasm_udf/wasm.rs: [UdfModel]. *)
From Coq Require Import List ZArith Lia Bool.
From Verif Require Import UdfModel UdfSpec UdfProofs UdfProps UdfBatch UdfWireSpec UdfWireProofs.
Import ListNotations.
Open Scope Z_scope.

(** Every value the format can represent is written in the format. *)
Theorem c159_writes : forall v, representable v -> packed v (enc v).
Proof. exact packed_enc. Qed.

(** Every encoding the format allows for a value, minimal or not, is read as that
    value. *)
Theorem c159_reads : forall v bs, packed v bs -> decode_buffer bs = Some v.
Proof.
  intros v bs H. rewrite <- (app_nil_r bs). now apply decode_packed.
Qed.

(** A buffer of bytes that is read as a value starts with an encoding of it. *)
Theorem c159_only : forall buf v, Forall byte buf -> decode_buffer buf = Some v ->
  exists bs rest, buf = bs ++ rest /\ packed v bs.
Proof.
  intros buf v Hb H. unfold decode_buffer in H.
  destruct (dec (S (length buf)) buf) as [[v' rest]|] eqn:E; [|discriminate].
  injection H as <-. destruct (dec_inv _ _ _ _ Hb E) as (bs & -> & Hp).
  now exists bs, rest.
Qed.

(** What is not MessagePack is an error. *)
Theorem c159_rejects : forall buf, Forall byte buf ->
  (forall v bs rest, buf = bs ++ rest -> ~ packed v bs) -> decode_buffer buf = None.
Proof.
  intros buf Hb Hno. destruct (decode_buffer buf) as [v|] eqn:E; [|reflexivity].
  destruct (c159_only _ _ Hb E) as (bs & rest & Hbuf & Hp). now destruct (Hno v bs rest).
Qed.

(** The format is unambiguous: no bytes stand for two values, and no encoding is
    the beginning of another. *)
Theorem c159_unambiguous : forall v v' bs bs' rest rest',
  packed v bs -> packed v' bs' -> bs ++ rest = bs' ++ rest' ->
  v = v' /\ bs = bs' /\ rest = rest'.
Proof.
  intros v v' bs bs' rest rest' H H' E.
  pose proof (proj1 dec_packed _ _ H (length (bs ++ rest)) rest) as D.
  pose proof (proj1 dec_packed _ _ H' (length (bs ++ rest)) rest') as D'.
  rewrite <- E in D'.
  rewrite D in D' by (rewrite app_length; lia).
  assert (Hl : (length bs' <= length (bs ++ rest))%nat)
    by (rewrite E, app_length; lia).
  specialize (D' Hl). injection D' as <- <-.
  split; [reflexivity|]. split; [|reflexivity]. now apply app_inv_tail in E.
Qed.

(** An answer with rubbish behind the value is accepted as the value. *)
Theorem c159_trailing_refuted : forall v bs rest, packed v bs ->
  decode_buffer (bs ++ rest) = Some v.
Proof. exact decode_packed. Qed.

(** One call of a module that follows the protocol gives the value of its
    function, whichever encoding the module chooses. *)
Theorem c159_call : forall G (m : wmodule G) F st args st' v,
  speaks m F -> Forall representable args ->
  call m st args = UOk (st', v) -> v = F args.
Proof. exact call_speaks. Qed.

(* ------------------------------------------------------------------ *)
(** * Batches *)

(** Decimals that fit 38 digits have a high word of 64 bits. *)
Lemma high_word : forall p z, p <= 38 -> - 10 ^ p < z < 10 ^ p ->
  as_i64 (z / two64) = z / two64.
Proof.
  intros p z Hp Hz. apply as_i64_small. unfold two64.
  assert (H38 : 10 ^ p <= 10 ^ 38).
  { destruct (Z_lt_ge_dec p 0) as [Hn|Hn]; [rewrite Z.pow_neg_r by lia; lia|].
    apply pow10_le. lia. }
  assert (H127 : 10 ^ 38 < 2 ^ 127) by (vm_compute; reflexivity).
  split.
  - apply Z.div_le_lower_bound; [lia|]. change (2 ^ 64 * - 2 ^ 63) with (- 2 ^ 127). lia.
  - apply Z.div_lt_upper_bound; [lia|]. change (2 ^ 64 * 2 ^ 63) with (2 ^ 127). lia.
Qed.

Lemma wire_value : forall w t x, fits w t x ->
  (match t with FDECIMAL p _ => p <= 38 | _ => True end) -> wire t x (value_from t x).
Proof.
  intros w t x H Hd.
  destruct t, x; cbn [fits value_from] in *; try contradiction;
    try (constructor; cbn [In]; tauto).
  pose proof (Z.mod_pos_bound z (2 ^ 64) ltac:(lia)) as Hu.
  apply wi_dec with (u := z mod 2 ^ 64); [|exact Hu|].
  - rewrite (high_word _ _ Hd H). unfold two64.
    pose proof (Z.div_mod z (2 ^ 64) ltac:(lia)). lia.
  - exact (twos_signed 8 (z mod 2 ^ 64)).
Qed.

Lemma row_wire : forall w tys args i ps,
  args_fit w tys args -> row_is tys args i ps -> row_on_wire tys args i ps.
Proof.
  intros w tys args i ps Hf. revert ps. unfold row_is, row_on_wire.
  induction Hf as [|c t args tys [Hd Hc] Ht IH]; intros ps H; cbn [combine] in *.
  - inversion H; subst. constructor.
  - inversion H as [|? v ? vs Hv Hr]; subst. constructor; [|now apply IH].
    destruct Hv as (s & Hs & ->). exists s. split; [assumption|].
    apply wire_value with w; [now apply Hc with i|].
    destruct t; try exact Logic.I. destruct Hd as [Hd _].
    apply decimal_bounds_ok in Hd. lia.
Qed.

Lemma answered : forall w t v x, is_decimal t = false ->
  decode_value w t v = UOk x -> answer w t v x.
Proof.
  intros w t v x Hd H. unfold answer.
  destruct t; try discriminate Hd; cbn [decode_value] in H; unfold dec_int in H;
    destruct v; try discriminate H; cbn [m_i64] in H;
    repeat match type of H with
    | context [if ?c then _ else _] => let E := fresh "E" in destruct c eqn:E; try discriminate H
    end;
    try (injection H as <-).
  all: try (right; split; [cbn [In]; tauto|]; eauto; fail).
  all: left; split; [constructor; cbn [In]; tauto|]; cbn [fits]; try exact Logic.I;
    try (left; exact Logic.I); try (right; eauto; fail).
  all: left; apply andb_true_iff in E0 as [E1 E2]; apply Z.leb_le in E1; apply Z.ltb_lt in E2;
    cbn in E1, E2 |- *; lia.
Qed.

(** C159: a batch through a module that follows the protocol.  Row [i] of the
    result is the value of the function on row [i]'s arguments. *)
Theorem c159_partial : forall G (m : wmodule G) F w n tys ret args out,
  speaks m F ->
  length args = length tys ->
  batch_of n args ->
  args_fit w tys args ->
  is_decimal ret = false ->
  udf_messagepack w m tys ret args = UOk out ->
  length (a_slots out) = out_rows n args /\
  forall i, (i < out_rows n args)%nat ->
    exists ps x,
      row_on_wire tys args i ps /\
      answer w ret (F ps) x /\
      nth_error (a_slots out) i = Some (mkSlot true x).
Proof.
  intros G m F w n tys ret args out Hs Hlen Hb Hf Hd H.
  assert (Hc : calls m F).
  { intros st a st' v Ha Hcall. exact (call_speaks _ _ _ _ _ _ _ Hs Ha Hcall). }
  destruct (batch_calls _ _ _ _ _ _ _ _ _ Hc Hlen Hb Hf H) as (Hl & _ & Hrow).
  split; [exact Hl|]. intros i Hi.
  destruct (Hrow i Hi) as (ps & x & Hr & Hx & Hn).
  exists ps, x. split; [now apply row_wire with w|]. split; [now apply answered|assumption].
Qed.

(** A decimal result: the host adds the low word as a signed number, so the result
    is the decimal the function meant if the top bit of the low word is clear, and
    2^64 too small otherwise. *)
Theorem c159_decimal_refuted : forall w p s v m x,
  p <= 38 -> - 10 ^ p < v < 10 ^ p ->
  wire (FDECIMAL p s) (XDec v) m ->
  decode_value w (FDECIMAL p s) m = UOk x ->
  (v mod 2 ^ 64 < 2 ^ 63 -> x = XDec v) /\
  (2 ^ 63 <= v mod 2 ^ 64 -> x = XDec (v - 2 ^ 64)).
Proof.
  intros w p s v m x Hp Hv Hw H.
  inversion Hw as [? ? Hin|? ? Hin|? ? Hin|? ? Hin|?|? ? ? high low u Hval Hu Ht]; subst;
    try (cbn [In] in Hin; exfalso; intuition discriminate).
  cbn [decode_value dec_decimal] in H.
  destruct (m_u64 (MInt p)) as [p'|]; [|discriminate].
  destruct (negb (p' <? 256)); [discriminate|]. destruct (negb (p' =? p)); [discriminate|].
  destruct (m_u64 (MInt s)) as [s'|]; [|discriminate].
  destruct (negb (s' <? 128)); [discriminate|]. destruct (negb (s' =? s)); [discriminate|].
  destruct (m_i64 (MInt high)) as [h|] eqn:Eh; [|discriminate].
  destruct (m_i64 (MInt low)) as [l|] eqn:El; [|discriminate].
  injection H as <-.
  cbn [m_i64] in Eh, El.
  destruct ((- 2 ^ 63 <=? high) && (high <? 2 ^ 63)); [|discriminate]. injection Eh as <-.
  destruct ((- 2 ^ 63 <=? low) && (low <? 2 ^ 63)); [|discriminate]. injection El as <-.
  assert (Hm : (high * 2 ^ 64 + u) mod 2 ^ 64 = u).
  { symmetry. apply Z.mod_unique with high; lia. }
  rewrite Hm.
  assert (H38 : 10 ^ p <= 10 ^ 38).
  { destruct (Z_lt_ge_dec p 0) as [Hn|Hn]; [rewrite Z.pow_neg_r by lia; lia|].
    apply pow10_le. lia. }
  assert (Hj : forall z, low + high * two64 = z -> - 2 ^ 127 <= z < 2 ^ 127 ->
            join_halves high low = z).
  { intros z <- Hz. unfold join_halves. apply signed_mod; [lia|].
    change (2 ^ (128 - 1)) with (2 ^ 127). exact Hz. }
  assert (H127 : 10 ^ 38 + 2 ^ 64 < 2 ^ 127) by (vm_compute; reflexivity).
  unfold two64 in Hj.
  change (8 * Z.of_nat 8 - 1) with 63 in Ht. change (8 * Z.of_nat 8) with 64 in Ht.
  unfold twos in Ht. change (8 * Z.of_nat 8 - 1) with 63 in Ht.
  change (8 * Z.of_nat 8) with 64 in Ht.
  split; intros Hlow; f_equal; apply Hj; lia.
Qed.

(* ------------------------------------------------------------------ *)
(** * Cases *)

(** Five, in one byte and in nine. *)
Example c159_two_ways :
  packed (MInt 5) [5] /\ packed (MInt 5) [207; 0; 0; 0; 0; 0; 0; 0; 5] /\
  packed (MInt (-1)) [209; 255; 255] /\
  packed (MArr [MStr [104; 105]; MBool true]) [220; 0; 2; 162; 104; 105; 195].
Proof.
  assert (Hb : forall l, forallb (fun b => (0 <=? b) && (b <=? 255)) l = true -> Forall byte l).
  { intros l H. apply Forall_forall. intros x Hx. rewrite forallb_forall in H.
    specialize (H x Hx). apply andb_true_iff in H as [H1 H2].
    apply Z.leb_le in H1, H2. now split. }
  split; [apply pk_small; lia|]. split; [|split].
  - apply pk_unsigned with 8%nat; [cbn [In]; tauto|].
    split; [reflexivity|]. split; [now apply Hb|reflexivity].
  - apply pk_signed with 2%nat 65535; [cbn [In]; tauto| |].
    + split; [reflexivity|]. split; [now apply Hb|reflexivity].
    + right. split; [vm_compute; discriminate|reflexivity].
  - apply (pk_list 220 2 [MStr [104; 105]; MBool true] [0; 2] [162; 104; 105; 195]).
    + cbn [In]. tauto.
    + split; [reflexivity|]. split; [now apply Hb|reflexivity].
    + apply (pks_cons _ _ [162; 104; 105] [195]).
      * apply (pk_short [104; 105]). vm_compute. discriminate.
      * apply (pks_cons _ _ [195] []); constructor.
Qed.
Example c159_read_both :
  decode_buffer [5] = Some (MInt 5) /\
  decode_buffer [207; 0; 0; 0; 0; 0; 0; 0; 5] = Some (MInt 5) /\
  decode_buffer [5; 193; 193] = Some (MInt 5) /\
  decode_buffer [193] = None /\ decode_buffer [205; 1] = None.
Proof. vm_compute. auto. Qed.

(** A module that answers with its arguments follows the protocol. *)
Example c159_list_speaks : speaks list_module MArr.
Proof.
  intros st st' p q args bs Hp Hh H. cbn in H. injection H as <- <-. now exists bs.
Qed.

(** So does one that answers 5, spelled with nine bytes, whatever it is asked. *)
Definition five_module : wmodule unit :=
  mkModule unit (mkStore (repeat 0 64) tt)
    (fun st n => Some (mkStore (repeat 0 64) tt, 16)) (fun st _ _ => Some st)
    (fun st p => Some (mkStore ([9; 0; 0; 0; 207; 0; 0; 0; 0; 0; 0; 0; 5] ++ repeat 0 8) tt, 0)).
Example c159_five_speaks : speaks five_module (fun _ => MInt 5).
Proof.
  intros st st' p q args bs Hp Hh H. cbn [m_udf five_module] in H. injection H as <- <-.
  exists [207; 0; 0; 0; 0; 0; 0; 0; 5].
  split; [apply (proj1 (proj2 c159_two_ways))|].
  split; [lia|]. split; [vm_compute; discriminate|]. split; [vm_compute; reflexivity|].
  cbn [st_mem]. split.
  - intros i Hi. do 4 (destruct i as [|i]; [reflexivity|]). lia.
  - intros i Hi. do 9 (destruct i as [|i]; [reflexivity|]). cbn [length] in Hi. lia.
Qed.
Example c159_five_runs :
  udf_messagepack w0 five_module [FINT] FBIGINT
    [CArray (mkArray AInt32 [mkSlot true (XInt 1); mkSlot true (XInt 2)])]
  = UOk (column FBIGINT [Some (XInt 5); Some (XInt 5)] (XInt 0)).
Proof. vm_compute. reflexivity. Qed.

(** A decimal with a negative low word comes back 2^64 too small. *)
Example c159_decimal_case :
  wire (FDECIMAL 20 0) (XDec 9223372036854775808)
       (MArr [MInt 20; MInt 0; MInt 0; MInt (-9223372036854775808)]) /\
  decode_value w0 (FDECIMAL 20 0)
       (MArr [MInt 20; MInt 0; MInt 0; MInt (-9223372036854775808)])
  = UOk (XDec (-9223372036854775808)).
Proof.
  split; [|vm_compute; reflexivity].
  apply wi_dec with (u := 9223372036854775808); [lia|lia|].
  right. split; [vm_compute; discriminate|reflexivity].
Qed.

Print Assumptions c159_writes.
Print Assumptions c159_reads.
Print Assumptions c159_only.
Print Assumptions c159_rejects.
Print Assumptions c159_unambiguous.
Print Assumptions c159_trailing_refuted.
Print Assumptions c159_call.
Print Assumptions c159_partial.
Print Assumptions c159_decimal_refuted.
