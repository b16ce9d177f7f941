(** C60, C89, C90: user defined functions are applied row by row; creating them;
    buffers are given back.

    Specification: [UdfSpec].  Model of src/wasm_udf: [UdfModel]. *)
From Coq Require Import List ZArith Lia Bool.
From Verif Require Import UdfModel UdfSpec UdfProofs UdfProps.
Import ListNotations.
Open Scope Z_scope.

(* ================================================================== *)
(** * Lengths *)

(** An empty batch is only all right if the first argument is a column, or if
    there are no columns at all. *)
Definition starts_ok (n : nat) (args : list cval) : Prop :=
  match args with
  | [] => False
  | c :: _ => is_scalar c = true -> (0 < n)%nat \/ forallb is_scalar args = true
  end.

Definition first_len (args : list cval) : nat :=
  match args with
  | [] => O
  | c :: _ => length (a_slots (into_array (inferred_length args) c))
  end.

Lemma first_len_ok : forall n args, batch_of n args -> starts_ok n args ->
  first_len args = out_rows n args.
Proof.
  intros n [|c args] Hb Hs; [destruct Hs|].
  unfold first_len, out_rows. cbn [starts_ok] in Hs.
  pose proof (max_all n (c :: args) Hb) as Hm.
  destruct c as [a|t s]; cbn [into_array a_slots is_scalar forallb andb] in *.
  - inversion Hb; subst. reflexivity.
  - rewrite repeat_length, Hm. cbn [existsb is_scalar orb].
    destruct (forallb is_scalar args); [reflexivity|].
    destruct (Hs eq_refl); [lia|discriminate].
Qed.

Lemma inferred_ge : forall n args, batch_of n args -> args <> [] ->
  (out_rows n args <= inferred_length args)%nat.
Proof.
  intros n args Hb Hne. rewrite (max_all n args Hb). unfold out_rows.
  destruct (forallb is_scalar args); [destruct args; [congruence|lia]|].
  destruct (existsb is_scalar args); lia.
Qed.

(** Every argument has a value in every row of the result. *)
Lemma arg_at_some : forall n args c i, batch_of n args -> In c args ->
  (i < out_rows n args)%nat -> arg_at c i <> None.
Proof.
  intros n args c i Hb Hin Hi. unfold out_rows in Hi.
  destruct c as [a|t s]; cbn [arg_at]; [|discriminate].
  unfold batch_of in Hb; rewrite Forall_forall in Hb. specialize (Hb _ Hin). cbn in Hb.
  replace (forallb is_scalar args) with false in Hi.
  - apply nth_error_Some. lia.
  - symmetry. apply not_true_is_false. intros Hf.
    rewrite forallb_forall in Hf. specialize (Hf _ Hin). discriminate.
Qed.

Lemma slot_some : forall n args c i, batch_of n args -> In c args -> args <> [] ->
  (i < out_rows n args)%nat ->
  nth_error (a_slots (into_array (inferred_length args) c)) i = arg_at c i.
Proof.
  intros n args c i Hb Hin Hne Hi. apply slot_at.
  pose proof (inferred_ge n args Hb Hne). lia.
Qed.


Lemma udf_mp_eq : forall G (m : wmodule G) w tys ret args,
  args <> [] -> length args = length tys ->
  udf_messagepack w m tys ret args
  = obind (run_rows m tys (map (into_array (inferred_length args)) args)
                    (seq 0 (first_len args)) (m_init m)) (fun vs => decode_results w ret vs).
Proof.
  intros G m w tys ret [|c args] Hne Hlen; [congruence|].
  unfold udf_messagepack. rewrite Hlen, Nat.eqb_refl. reflexivity.
Qed.

Lemma udf_native_eq : forall G Name (m : nmodule G Name) name f tys ret args,
  nm_export m name = Some f -> args <> [] -> length args = length tys ->
  udf_native m name tys ret args
  = obind (native_rows f tys (map (into_array (inferred_length args)) args)
                       (seq 0 (first_len args)) (nm_init m))
      (fun vs => obind (omap (unwrap_val ret) vs) (fun xs =>
                   UOk (mkArray (vtype_arrow ret) (map (mkSlot true) xs)))).
Proof.
  intros G Name m name f tys ret [|c args] He Hne Hlen; [congruence|].
  unfold udf_native. rewrite He, Hlen, Nat.eqb_refl. reflexivity.
Qed.

Lemma first_len_le : forall args, (first_len args <= inferred_length args)%nat.
Proof.
  intros [|c args]; [cbn; lia|]. unfold first_len.
  destruct c as [a|t s]; cbn [into_array a_slots].
  - unfold inferred_length. cbn [map cval_len fold_right]. lia.
  - now rewrite repeat_length.
Qed.

Lemma starts_nonempty : forall n args, starts_ok n args -> args <> [].
Proof. intros n [|c args] H; [destruct H | discriminate]. Qed.

Lemma row_is_some : forall tys args i ps, length args = length tys ->
  row_is tys args i ps -> forall c, In c args -> arg_at c i <> None.
Proof.
  intros tys args i ps. unfold row_is. revert tys ps.
  induction args as [|c l IH]; intros [|t tys] ps Hlen Hr c' Hin; try discriminate;
    [destruct Hin|].
  cbn [combine] in Hr. inversion Hr as [|? v ? vs Hv Ht]; subst.
  destruct Hv as (s & Hs & _).
  destruct Hin as [<-|Hin]; [congruence|].
  cbn [length] in Hlen. apply Nat.succ_inj in Hlen. exact (IH _ _ Hlen Ht c' Hin).
Qed.

Lemma has_array : forall args, forallb is_scalar args = false -> exists a, In (CArray a) args.
Proof.
  intros args. induction args as [|c l IH]; intros Ef; [discriminate|]. cbn [forallb] in Ef.
  destruct c as [a|t s]; [exists a; now left|]. cbn [is_scalar andb] in Ef.
  destruct (IH Ef) as [a Ha]. exists a. now right.
Qed.

Lemma has_array_at : forall (tys : list ftype) args, length args = length tys ->
  forallb is_scalar args = false ->
  exists col a t, nth_error args col = Some (CArray a) /\
                  nth_error tys col = Some t /\ (col < length args)%nat.
Proof.
  intros tys args. revert tys. induction args as [|c l IH]; intros tys Hlen Hf.
  - discriminate.
  - destruct tys as [|t tys]; [discriminate|]. cbn [forallb] in Hf.
    destruct c as [a|tc sc].
    + exists 0%nat, a, t. cbn. split; [reflexivity|]. split; [reflexivity|lia].
    + cbn [is_scalar andb] in Hf. cbn [length] in Hlen. apply Nat.succ_inj in Hlen.
      destruct (IH tys Hlen Hf) as (col & a & t' & H1 & H2 & H3).
      exists (S col), a, t'. cbn [nth_error length]. split; [assumption|].
      split; [assumption|lia].
Qed.

Lemma in_combine_seq {A : Type} : forall (tys : list A) col t n k,
  nth_error tys col = Some t -> (col < n)%nat -> In ((k + col)%nat, t) (combine (seq k n) tys).
Proof.
  induction tys as [|ty tys IH]; intros col t n k Ht Hn; [now destruct col|].
  destruct n as [|n]; [lia|]. cbn [seq combine]. destruct col as [|col].
  - cbn in Ht. injection Ht as ->. left. now rewrite Nat.add_0_r.
  - right. replace (k + S col)%nat with (S k + col)%nat by lia. apply IH; [exact Ht|lia].
Qed.

Lemma type_at : forall args tys col c t,
  Forall2 (fun c t => cval_type c = arrow_type t) args tys ->
  nth_error args col = Some c -> nth_error tys col = Some t -> cval_type c = arrow_type t.
Proof.
  intros args tys col c t Hty. revert col.
  induction Hty as [|c0 t0 l l' H0 Hl IH]; intros [|col] En Ht; try discriminate.
  - cbn in En, Ht. now injection En as <-; injection Ht as <-.
  - exact (IH col En Ht).
Qed.

(* ================================================================== *)
(** * C60: MessagePack functions *)

Lemma rows_nth {A B : Type} : forall (R : nat -> A -> Prop) (P : A -> B -> Prop) n k vs xs,
  Forall2 R (seq k n) vs -> Forall2 P vs xs ->
  length xs = n /\
  forall i, (i < n)%nat -> exists v x, R (k + i)%nat v /\ P v x /\ nth_error xs i = Some x.
Proof.
  intros R P n. induction n as [|n IH]; intros k vs xs HR HP; cbn [seq] in HR.
  - inversion HR; subst. inversion HP; subst. split; [reflexivity|]. intros i Hi. lia.
  - inversion HR as [|? v ? vs' Hv Ht]; subst. inversion HP as [|? x ? xs' Hx Hxs]; subst.
    destruct (IH (S k) vs' xs' Ht Hxs) as [Hl Hi]. cbn [length]. split; [lia|].
    intros [|i] Hlt.
    + exists v, x. rewrite Nat.add_0_r. split; [assumption|]. split; [assumption|reflexivity].
    + destruct (Hi i ltac:(lia)) as (v' & x' & H1 & H2 & H3).
      exists v', x'. replace (k + S i)%nat with (S k + i)%nat by lia.
      split; [assumption|]. split; [assumption|]. exact H3.
Qed.

Definition args_fit (w : world) (tys : list ftype) (args : list cval) : Prop :=
  Forall2 (fun c t =>
    (match t with FDECIMAL p s => decimal_ok p s = true /\ 0 <= s | _ => True end) /\
    forall i s, arg_at c i = Some s -> fits w t (s_val s)) args tys.

Lemma row_representable : forall w tys args i ps,
  args_fit w tys args -> row_is tys args i ps -> Forall representable ps.
Proof.
  intros w tys args i ps Hf. revert ps. unfold row_is.
  induction Hf as [|c t args tys [Hd Hc] Ht IH]; intros ps H; cbn [combine] in H.
  - inversion H; subst. constructor.
  - inversion H as [|? v ? vs Hv Hr]; subst. constructor; [|now apply IH].
    destruct Hv as (s & Hs & ->). apply fits_representable with w; [|assumption].
    now apply Hc with i.
Qed.

Lemma batch_calls : forall G (m : wmodule G) F w n tys ret args out,
  calls m F ->
  length args = length tys ->
  batch_of n args ->
  args_fit w tys args ->
  udf_messagepack w m tys ret args = UOk out ->
  length (a_slots out) = out_rows n args /\
  a_type out = arrow_type ret /\
  forall i, (i < out_rows n args)%nat ->
    exists ps x,
      row_is tys args i ps /\
      decode_value w ret (F ps) = UOk x /\
      nth_error (a_slots out) i = Some (mkSlot true x).
Proof.
  intros G m F w n tys ret args out Hc Hlen Hb Hfit H.
  assert (Hne : args <> []).
  { intros ->. destruct tys; [|discriminate]. cbn in H. discriminate. }
  rewrite (udf_mp_eq _ _ _ _ _ _ Hne Hlen) in H.
  set (L := inferred_length args) in *.
  destruct (run_rows m tys (map (into_array L) args) (seq 0 (first_len args)) (m_init m))
    as [vs| |] eqn:Er; cbn [obind] in H; try discriminate.
  pose proof (first_len_le args) as HL. fold L in HL.
  assert (Hrow : forall r ps, In r (seq 0 (first_len args)) ->
             encode_row tys (map (into_array L) args) r = UOk ps -> row_is tys args r ps).
  { intros r ps Hin He. apply in_seq in Hin. apply encode_row_is with L; [assumption|lia|assumption]. }
  assert (Hrep : forall r ps, In r (seq 0 (first_len args)) ->
             encode_row tys (map (into_array L) args) r = UOk ps -> Forall representable ps).
  { intros r ps Hin He. apply (row_representable w tys args r); [assumption|]. now apply Hrow. }
  pose proof (run_rows_ok _ _ _ _ _ _ _ _ Hc Hrep Er) as Hv.
  (* an empty batch that starts with a scalar does not return *)
  assert (Hfl : first_len args = out_rows n args).
  { apply first_len_ok; [assumption|].
    destruct args as [|c0 args0]; [congruence|]. set (args := c0 :: args0) in *.
    unfold args. cbn [starts_ok]. fold args. intros Hs0.
    destruct (forallb is_scalar args) eqn:Ef; [now right|]. left.
    destruct n as [|n]; [exfalso|lia].
    assert (H1 : first_len args = 1%nat).
    { unfold first_len, args. fold args. fold L.
      destruct c0 as [a|t s]; [discriminate|]. cbn [into_array a_slots].
      rewrite repeat_length. unfold L. rewrite (max_all 0 args Hb), Ef.
      unfold args. cbn [existsb is_scalar orb]. reflexivity. }
    rewrite H1 in Hv. cbn [seq] in Hv. inversion Hv as [|? v ? vs' (ps & He & _) _]; subst.
    assert (Hr0 : row_is tys args 0 ps) by (apply Hrow; [rewrite H1; now left | assumption]).
    assert (Hall : forall c, In c args -> arg_at c 0 <> None).
    { exact (row_is_some _ _ _ _ Hlen Hr0). }
    assert (Hex : exists a, In (CArray a) args).
    { exact (has_array _ Ef). }
    destruct Hex as [a Ha]. apply (Hall _ Ha). cbn [arg_at].
    unfold batch_of in Hb; rewrite Forall_forall in Hb. specialize (Hb _ Ha). cbn in Hb.
    apply nth_error_None. lia. }
  rewrite Hfl in Hv, Hrow.
  unfold decode_results in H.
  destruct (omap (decode_value w ret) vs) as [xs| |] eqn:Eo; cbn [obind] in H; try discriminate.
  assert (Ho : out = mkArray (arrow_type ret) (map (mkSlot true) xs)).
  { cbv zeta in H. destruct ret; try (injection H as <-; reflexivity).
    destruct (decimal_ok precision scale); [|discriminate]. injection H as <-. reflexivity. }
  subst out. cbn [a_slots a_type].
  apply omap_ok in Eo.
  destruct (rows_nth _ _ _ _ _ _ Hv Eo) as [Hlx Hi].
  split; [now rewrite map_length|]. split; [reflexivity|].
  intros i Hlt. destruct (Hi i Hlt) as (v & x & (ps & He & ->) & Hx & Hn).
  exists ps, x. split; [|split].
  - apply Hrow; [apply in_seq; lia | exact He].
  - exact Hx.
  - rewrite nth_error_map, Hn. reflexivity.
Qed.

(** C60, MessagePack functions: whenever the call returns, the result has one row
    for every row of the batch (one if all arguments are scalars), and row [i] is
    the value of the function on row [i]'s arguments, scalars broadcast. *)
Theorem c60_partial : forall G (m : wmodule G) F w n tys ret args out,
  computes m F ->
  length args = length tys ->
  batch_of n args ->
  args_fit w tys args ->
  udf_messagepack w m tys ret args = UOk out ->
  length (a_slots out) = out_rows n args /\
  a_type out = arrow_type ret /\
  forall i, (i < out_rows n args)%nat ->
    exists ps x,
      row_is tys args i ps /\
      decode_value w ret (F ps) = UOk x /\
      nth_error (a_slots out) i = Some (mkSlot true x).
Proof.
  intros G m F w n tys ret args out Hc. apply batch_calls. now apply computes_calls.
Qed.
Print Assumptions c60_partial.

(** ** Panics *)

Lemma encode_no_panic : forall n tys args i, batch_of n args -> args <> [] ->
  (i < out_rows n args)%nat ->
  encode_row tys (map (into_array (inferred_length args)) args) i <> UPanic.
Proof.
  intros n tys args i Hb Hne Hi. unfold encode_row. apply omap_no_panic.
  apply Forall_forall. intros [col t] Hin. rewrite map_length in Hin.
  apply combine_seq_in in Hin as (_ & Hcol & _).
  unfold encode_input, get_value. rewrite nth_error_map.
  destruct (nth_error args col) as [c|] eqn:En.
  - cbn [option_map]. destruct (atype_eqb _ _); [|discriminate].
    rewrite (slot_some n args c i Hb (nth_error_In _ _ En) Hne Hi).
    pose proof (arg_at_some n args c i Hb (nth_error_In _ _ En) Hi).
    destruct (arg_at c i); [discriminate|congruence].
  - apply nth_error_None in En. lia.
Qed.

Lemma call_no_panic : forall G (m : wmodule G) st args, tame m ->
  zlen (enc (MArr args)) + 4 < 2 ^ 31 -> call m st args <> UPanic.
Proof.
  intros G m st args [Ha Hu] Hsz. unfold call.
  destruct (write_udf_input m st (MArr args)) as [[[st1 p] size]| |] eqn:Ew;
    cbn [obind]; try discriminate.
  - destruct (m_udf m st1 p) as [[st2 q]|] eqn:Eu; [|discriminate].
    destruct (Hu _ _ _ _ Eu) as [Hq Hmem].
    assert (Hr : read_udf_output st2 q <> UPanic).
    { unfold read_udf_output, size_bytes.
      replace (q <? 0) with false by (symmetry; apply Z.ltb_ge; lia).
      destruct (mread (st_mem st2) q 4) as [b4|]; [|discriminate]. cbv zeta.
      destruct (signed 32 (unle b4) <? 0) eqn:E0; [discriminate|]. apply Z.ltb_ge in E0.
      destruct (mread (st_mem st2) (q + 4) (signed 32 (unle b4))) as [buf|] eqn:Eb;
        [|discriminate].
      destruct (decode_buffer buf); [|discriminate].
      unfold mread in Eb.
      destruct (q + 4 + signed 32 (unle b4) <=? zlen (st_mem st2)) eqn:El; [|discriminate].
      apply Z.leb_le in El.
      replace (signed 32 (unle b4) + 4 <? two31) with true
        by (symmetry; apply Z.ltb_lt; change two31 with (2 ^ 31); lia). discriminate. }
    destruct (read_udf_output st2 q) as [[v o]| |]; cbn [obind]; try congruence; try discriminate.
    destruct (m_dealloc m st2 p size) as [st3|]; [|discriminate].
    destruct (m_dealloc m st3 q o); discriminate.
  - exfalso. unfold write_udf_input, size_bytes in Ew.
    replace (zlen (enc (MArr args)) + 4 <? two31) with true in Ew
      by (symmetry; apply Z.ltb_lt; change two31 with (2 ^ 31); lia).
    cbn [negb] in Ew.
    destruct (m_alloc m st _) as [[st1 p]|] eqn:Ea; [|discriminate].
    pose proof (Ha _ _ _ _ Ea) as Hp.
    replace (p <? 0) with false in Ew by (symmetry; apply Z.ltb_ge; lia).
    destruct (mwrite _ p _); [|discriminate].
    destruct (mwrite _ (p + 4) _); discriminate.
Qed.

Lemma run_no_panic : forall G (m : wmodule G) tys arrays rows st, tame m ->
  (forall r, In r rows -> encode_row tys arrays r <> UPanic) ->
  (forall r ps, In r rows -> encode_row tys arrays r = UOk ps ->
                zlen (enc (MArr ps)) + 4 < 2 ^ 31) ->
  run_rows m tys arrays rows st <> UPanic.
Proof.
  intros G m tys arrays rows. induction rows as [|r rs IH]; intros st Ht He Hs;
    cbn [run_rows]; [discriminate|].
  pose proof (He r (or_introl eq_refl)) as H1. pose proof (Hs r) as H2.
  destruct (encode_row tys arrays r) as [ps| |]; cbn [obind]; try congruence; try discriminate.
  pose proof (call_no_panic _ m st ps Ht (H2 ps (or_introl eq_refl) eq_refl)) as H3.
  destruct (call m st ps) as [[st' v]| |]; cbn [obind]; try congruence; try discriminate.
  assert (H4 : run_rows m tys arrays rs st' <> UPanic).
  { apply IH; [assumption | intros r' Hr; apply He; now right |].
    intros r' ps' Hr. apply Hs. now right. }
  destruct (run_rows m tys arrays rs st'); cbn [obind]; congruence.
Qed.

Lemma decode_no_panic : forall w t v, decode_value w t v <> UPanic.
Proof.
  intros w t v.
  assert (Hi : forall b, dec_int b v <> UPanic).
  { intros b. unfold dec_int. destruct (m_i64 v); [|discriminate].
    destruct (_ && _); discriminate. }
  destruct t; cbn [decode_value]; try apply Hi; try (destruct v; discriminate);
    try (destruct v; try discriminate; destruct (w_utf8 w s); discriminate).
  unfold dec_decimal.
  destruct v as [| | | | | |[|vp [|vs' [|vh [|vl [|]]]]]]; try discriminate.
  destruct (m_u64 vp) as [p'|]; [|discriminate].
  destruct (negb (p' <? 256)); [discriminate|]. destruct (negb (p' =? precision)); [discriminate|].
  destruct (m_u64 vs') as [s'|]; [|discriminate].
  destruct (negb (s' <? 128)); [discriminate|]. destruct (negb (s' =? scale)); [discriminate|].
  destruct (m_i64 vh); [|discriminate]. destruct (m_i64 vl); discriminate.
Qed.

(** C60, no panics: if the batch is not empty or does not start with a scalar, the
    module returns proper pointers, and the arguments of a row are under 2 GB. *)
Theorem c60_no_panic_partial : forall G (m : wmodule G) w n tys ret args,
  tame m ->
  batch_of n args ->
  starts_ok n args ->
  (forall i ps, (i < out_rows n args)%nat -> row_is tys args i ps ->
                zlen (enc (MArr ps)) + 4 < 2 ^ 31) ->
  udf_messagepack w m tys ret args <> UPanic.
Proof.
  intros G m w n tys ret args Ht Hb Hs Hsz.
  destruct (length args =? length tys)%nat eqn:El;
    [|unfold udf_messagepack; rewrite El; discriminate].
  apply Nat.eqb_eq in El. pose proof (starts_nonempty _ _ Hs) as Hne.
  rewrite (udf_mp_eq _ _ _ _ _ _ Hne El). set (L := inferred_length args) in *.
  rewrite (first_len_ok n args Hb Hs).
  assert (Hr : run_rows m tys (map (into_array L) args) (seq 0 (out_rows n args)) (m_init m)
               <> UPanic).
  { apply run_no_panic; [assumption| |].
    - intros r Hin. apply in_seq in Hin. apply (encode_no_panic n); [assumption|assumption|lia].
    - intros r ps Hin He. apply in_seq in Hin. apply (Hsz r); [lia|].
      apply encode_row_is with L; [assumption| |assumption].
      pose proof (inferred_ge n args Hb Hne). unfold L. lia. }
  destruct (run_rows _ _ _ _ _) as [vs| |]; cbn [obind]; try congruence; try discriminate.
  unfold decode_results.
  assert (Ho : omap (decode_value w ret) vs <> UPanic).
  { apply omap_no_panic. apply Forall_forall. intros v _. apply decode_no_panic. }
  destruct (omap (decode_value w ret) vs) as [xs| |]; cbn [obind]; try congruence; try discriminate.
  cbv zeta. destruct ret; try discriminate. destruct (decimal_ok precision scale); discriminate.
Qed.
Print Assumptions c60_no_panic_partial.

Lemma omap_panic {A B : Type} : forall (f : A -> outcome B) l,
  Forall (fun x => f x <> UErr) l -> Exists (fun x => f x = UPanic) l -> omap f l = UPanic.
Proof.
  intros f l HF HE. induction HE as [x l Hx|x l Hl IH]; cbn [omap].
  - now rewrite Hx.
  - inversion HF as [|? ? Hx Hr]; subst. rewrite (IH Hr).
    destruct (f x); cbn [obind]; congruence.
Qed.

Lemma atype_refl : forall t, atype_eqb t t = true.
Proof. now destruct t. Qed.

(** C60 fails on empty batches: if the first argument is a scalar and another one
    is a column, every function panics on a batch without rows. *)
Theorem c60_empty_batch_refuted : forall G (m : wmodule G) w tys ret args,
  Forall2 (fun c t => cval_type c = arrow_type t) args tys ->
  batch_of 0 args ->
  (exists t s rest, args = CScalar t s :: rest) ->
  forallb is_scalar args = false ->
  udf_messagepack w m tys ret args = UPanic.
Proof.
  intros G m w tys ret args Hty Hb (t0 & s0 & rest & ->) Hf.
  set (args := CScalar t0 s0 :: rest) in *.
  assert (Hlen : length args = length tys) by (clear -Hty; induction Hty; cbn [length]; congruence).
  assert (Hne : args <> []) by discriminate.
  assert (HL : inferred_length args = 1%nat).
  { rewrite (max_all 0 args Hb), Hf. unfold args. reflexivity. }
  assert (Hfl : first_len args = 1%nat).
  { unfold first_len, args. fold args. rewrite HL. reflexivity. }
  rewrite (udf_mp_eq _ _ _ _ _ _ Hne Hlen), HL, Hfl. cbn [seq run_rows].
  assert (Hp : encode_row tys (map (into_array 1) args) 0 = UPanic).
  { unfold encode_row. rewrite map_length. apply omap_panic.
    - apply Forall_forall. intros [col t] Hin.
      apply combine_seq_in in Hin as (_ & Hcol & Ht). rewrite Nat.sub_0_r in Ht.
      unfold encode_input, get_value. rewrite nth_error_map.
      destruct (nth_error args col) as [c|] eqn:En; [|discriminate]. cbn [option_map].
      assert (Hct : cval_type c = arrow_type t).
      { exact (type_at _ _ _ _ _ Hty En Ht). }
      rewrite into_array_type, Hct, atype_refl.
      destruct (nth_error _ 0); discriminate.
    - assert (Hex : exists col a t, nth_error args col = Some (CArray a) /\
                               nth_error tys col = Some t /\ (col < length args)%nat).
      { exact (has_array_at _ _ Hlen Hf). }
      destruct Hex as (col & a & t & Hc & Ht & Hlt).
      apply Exists_exists. exists (col, t). split.
      + exact (in_combine_seq tys col t (length args) 0%nat Ht Hlt).
      + unfold encode_input, get_value. rewrite nth_error_map, Hc. cbn [option_map].
        assert (Hct : cval_type (CArray a) = arrow_type t).
        { exact (type_at _ _ _ _ _ Hty Hc Ht). }
        rewrite into_array_type, Hct, atype_refl. cbn [into_array].
        unfold batch_of in Hb; rewrite Forall_forall in Hb. specialize (Hb _ (nth_error_In _ _ Hc)). cbn in Hb.
        destruct (a_slots a); [reflexivity|discriminate]. }
  rewrite Hp. reflexivity.
Qed.
Print Assumptions c60_empty_batch_refuted.

(** A function without arguments panics whenever it is called, in both languages. *)
Theorem c60_no_arguments_refuted :
  (forall G (m : wmodule G) w ret, udf_messagepack w m [] ret [] = UPanic) /\
  (forall G Name (m : nmodule G Name) name f ret,
     nm_export m name = Some f -> udf_native m name [] ret [] = UPanic).
Proof.
  split.
  - reflexivity.
  - intros G Name m name f ret H. unfold udf_native. rewrite H. reflexivity.
Qed.
Print Assumptions c60_no_arguments_refuted.

(* ================================================================== *)
(** * C60: functions of language 'wasm' *)

(** Arguments of the declared types: the columns have the Arrow type, and every
    row holds an element of it. *)
Definition native_args (tys : list vtype) (args : list cval) : Prop :=
  Forall2 (fun c t => cval_type c = vtype_arrow t /\
                      forall i s, arg_at c i = Some s -> exists v, native_is t (s_val s) v)
          args tys.

(** The arguments of row [i]. *)
Definition native_row_is (tys : list vtype) (args : list cval) (i : nat) (ps : list wval)
  : Prop :=
  Forall2 (fun '(c, t) v => exists s, arg_at c i = Some s /\ native_is t (s_val s) v)
          (combine args tys) ps.

Lemma native_to_wval : forall t L args row col c s v,
  nth_error args col = Some c -> cval_type c = vtype_arrow t ->
  nth_error (a_slots (into_array L c)) row = Some s ->
  native_is t (s_val s) v ->
  to_wval t (map (into_array L) args) row col = UOk v.
Proof.
  intros t L args row col c s v Hc Ht Hs Hn.
  assert (Hg : get_value (vtype_arrow t) (map (into_array L) args) row col = UOk (s_val s)).
  { rewrite <- Ht. rewrite (get_value_at L args row col c Hc), Hs. reflexivity. }
  destruct t; cbn [vtype_arrow] in Hg; cbn [to_wval]; rewrite Hg; cbn [obind];
    destruct (s_val s); destruct v; cbn in Hn; try contradiction; subst; reflexivity.
Qed.

Lemma native_row_ok : forall n tys args i, batch_of n args -> args <> [] ->
  native_args tys args -> (i < out_rows n args)%nat ->
  exists ps, native_row tys (map (into_array (inferred_length args)) args) i = UOk ps /\
             native_row_is tys args i ps.
Proof.
  intros n tys args i Hb Hne Hna Hi.
  assert (Hex : exists ps, native_row_is tys args i ps).
  { assert (Hall : forall c, In c args -> arg_at c i <> None)
      by (intros c Hc; now apply (arg_at_some n args)).
    clear -Hna Hall. unfold native_row_is. induction Hna as [|c t args tys [_ Hct] Ht IH].
    - exists []. constructor.
    - destruct IH as [ps Hps]; [intros c' Hc'; apply Hall; now right|].
      destruct (arg_at c i) as [s|] eqn:Ea; [|exfalso; apply (Hall c); [now left|assumption]].
      destruct (Hct i s Ea) as [v Hv]. exists (v :: ps). cbn [combine].
      constructor; [|assumption]. exists s. now split. }
  destruct Hex as [ps Hps]. exists ps. split; [|assumption].
  unfold native_row. rewrite map_length. apply omap_intro.
  set (L := inferred_length args).
  assert (Hslot : forall c, In c args -> nth_error (a_slots (into_array L c)) i = arg_at c i).
  { intros c Hc. unfold L. apply (slot_some n); assumption. }
  assert (Hgen : forall l tl k ps,
            (forall j c, nth_error l j = Some c -> nth_error args (k + j) = Some c) ->
            native_args tl l -> native_row_is tl l i ps ->
            Forall2 (fun x y => (let '(col, t) := x in to_wval t (map (into_array L) args) i col)
                                = UOk y) (combine (seq k (length l)) tl) ps).
  { intros l tl k ps0 Hsub Hn. revert k ps0 Hsub. unfold native_row_is.
    induction Hn as [|c t l tl [Hct _] Ht IH]; intros k ps0 Hsub Hr; cbn [combine] in Hr.
    - inversion Hr; subst. constructor.
    - inversion Hr as [|? v ? vs Hvv Hrt]; subst. destruct Hvv as (s & Hs & Hv). cbn [length seq combine].
      pose proof (Hsub 0%nat c eq_refl) as Hc. rewrite Nat.add_0_r in Hc.
      constructor.
      + apply (native_to_wval t L args i k c s v Hc Hct); [|assumption].
        rewrite Hslot; [assumption|]. now apply nth_error_In with k.
      + apply IH; [|assumption].
        intros j c' Hj. replace (S k + j)%nat with (k + S j)%nat by lia. now apply Hsub. }
  apply (Hgen args tys 0%nat ps); [intros j c Hj; exact Hj | assumption | assumption].
Qed.

Lemma vtypes_refl : forall l, vtypes_eqb l l = true.
Proof. induction l as [|x l IH]; [reflexivity|]. cbn. rewrite IH. now destruct x. Qed.

Lemma native_row_types : forall tys args i ps, length args = length tys ->
  native_row_is tys args i ps -> map wval_type ps = tys.
Proof.
  intros tys args i ps. unfold native_row_is. revert tys ps.
  induction args as [|c args IH]; intros [|t tys] ps Hlen H; try discriminate; cbn [combine] in H.
  - inversion H; subst. reflexivity.
  - inversion H as [|? v ? vs Hvv Ht]; subst. destruct Hvv as (s & _ & Hv). cbn [map].
    cbn [length] in Hlen. apply Nat.succ_inj in Hlen. rewrite (IH _ _ Hlen Ht). f_equal.
    destruct t; destruct (s_val s); destruct v; cbn in Hv; try contradiction; reflexivity.
Qed.

Lemma native_rows_ok : forall G (f : nfunc G) r F tys args n, pure_func f r F ->
  n_params f = tys -> length args = length tys -> batch_of n args -> args <> [] ->
  native_args tys args ->
  forall k rows g, (k + rows <= out_rows n args)%nat ->
  exists vs,
    native_rows f tys (map (into_array (inferred_length args)) args) (seq k rows) g = UOk vs /\
    Forall2 (fun i v => exists ps, native_row_is tys args i ps /\ v = F ps) (seq k rows) vs.
Proof.
  intros G f r F tys args n (Hr & HF & Hrun) Hp Hlen Hb Hne Hna k rows. revert k.
  induction rows as [|rows IH]; intros k g Hk; cbn [seq native_rows].
  - exists []. split; [reflexivity|constructor].
  - destruct (native_row_ok n tys args k Hb Hne Hna ltac:(lia)) as (ps & Hps & His).
    rewrite Hps. cbn [obind]. unfold func_call.
    rewrite (native_row_types _ _ _ _ Hlen His), Hp, vtypes_refl, Hr. cbn [negb length Nat.eqb].
    destruct (Hrun g ps) as [g' ->]. cbn [obind].
    destruct (IH (S k) g' ltac:(lia)) as (vs & Hvs & Hall). rewrite Hvs. cbn [obind].
    exists (F ps :: vs). split; [reflexivity|]. constructor; [|assumption].
    exists ps. now split.
Qed.

Lemma unwrap_native : forall t v, wval_type v = t ->
  exists x, unwrap_val t v = UOk x /\ native_is t x v.
Proof.
  intros t v <-. destruct v; cbn [wval_type unwrap_val];
    (eexists; split; [reflexivity | cbn; reflexivity]).
Qed.

(** C60, native functions: a function that does not depend on earlier calls,
    declared with the types it has, returns for every batch that is not empty or
    does not start with a scalar, and row [i] is its value on row [i]. *)
Theorem c60_native_partial : forall G Name (m : nmodule G Name) name f F n tys ret args,
  nm_export m name = Some f ->
  pure_func f ret F ->
  n_params f = tys ->
  length args = length tys ->
  batch_of n args ->
  starts_ok n args ->
  native_args tys args ->
  exists out,
    udf_native m name tys ret args = UOk out /\
    length (a_slots out) = out_rows n args /\
    a_type out = vtype_arrow ret /\
    forall i, (i < out_rows n args)%nat ->
      exists ps x,
        native_row_is tys args i ps /\
        native_is ret x (F ps) /\
        nth_error (a_slots out) i = Some (mkSlot true x).
Proof.
  intros G Name m name f F n tys ret args He Hf Hp Hlen Hb Hs Hna.
  pose proof (starts_nonempty _ _ Hs) as Hne.
  rewrite (udf_native_eq _ _ _ _ _ _ _ _ He Hne Hlen). set (L := inferred_length args) in *.
  rewrite (first_len_ok n args Hb Hs).
  destruct (native_rows_ok _ f ret F tys args n Hf Hp Hlen Hb Hne Hna 0%nat (out_rows n args)
              (nm_init m) ltac:(lia)) as (vs & Hvs & Hall).
  fold L in Hvs. rewrite Hvs. cbn [obind].
  pose proof Hf as (Hr & HF & Hrun).
  assert (Hx : exists xs, Forall2 (fun v x => unwrap_val ret v = UOk x /\ native_is ret x v) vs xs).
  { clear -Hall HF. induction Hall as [|i v is vs (ps & _ & ->) Ht IH].
    - exists []. constructor.
    - destruct IH as [xs Hxs]. destruct (unwrap_native ret (F ps) (HF ps)) as [x Hx].
      exists (x :: xs). now constructor. }
  destruct Hx as [xs Hxs].
  assert (Ho : omap (unwrap_val ret) vs = UOk xs).
  { apply omap_intro. clear -Hxs. induction Hxs as [|v x vs xs [H _] Ht IH]; constructor;
      assumption. }
  rewrite Ho. cbn [obind]. eexists. split; [reflexivity|]. cbn [a_slots a_type].
  destruct (rows_nth _ _ _ _ _ _ Hall Hxs) as [Hl Hi].
  split; [now rewrite map_length|]. split; [reflexivity|].
  intros i Hlt. destruct (Hi i Hlt) as (v & x & (ps & Hps & ->) & [_ Hx] & Hn).
  exists ps, x. split; [exact Hps|]. split; [exact Hx|].
  rewrite nth_error_map, Hn. reflexivity.
Qed.
Print Assumptions c60_native_partial.

(** C60 is about functions.  A module that keeps a counter shows what the model
    does with one that is not: rows of one batch share an instance, batches do
    not, so where a batch ends can be seen in the result. *)
Definition counter : nmodule Z unit :=
  mkNModule Z unit 0
    (fun _ => Some (mkFunc Z [VI32] [VI32] (fun g _ => Some (g + 1, [WI32 g])))).
Definition ints (zs : list Z) : array := mkArray AInt32 (map (fun z => mkSlot true (XInt z)) zs).
Theorem c60_batch_boundaries_refuted :
  udf_native counter tt [VI32] VI32 [CArray (ints [7; 7])] = UOk (ints [0; 1]) /\
  udf_native counter tt [VI32] VI32 [CArray (ints [7])] = UOk (ints [0]).
Proof. split; reflexivity. Qed.
Print Assumptions c60_batch_boundaries_refuted.

(** Instances: adding a scalar to a column; the empty batch. *)
Definition adder : nmodule unit unit :=
  mkNModule unit unit tt
    (fun _ => Some (mkFunc unit [VI32; VI32] [VI32]
       (fun g ps => Some (g, [match ps with
                              | [WI32 a; WI32 b] => WI32 (a + b)
                              | _ => WI32 0
                              end])))).
Example c60_broadcast :
  udf_native adder tt [VI32; VI32] VI32
    [CScalar AInt32 (mkSlot true (XInt 10)); CArray (ints [1; 2; 3])] = UOk (ints [11; 12; 13]).
Proof. reflexivity. Qed.
Example c60_empty_panics :
  udf_native adder tt [VI32; VI32] VI32
    [CScalar AInt32 (mkSlot true (XInt 10)); CArray (ints [])] = UPanic.
Proof. reflexivity. Qed.
Example c60_empty_other_order :
  udf_native adder tt [VI32; VI32] VI32
    [CArray (ints []); CScalar AInt32 (mkSlot true (XInt 10))] = UOk (ints []).
Proof. reflexivity. Qed.
Example c60_adder_pure :
  exists f, nm_export adder tt = Some f /\
            pure_func f VI32 (fun ps => match ps with
                                        | [WI32 a; WI32 b] => WI32 (a + b)
                                        | _ => WI32 0
                                        end) /\ n_params f = [VI32; VI32].
Proof.
  eexists. split; [reflexivity|]. split; [|reflexivity]. split; [reflexivity|]. split.
  - intros [|[] [|[] []]]; reflexivity.
  - intros g ps. exists g. reflexivity.
Qed.

(** A MessagePack module that computes a function of its arguments: it returns its
    argument list, which is how a DECIMAL looks on the wire, so it makes a decimal
    of its precision, scale and halves. *)
Definition list_module : wmodule unit :=
  mkModule unit (mkStore (repeat 0 64) tt)
    (fun st n => Some (st, 16)) (fun st _ _ => Some st) (fun st p => Some (st, p)).
Example c60_list_computes : computes list_module MArr.
Proof.
  split.
  - intros args Hr Hl. now constructor.
  - intros st st' p q args Hr Hh H. cbn in H. injection H as <- <-. exact Hh.
Qed.
Example c60_decimals :
  udf_messagepack w0 list_module [FINT; FINT; FBIGINT; FBIGINT] (FDECIMAL 20 2)
    [CScalar AInt32 (mkSlot true (XInt 20)); CScalar AInt32 (mkSlot true (XInt 2));
     CArray (mkArray AInt64 [mkSlot true (XInt 0); mkSlot true (XInt 1)]);
     CScalar AInt64 (mkSlot true (XInt 7))]
  = UOk (column (FDECIMAL 20 2) [Some (XDec 7); Some (XDec 18446744073709551623)] (XDec 0)).
Proof. vm_compute. reflexivity. Qed.
Example c60_list_tame : tame (mkModule unit (mkStore (repeat 0 64) tt)
    (fun st n => Some (st, 16)) (fun st _ _ => Some st)
    (fun st p => if (0 <=? p) && (zlen (st_mem st) <? 2 ^ 31) then Some (st, p) else None)).
Proof.
  split.
  - intros st n st' p H. cbn in H. injection H as <- <-. lia.
  - intros st p st' q H. cbn [m_udf] in H.
    destruct ((0 <=? p) && (zlen (st_mem st) <? 2 ^ 31)) eqn:E; [|discriminate].
    injection H as <- <-. apply andb_true_iff in E as [E1 E2].
    apply Z.leb_le in E1. apply Z.ltb_lt in E2. now split.
Qed.

(* ================================================================== *)
(** * C89: creating functions *)

(** A statement with supported types is created exactly if the module loads and
    has the function. *)
Theorem c89_create : forall G Name (m : option (nmodule G Name)) name tys ret,
  Forall (fun t => get_wasm_type t <> None) (ret :: tys) ->
  create_native m name tys ret <> UPanic /\
  ((exists g, create_native m name tys ret = UOk g) <->
   exists nm f, m = Some nm /\ nm_export nm name = Some f).
Proof.
  intros G Name m name tys ret H. inversion H as [|? ? Hret Hin]; subst.
  assert (Hc : exists vs, convert_types tys = UOk vs).
  { clear -Hin. induction Hin as [|t tys Ht Hr IH]; cbn [convert_types].
    - eexists. reflexivity.
    - destruct (get_wasm_type t); [|congruence]. destruct IH as [vs ->]. cbn [obind].
      eexists. reflexivity. }
  destruct Hc as [vs Hvs]. unfold create_native. rewrite Hvs. cbn [obind].
  destruct (get_wasm_type ret) as [vr|]; [|congruence].
  destruct m as [nm|].
  - destruct (nm_export nm name) as [f|] eqn:E.
    + split; [discriminate|]. split; intros _.
      * exists nm, f. now split.
      * eexists. reflexivity.
    + split; [discriminate|]. split.
      * intros [g Hg]. discriminate.
      * intros (nm' & f & H1 & H2). injection H1 as <-. congruence.
  - split; [discriminate|]. split.
    + intros [g Hg]. discriminate.
    + intros (nm & f & H1 & _). discriminate.
Qed.
Print Assumptions c89_create.

(** C89 fails: an argument type the language does not support (text, dates,
    decimals, booleans, SMALLINT) is not refused, it panics. *)
Theorem c89_unsupported_argument_refuted :
  forall G Name (m : option (nmodule G Name)) name tys ret,
  Exists (fun t => get_wasm_type t = None) tys ->
  create_native m name tys ret = UPanic.
Proof.
  intros G Name m name tys ret H. unfold create_native.
  assert (Hc : convert_types tys = UPanic).
  { induction H as [t tys Ht|t tys Ht IH]; cbn [convert_types].
    - now rewrite Ht.
    - destruct (get_wasm_type t); [|reflexivity]. now rewrite IH. }
  now rewrite Hc.
Qed.
Print Assumptions c89_unsupported_argument_refuted.

(** Which types those are. *)
Theorem c89_supported : forall t,
  get_wasm_type t <> None <->
  In t [FI32; FI64; FF32; FF64; FINT; FBIGINT; FFLOAT; FREAL; FDOUBLE].
Proof.
  intros t. split.
  - destruct t; cbn; intros H; auto 12; congruence.
  - cbn. intros H. intuition (subst; discriminate).
Qed.
Print Assumptions c89_supported.

(** C89 fails: the declared result type is never compared with the module.  Every
    function created with another result type than it has panics on the first
    batch with a row. *)
Theorem c89_result_type_refuted : forall G Name (nm : nmodule G Name) name f F r tys ret vret,
  nm_export nm name = Some f ->
  pure_func f r F ->
  n_params f = map (fun t => match get_wasm_type t with Some v => v | None => VI32 end) tys ->
  Forall (fun t => get_wasm_type t <> None) tys ->
  get_wasm_type ret = Some vret -> r <> vret ->
  exists g,
    create_native (Some nm) name tys ret = UOk g /\
    forall n args, length args = length tys -> batch_of n args -> starts_ok n args ->
      native_args (n_params f) args -> (0 < out_rows n args)%nat ->
      g args = UPanic.
Proof.
  intros G Name nm name f F r tys ret vret He Hf Hp Hin Hret Hne.
  assert (Hc : convert_types tys = UOk (n_params f)).
  { rewrite Hp. clear -Hin. induction Hin as [|t tys Ht Hr IH]; cbn [convert_types map].
    - reflexivity.
    - destruct (get_wasm_type t); [|congruence]. rewrite IH. reflexivity. }
  exists (udf_native nm name (n_params f) vret). split.
  - unfold create_native. rewrite Hc. cbn [obind]. rewrite Hret, He. reflexivity.
  - intros n args Hlen Hb Hs Hna Hrows. 
    assert (Hlen' : length args = length (n_params f)) by (rewrite Hp, map_length; exact Hlen).
    pose proof (starts_nonempty _ _ Hs) as Hne'.
    rewrite (udf_native_eq _ _ _ _ _ _ _ _ He Hne' Hlen'). set (L := inferred_length args) in *.
    rewrite (first_len_ok n args Hb Hs).
    destruct (native_rows_ok _ f r F (n_params f) args n Hf eq_refl Hlen' Hb Hne' Hna 0%nat
                (out_rows n args) (nm_init nm) ltac:(lia)) as (vs & Hvs & Hall).
    fold L in Hvs. rewrite Hvs. cbn [obind].
    destruct (out_rows n args) as [|k]; [lia|]. cbn [seq] in Hall.
    inversion Hall as [|? v ? vs' (ps & _ & ->) Ht]; subst. cbn [omap].
    pose proof Hf as (_ & HF & _). specialize (HF ps).
    assert (Hu : unwrap_val vret (F ps) = UPanic).
    { destruct (F ps); cbn in HF; destruct vret; cbn; congruence. }
    rewrite Hu. reflexivity.
Qed.
Print Assumptions c89_result_type_refuted.

(** With the result type the function has, calls do not panic, whatever the
    function does. *)
Theorem c89_partial : forall G Name (nm : nmodule G Name) name f n tys ret args,
  nm_export nm name = Some f ->
  well_typed_func f ->
  n_results f = [ret] ->
  length args = length tys ->
  batch_of n args ->
  starts_ok n args ->
  udf_native nm name tys ret args <> UPanic.
Proof.
  intros G Name nm name f n tys ret args He Hw Hr Hlen Hb Hs.
  pose proof (starts_nonempty _ _ Hs) as Hne.
  rewrite (udf_native_eq _ _ _ _ _ _ _ _ He Hne Hlen). set (L := inferred_length args) in *.
  rewrite (first_len_ok n args Hb Hs).
  assert (Hrow : forall i, (i < out_rows n args)%nat ->
                           native_row tys (map (into_array L) args) i <> UPanic).
  { intros i Hi. unfold native_row. apply omap_no_panic. apply Forall_forall.
    intros [col t] Hin. rewrite map_length in Hin.
    apply combine_seq_in in Hin as (_ & Hcol & _).
    assert (Hg : forall ty, get_value ty (map (into_array L) args) i col <> UPanic).
    { intros ty. unfold get_value. rewrite nth_error_map.
      destruct (nth_error args col) as [c|] eqn:En.
      - cbn [option_map]. destruct (atype_eqb _ _); [|discriminate].
        unfold L. rewrite (slot_some n args c i Hb (nth_error_In _ _ En) Hne Hi).
        pose proof (arg_at_some n args c i Hb (nth_error_In _ _ En) Hi).
        destruct (arg_at c i); [discriminate|congruence].
      - apply nth_error_None in En. lia. }
    unfold to_wval. destruct t; match goal with |- obind (get_value ?ty _ _ _) _ <> _ =>
      specialize (Hg ty); destruct (get_value ty (map (into_array L) args) i col) as [x| |] end;
      cbn [obind]; try congruence; try discriminate; destruct x; discriminate. }
  assert (Hrun : forall rows g, Forall (fun i => (i < out_rows n args)%nat) rows ->
            match native_rows f tys (map (into_array L) args) rows g with
            | UPanic => False
            | UOk vs => Forall (fun v => wval_type v = ret) vs
            | UErr => True
            end).
  { intros rows. induction rows as [|i rows IH]; intros g Hall; cbn [native_rows];
      [constructor|].
    inversion Hall as [|? ? Hi Hrest]; subst. specialize (Hrow i Hi).
    destruct (native_row tys (map (into_array L) args) i) as [ps| |]; cbn [obind]; auto.
    unfold func_call. destruct (negb (vtypes_eqb _ _)); [exact Logic.I|].
    destruct (negb (length (n_results f) =? 1)%nat); [exact Logic.I|].
    destruct (n_run f g ps) as [[g' [|v [|]]]|] eqn:En; try exact Logic.I.
    cbn [obind]. specialize (IH g' Hrest).
    destruct (native_rows f tys (map (into_array L) args) rows g') as [vs| |]; cbn [obind]; auto.
    constructor; [|assumption].
    specialize (Hw _ _ _ _ En). rewrite Hr in Hw. cbn [map] in Hw. congruence. }
  specialize (Hrun (seq 0 (out_rows n args)) (nm_init nm)).
  assert (Hseq : Forall (fun i => (i < out_rows n args)%nat) (seq 0 (out_rows n args))).
  { apply Forall_forall. intros i Hin. apply in_seq in Hin. lia. }
  specialize (Hrun Hseq).
  destruct (native_rows f tys (map (into_array L) args) (seq 0 (out_rows n args)) (nm_init nm))
    as [vs| |]; cbn [obind]; [|discriminate|contradiction].
  assert (Ho : omap (unwrap_val ret) vs <> UPanic).
  { apply omap_no_panic. eapply Forall_impl; [|exact Hrun]. intros v Hv.
    destruct (unwrap_native ret v Hv) as (x & -> & _). discriminate. }
  destruct (omap (unwrap_val ret) vs); cbn [obind]; congruence.
Qed.
Print Assumptions c89_partial.

(** Instances. *)
Example c89_text_argument : create_native (Some adder) tt [FTEXT; FINT] FINT = UPanic.
Proof. reflexivity. Qed.
Example c89_text_result : create_native (Some adder) tt [FINT; FINT] FTEXT = UErr.
Proof. reflexivity. Qed.
Example c89_wrong_result :
  match create_native (Some adder) tt [FINT; FINT] FBIGINT with
  | UOk g => g [CArray (ints [1]); CArray (ints [2])]
  | _ => UErr
  end = UPanic.
Proof. reflexivity. Qed.

(* ================================================================== *)
(** * C90: buffers are given back *)

(** A call that returns has asked for one buffer of the size of its arguments, and
    has given back exactly this buffer and the one the function returned, each
    with its whole size. *)
Theorem c90_buffers_freed : forall G (m : wmodule G) st args st' v,
  call m st args = UOk (st', v) ->
  exists st1 p st1' st2 q b4 st3,
    m_alloc m st (4 + zlen (enc (MArr args))) = Some (st1, p) /\
    holds (st_mem st1') p (enc (MArr args)) /\
    m_udf m st1' p = Some (st2, q) /\
    mread (st_mem st2) q 4 = Some b4 /\
    m_dealloc m st2 p (4 + zlen (enc (MArr args))) = Some st3 /\
    m_dealloc m st3 q (4 + signed 32 (unle b4)) = Some st'.
Proof.
  intros G m st args st' v H. unfold call in H.
  destruct (write_udf_input m st (MArr args)) as [[[s1 p] size]| |] eqn:Ew;
    cbn [obind] in H; try discriminate.
  destruct (c59_contents _ _ _ _ _ _ _ Ew) as (Hh & Hs & st1 & Ha).
  destruct (m_udf m s1 p) as [[st2 q]|] eqn:Eu; [|discriminate].
  unfold read_udf_output in H. destruct (q <? 0); [discriminate|].
  destruct (mread (st_mem st2) q size_bytes) as [b4|] eqn:Eb; [|discriminate].
  cbv zeta in H. destruct (signed 32 (unle b4) <? 0); [discriminate|].
  destruct (mread (st_mem st2) (q + size_bytes) _); [|discriminate].
  destruct (decode_buffer l); [|discriminate].
  destruct (signed 32 (unle b4) + size_bytes <? two31); [|discriminate].
  cbn [obind] in H.
  destruct (m_dealloc m st2 p size) as [st3|] eqn:Ed; [|discriminate].
  destruct (m_dealloc m st3 q (signed 32 (unle b4) + size_bytes)) as [st4|] eqn:Ed2;
    [|discriminate].
  injection H as <- _.
  exists st1, p, s1, st2, q, b4, st3. rewrite <- Hs.
  split; [exact Ha|]. split; [exact Hh|]. split; [exact Eu|]. split; [exact Eb|].
  split; [exact Ed|]. rewrite Z.add_comm. exact Ed2.
Qed.
Print Assumptions c90_buffers_freed.

Example c90_runs : exists st', call echo_module (mkStore [] tt) [MInt 5] = UOk (st', MInt 5).
Proof. apply echo_call; [constructor; lia | vm_compute; reflexivity]. Qed.
