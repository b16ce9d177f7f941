(** Lemmas about bytes, MessagePack, linear memory and batches. *)
From Coq Require Import List ZArith Lia Bool.
From Verif Require Import UdfModel UdfSpec.
Import ListNotations.
Open Scope Z_scope.

(* ------------------------------------------------------------------ *)
(** * Bytes *)

Lemma le_length : forall k z, length (le k z) = k.
Proof. induction k; intros z; cbn [le length]; [reflexivity | now rewrite IHk]. Qed.

Lemma be_length : forall k z, length (be k z) = k.
Proof. intros k z. unfold be. rewrite rev_length. apply le_length. Qed.

Lemma pow256 : forall k, 256 ^ Z.of_nat (S k) = 256 * 256 ^ Z.of_nat k.
Proof. intros k. rewrite Nat2Z.inj_succ, Z.pow_succ_r; lia. Qed.

Lemma unle_le : forall k z, unle (le k z) = z mod 256 ^ Z.of_nat k.
Proof.
  induction k; intros z.
  - cbn. now rewrite Z.mod_1_r.
  - cbn [le unle]. rewrite IHk, pow256.
    assert (0 < 256 ^ Z.of_nat k) by (apply Z.pow_pos_nonneg; lia).
    rewrite Z.rem_mul_r by lia. lia.
Qed.

Lemma unbe_be : forall k z, unbe (be k z) = z mod 256 ^ Z.of_nat k.
Proof. intros k z. unfold unbe, be. rewrite rev_involutive. apply unle_le. Qed.

Lemma zlen_app {A : Type} : forall (a b : list A), zlen (a ++ b) = zlen a + zlen b.
Proof. intros a b. unfold zlen. rewrite app_length. lia. Qed.

Lemma zlen_nonneg {A : Type} : forall (a : list A), 0 <= zlen a.
Proof. intros a. unfold zlen. lia. Qed.

Lemma zlen_cons {A : Type} : forall x (a : list A), zlen (x :: a) = 1 + zlen a.
Proof. intros x a. unfold zlen. cbn [length]. lia. Qed.

Lemma zlen_be : forall k z, zlen (be k z) = Z.of_nat k.
Proof. intros. unfold zlen. now rewrite be_length. Qed.

Lemma take_app : forall h t, take (zlen h) (h ++ t) = Some (h, t).
Proof.
  intros h t. unfold take. rewrite zlen_app.
  replace (zlen h <=? zlen h + zlen t) with true
    by (symmetry; apply Z.leb_le; pose proof (zlen_nonneg t); lia).
  unfold zlen. rewrite Nat2Z.id.
  rewrite firstn_app, Nat.sub_diag, firstn_all, firstn_O, app_nil_r.
  rewrite skipn_app, Nat.sub_diag, skipn_all. reflexivity.
Qed.

Lemma take_num_be : forall k z t,
  take_num (Z.of_nat k) (be k z ++ t) = Some (z mod 256 ^ Z.of_nat k, t).
Proof.
  intros k z t. unfold take_num.
  rewrite <- (zlen_be k z), take_app, unbe_be. now rewrite zlen_be.
Qed.

Lemma signed_mod : forall bits z, 1 <= bits -> - 2 ^ (bits - 1) <= z < 2 ^ (bits - 1) ->
  signed bits (z mod 2 ^ bits) = z.
Proof.
  intros bits z Hb Hz. unfold signed.
  assert (Hp : 2 ^ bits = 2 * 2 ^ (bits - 1)).
  { rewrite <- Z.pow_succ_r by lia. f_equal. lia. }
  assert (0 < 2 ^ (bits - 1)) by (apply Z.pow_pos_nonneg; lia).
  destruct (Z_lt_ge_dec z 0).
  - assert (Hm : z mod 2 ^ bits = z + 2 ^ bits).
    { symmetry. apply Z.mod_unique with (-1); lia. }
    rewrite Hm. replace (z + 2 ^ bits <? 2 ^ (bits - 1)) with false
      by (symmetry; apply Z.ltb_ge; lia). lia.
  - rewrite Z.mod_small by lia.
    replace (z <? 2 ^ (bits - 1)) with true by (symmetry; apply Z.ltb_lt; lia). lia.
Qed.

(* ------------------------------------------------------------------ *)
(** * MessagePack *)

Fixpoint mval_ind' (P : mval -> Prop) (Hn : P MNil) (Hb : forall b, P (MBool b))
         (Hi : forall z, P (MInt z)) (H4 : forall b, P (MF32 b)) (H8 : forall b, P (MF64 b))
         (Hs : forall s, P (MStr s)) (Ha : forall l, Forall P l -> P (MArr l))
         (v : mval) : P v :=
  match v with
  | MNil => Hn
  | MBool b => Hb b
  | MInt z => Hi z
  | MF32 b => H4 b
  | MF64 b => H8 b
  | MStr s => Hs s
  | MArr l =>
      Ha l ((fix go (l : list mval) : Forall P l :=
               match l with
               | [] => Forall_nil P
               | x :: t => Forall_cons x (mval_ind' P Hn Hb Hi H4 H8 Hs Ha x) (go t)
               end) l)
  end.

Fixpoint depth (v : mval) : nat :=
  match v with
  | MArr l => S (fold_right Nat.max O (map depth l))
  | _ => 1%nat
  end.

Lemma dec_small : forall f b t, 0 <= b < 128 -> dec (S f) (b :: t) = Some (MInt b, t).
Proof.
  intros f b t Hb. cbn [dec].
  replace (b <? 128) with true by (symmetry; apply Z.ltb_lt; lia). reflexivity.
Qed.

Ltac ltb_false b n :=
  replace (b <? n) with false by (symmetry; apply Z.ltb_ge; lia).
Ltac ltb_true b n :=
  replace (b <? n) with true by (symmetry; apply Z.ltb_lt; lia).
Ltac eqb_false b n :=
  replace (b =? n) with false by (symmetry; apply Z.eqb_neq; lia).

Lemma dec_neg : forall f b t, 224 <= b < 256 -> dec (S f) (b :: t) = Some (MInt (b - 256), t).
Proof.
  intros f b t Hb. cbn [dec].
  ltb_false b 128; ltb_false b 144; ltb_false b 160; ltb_false b 192.
  eqb_false b 192; eqb_false b 194; eqb_false b 195; eqb_false b 202; eqb_false b 203.
  eqb_false b 204; eqb_false b 205; eqb_false b 206; eqb_false b 207; eqb_false b 208.
  eqb_false b 209; eqb_false b 210; eqb_false b 211; eqb_false b 217; eqb_false b 218.
  eqb_false b 219; eqb_false b 220; eqb_false b 221.
  ltb_false b 224. reflexivity.
Qed.

Lemma dec_fixstr : forall f n t, 0 <= n < 32 ->
  dec (S f) (160 + n :: t) = match take n t with
                             | None => None
                             | Some (s, t') => Some (MStr s, t')
                             end.
Proof.
  intros f n t Hn. cbn [dec].
  ltb_false (160 + n) 128; ltb_false (160 + n) 144; ltb_false (160 + n) 160.
  ltb_true (160 + n) 192. replace (160 + n - 160) with n by lia. reflexivity.
Qed.

Lemma dec_fixarr : forall f n t, 0 <= n < 16 ->
  dec (S f) (144 + n :: t) = if n <=? zlen t then
                               match dec_many (dec f) (Z.to_nat n) t with
                               | None => None
                               | Some (vs, t'') => Some (MArr vs, t'')
                               end
                             else None.
Proof.
  intros f n t Hn. cbn [dec].
  ltb_false (144 + n) 128; ltb_false (144 + n) 144; ltb_true (144 + n) 160.
  replace (144 + n - 144) with n by lia. reflexivity.
Qed.

Lemma dec_enc_int : forall f z rest, - 2 ^ 63 <= z < 2 ^ 64 ->
  dec (S f) (enc_int z ++ rest) = Some (MInt z, rest).
Proof.
  intros f z rest Hz. unfold enc_int.
  destruct (0 <=? z) eqn:E0; [apply Z.leb_le in E0 | apply Z.leb_gt in E0].
  - destruct (z <? 128) eqn:E1; [apply Z.ltb_lt in E1 | apply Z.ltb_ge in E1].
    { apply dec_small. lia. }
    destruct (z <? 256) eqn:E2; [apply Z.ltb_lt in E2 | apply Z.ltb_ge in E2].
    { change (match take_num 1 (be 1 z ++ rest) with
              | None => None | Some (n, t') => Some (MInt n, t') end = Some (MInt z, rest)).
      change 1 with (Z.of_nat 1) at 1. rewrite take_num_be.
      change (256 ^ Z.of_nat 1) with 256. now rewrite Z.mod_small by lia. }
    destruct (z <? 65536) eqn:E3; [apply Z.ltb_lt in E3 | apply Z.ltb_ge in E3].
    { change (match take_num 2 (be 2 z ++ rest) with
              | None => None | Some (n, t') => Some (MInt n, t') end = Some (MInt z, rest)).
      change 2 with (Z.of_nat 2) at 1. rewrite take_num_be.
      change (256 ^ Z.of_nat 2) with 65536. now rewrite Z.mod_small by lia. }
    destruct (z <? 4294967296) eqn:E4; [apply Z.ltb_lt in E4 | apply Z.ltb_ge in E4].
    { change (match take_num 4 (be 4 z ++ rest) with
              | None => None | Some (n, t') => Some (MInt n, t') end = Some (MInt z, rest)).
      change 4 with (Z.of_nat 4) at 1. rewrite take_num_be.
      change (256 ^ Z.of_nat 4) with 4294967296. now rewrite Z.mod_small by lia. }
    change (match take_num 8 (be 8 z ++ rest) with
            | None => None | Some (n, t') => Some (MInt n, t') end = Some (MInt z, rest)).
    change 8 with (Z.of_nat 8) at 1. rewrite take_num_be.
    change (256 ^ Z.of_nat 8) with (2 ^ 64). now rewrite Z.mod_small by lia.
  - destruct (-32 <=? z) eqn:E1; [apply Z.leb_le in E1 | apply Z.leb_gt in E1].
    { cbn [app]. rewrite dec_neg by lia. repeat f_equal. lia. }
    destruct (-128 <=? z) eqn:E2; [apply Z.leb_le in E2 | apply Z.leb_gt in E2].
    { change (match take_num 1 (be 1 z ++ rest) with
              | None => None | Some (n, t') => Some (MInt (signed (8 * 1) n), t') end
              = Some (MInt z, rest)).
      change 1 with (Z.of_nat 1) at 1. rewrite take_num_be.
      change (256 ^ Z.of_nat 1) with (2 ^ (8 * 1)).
      rewrite signed_mod; [reflexivity | lia | change (2 ^ (8 * 1 - 1)) with 128; lia]. }
    destruct (-32768 <=? z) eqn:E3; [apply Z.leb_le in E3 | apply Z.leb_gt in E3].
    { change (match take_num 2 (be 2 z ++ rest) with
              | None => None | Some (n, t') => Some (MInt (signed (8 * 2) n), t') end
              = Some (MInt z, rest)).
      change 2 with (Z.of_nat 2) at 1. rewrite take_num_be.
      change (256 ^ Z.of_nat 2) with (2 ^ (8 * 2)).
      rewrite signed_mod; [reflexivity | lia | change (2 ^ (8 * 2 - 1)) with 32768; lia]. }
    destruct (-2147483648 <=? z) eqn:E4; [apply Z.leb_le in E4 | apply Z.leb_gt in E4].
    { change (match take_num 4 (be 4 z ++ rest) with
              | None => None | Some (n, t') => Some (MInt (signed (8 * 4) n), t') end
              = Some (MInt z, rest)).
      change 4 with (Z.of_nat 4) at 1. rewrite take_num_be.
      change (256 ^ Z.of_nat 4) with (2 ^ (8 * 4)).
      rewrite signed_mod; [reflexivity | lia | change (2 ^ (8 * 4 - 1)) with 2147483648; lia]. }
    change (match take_num 8 (be 8 z ++ rest) with
            | None => None | Some (n, t') => Some (MInt (signed (8 * 8) n), t') end
            = Some (MInt z, rest)).
    change 8 with (Z.of_nat 8) at 1. rewrite take_num_be.
    change (256 ^ Z.of_nat 8) with (2 ^ (8 * 8)).
    rewrite signed_mod; [reflexivity | lia | change (8 * 8 - 1) with 63; lia].
Qed.

Lemma enc_int_nonempty : forall z, (1 <= length (enc_int z))%nat.
Proof.
  intros z. unfold enc_int.
  repeat match goal with |- context [if ?c then _ else _] => destruct c end;
    cbn [length]; lia.
Qed.

Lemma enc_nonempty : forall v, (1 <= length (enc v))%nat.
Proof.
  destruct v as [|[]|z|b|b|s|l]; cbn [enc]; try (cbn [length]; lia).
  - apply enc_int_nonempty.
  - rewrite app_length. unfold enc_str_head.
    repeat match goal with |- context [if ?c then _ else _] => destruct c end;
      cbn [length]; lia.
  - rewrite app_length. unfold enc_arr_head.
    repeat match goal with |- context [if ?c then _ else _] => destruct c end;
      cbn [length]; lia.
Qed.

Lemma flat_map_length_ge : forall l, (length l <= length (flat_map enc l))%nat.
Proof.
  induction l as [|v l IH]; cbn [flat_map length]; [lia|].
  rewrite app_length. pose proof (enc_nonempty v). lia.
Qed.

Lemma arr_head_length : forall n, (1 <= length (enc_arr_head n))%nat.
Proof.
  intros n. unfold enc_arr_head.
  repeat match goal with |- context [if ?c then _ else _] => destruct c end;
    cbn [length]; lia.
Qed.

Lemma depth_le : forall v, (depth v <= length (enc v))%nat.
Proof.
  induction v using mval_ind'; try apply enc_nonempty.
  cbn [depth enc]. rewrite app_length.
  assert (Hm : (fold_right Nat.max O (map depth l) <= length (flat_map enc l))%nat).
  { induction H as [|x t Hx Ht IH]; cbn [map fold_right flat_map]; [lia|].
    rewrite app_length. lia. }
  pose proof (arr_head_length (zlen l)). lia.
Qed.

Lemma dec_many_enc : forall f l rest,
  Forall (fun v => forall rest, dec f (enc v ++ rest) = Some (v, rest)) l ->
  dec_many (dec f) (length l) (flat_map enc l ++ rest) = Some (l, rest).
Proof.
  intros f l rest H. induction H as [|v t Hv Ht IH]; cbn [length dec_many flat_map].
  - reflexivity.
  - rewrite <- app_assoc, Hv, IH. reflexivity.
Qed.

Lemma leb_flat : forall l rest, (zlen l <=? zlen (flat_map enc l ++ rest)) = true.
Proof.
  intros l rest. apply Z.leb_le. rewrite zlen_app.
  pose proof (flat_map_length_ge l). pose proof (zlen_nonneg rest). unfold zlen in *. lia.
Qed.

(** MessagePack round trip: what was written is read back, and the reader stops
    where the writer did. *)
Lemma dec_enc : forall v, representable v -> forall f rest, (depth v <= f)%nat ->
  dec f (enc v ++ rest) = Some (v, rest).
Proof.
  induction v using mval_ind'; intros Hrep f rest Hf;
    destruct f as [|f]; try (cbn [depth] in Hf; lia).
  - reflexivity.
  - destruct b; reflexivity.
  - inversion Hrep; subst. apply dec_enc_int. assumption.
  - inversion Hrep as [| | |? Hb| | |]; subst.
    change (match take_num 4 (be 4 b ++ rest) with
            | None => None | Some (n, t') => Some (MF32 n, t') end = Some (MF32 b, rest)).
    change 4 with (Z.of_nat 4) at 1. rewrite take_num_be.
    change (256 ^ Z.of_nat 4) with (2 ^ 32). now rewrite Z.mod_small by lia.
  - inversion Hrep as [| | | |? Hb| |]; subst.
    change (match take_num 8 (be 8 b ++ rest) with
            | None => None | Some (n, t') => Some (MF64 n, t') end = Some (MF64 b, rest)).
    change 8 with (Z.of_nat 8) at 1. rewrite take_num_be.
    change (256 ^ Z.of_nat 8) with (2 ^ 64). now rewrite Z.mod_small by lia.
  - inversion Hrep as [| | | | |? Hs|]; subst.
    pose proof (zlen_nonneg s) as Hn.
    cbn [enc]. unfold enc_str_head.
    destruct (zlen s <? 32) eqn:E1; [apply Z.ltb_lt in E1 | apply Z.ltb_ge in E1].
    { cbn [app]. rewrite dec_fixstr by lia. now rewrite take_app. }
    destruct (zlen s <? 256) eqn:E2; [apply Z.ltb_lt in E2 | apply Z.ltb_ge in E2].
    { rewrite <- app_assoc.
      change (match take_num 1 (be 1 (zlen s) ++ s ++ rest) with
              | None => None
              | Some (n, t') => match take n t' with
                                | None => None | Some (x, t'') => Some (MStr x, t'') end
              end = Some (MStr s, rest)).
      change 1 with (Z.of_nat 1) at 1. rewrite take_num_be.
      change (256 ^ Z.of_nat 1) with 256. rewrite Z.mod_small by lia. now rewrite take_app. }
    destruct (zlen s <? 65536) eqn:E3; [apply Z.ltb_lt in E3 | apply Z.ltb_ge in E3].
    { rewrite <- app_assoc.
      change (match take_num 2 (be 2 (zlen s) ++ s ++ rest) with
              | None => None
              | Some (n, t') => match take n t' with
                                | None => None | Some (x, t'') => Some (MStr x, t'') end
              end = Some (MStr s, rest)).
      change 2 with (Z.of_nat 2) at 1. rewrite take_num_be.
      change (256 ^ Z.of_nat 2) with 65536. rewrite Z.mod_small by lia. now rewrite take_app. }
    rewrite <- app_assoc.
    change (match take_num 4 (be 4 (zlen s) ++ s ++ rest) with
            | None => None
            | Some (n, t') => match take n t' with
                              | None => None | Some (x, t'') => Some (MStr x, t'') end
            end = Some (MStr s, rest)).
    change 4 with (Z.of_nat 4) at 1. rewrite take_num_be.
    change (256 ^ Z.of_nat 4) with (2 ^ 32). rewrite Z.mod_small by lia. now rewrite take_app.
  - inversion Hrep as [| | | | | |? Hl Hall]; subst.
    pose proof (zlen_nonneg l) as Hn.
    assert (Hmany : forall t, dec_many (dec f) (Z.to_nat (zlen l)) (flat_map enc l ++ t)
                              = Some (l, t)).
    { intros t. unfold zlen at 1. rewrite Nat2Z.id. apply dec_many_enc.
      cbn [depth] in Hf. apply le_S_n in Hf.
      clear Hl Hn Hrep.
      induction l as [|v l IH]; constructor.
      - inversion H as [|? ? Hv Ht]; subst. inversion Hall as [|? ? Hrv Hrt]; subst.
        intros r. apply Hv; [assumption|]. cbn [map fold_right] in Hf. lia.
      - inversion H as [|? ? Hv Ht]; subst. inversion Hall as [|? ? Hrv Hrt]; subst.
        apply IH; [assumption | | assumption].
        cbn [map fold_right] in Hf. lia. }
    cbn [enc]. unfold enc_arr_head.
    destruct (zlen l <? 16) eqn:E1; [apply Z.ltb_lt in E1 | apply Z.ltb_ge in E1].
    { cbn [app]. rewrite dec_fixarr by lia. now rewrite leb_flat, Hmany. }
    destruct (zlen l <? 65536) eqn:E2; [apply Z.ltb_lt in E2 | apply Z.ltb_ge in E2].
    { rewrite <- app_assoc.
      change (match take_num 2 (be 2 (zlen l) ++ flat_map enc l ++ rest) with
              | None => None
              | Some (n, t') => if n <=? zlen t' then
                                  match dec_many (dec f) (Z.to_nat n) t' with
                                  | None => None
                                  | Some (vs, t'') => Some (MArr vs, t'')
                                  end
                                else None
              end = Some (MArr l, rest)).
      change 2 with (Z.of_nat 2) at 1. rewrite take_num_be.
      change (256 ^ Z.of_nat 2) with 65536. rewrite Z.mod_small by lia.
      now rewrite leb_flat, Hmany. }
    rewrite <- app_assoc.
    change (match take_num 4 (be 4 (zlen l) ++ flat_map enc l ++ rest) with
            | None => None
            | Some (n, t') => if n <=? zlen t' then
                                match dec_many (dec f) (Z.to_nat n) t' with
                                | None => None
                                | Some (vs, t'') => Some (MArr vs, t'')
                                end
                              else None
            end = Some (MArr l, rest)).
    change 4 with (Z.of_nat 4) at 1. rewrite take_num_be.
    change (256 ^ Z.of_nat 4) with (2 ^ 32). rewrite Z.mod_small by lia.
    now rewrite leb_flat, Hmany.
Qed.

Lemma decode_enc : forall v, representable v -> decode_buffer (enc v) = Some v.
Proof.
  intros v Hv. unfold decode_buffer.
  rewrite <- (app_nil_r (enc v)) at 2. rewrite dec_enc; [reflexivity | assumption |].
  pose proof (depth_le v). lia.
Qed.

(* ------------------------------------------------------------------ *)
(** * Linear memory *)

Lemma nth_error_firstn' {A : Type} : forall (l : list A) n i, (i < n)%nat ->
  nth_error (firstn n l) i = nth_error l i.
Proof.
  intros l n. revert l. induction n; intros l i Hi; [lia|].
  destruct l; [now destruct i|]. destruct i; [reflexivity|].
  cbn [firstn nth_error]. apply IHn. lia.
Qed.

Lemma nth_error_skipn' {A : Type} : forall (l : list A) n i,
  nth_error (skipn n l) i = nth_error l (n + i).
Proof.
  intros l n. revert l. induction n; intros l i; [reflexivity|].
  destruct l; [now destruct i|]. cbn [skipn Nat.add nth_error]. apply IHn.
Qed.

Lemma nth_error_ext {A : Type} : forall (a b : list A),
  length a = length b ->
  (forall i, (i < length b)%nat -> nth_error a i = nth_error b i) -> a = b.
Proof.
  induction a as [|x a IH]; intros [|y b] Hl H; try discriminate; [reflexivity|].
  cbn [length] in *. pose proof (H 0%nat ltac:(lia)) as H0. cbn in H0. injection H0 as ->.
  f_equal. apply IH; [lia|]. intros i Hi. apply (H (S i)). lia.
Qed.

Lemma mwrite_length : forall m p bs m', 0 <= p -> mwrite m p bs = Some m' ->
  length m' = length m.
Proof.
  intros m p bs m' Hp H. unfold mwrite in H.
  destruct (p + zlen bs <=? zlen m) eqn:E; [|discriminate].
  apply Z.leb_le in E. injection H as <-. unfold zlen in E.
  rewrite !app_length, firstn_length, skipn_length. lia.
Qed.

Lemma mwrite_fits : forall m p bs m', mwrite m p bs = Some m' -> p + zlen bs <= zlen m.
Proof.
  intros m p bs m' H. unfold mwrite in H.
  destruct (p + zlen bs <=? zlen m) eqn:E; [|discriminate]. now apply Z.leb_le in E.
Qed.

Lemma mwrite_in : forall m p bs m' i, 0 <= p -> mwrite m p bs = Some m' ->
  (i < length bs)%nat -> nth_error m' (Z.to_nat p + i) = nth_error bs i.
Proof.
  intros m p bs m' i Hp H Hi. pose proof (mwrite_fits _ _ _ _ H) as Hf.
  unfold mwrite in H. destruct (p + zlen bs <=? zlen m); [|discriminate].
  injection H as <-. unfold zlen in Hf.
  rewrite nth_error_app2; rewrite firstn_length_le by lia; [|lia].
  replace (Z.to_nat p + i - Z.to_nat p)%nat with i by lia.
  now apply nth_error_app1.
Qed.

Lemma mwrite_out : forall m p bs m' i, 0 <= p -> mwrite m p bs = Some m' ->
  (i < Z.to_nat p \/ Z.to_nat p + length bs <= i)%nat -> nth_error m' i = nth_error m i.
Proof.
  intros m p bs m' i Hp H Hi. pose proof (mwrite_fits _ _ _ _ H) as Hf.
  unfold mwrite in H. destruct (p + zlen bs <=? zlen m); [|discriminate].
  injection H as <-. unfold zlen in Hf. destruct Hi as [Hi|Hi].
  - rewrite nth_error_app1 by (rewrite firstn_length_le by lia; lia).
    apply nth_error_firstn'. lia.
  - rewrite nth_error_app2; rewrite firstn_length_le by lia; [|lia].
    rewrite nth_error_app2 by lia. rewrite nth_error_skipn'. f_equal. lia.
Qed.

Lemma mread_intro : forall m p l, 0 <= p -> p + zlen l <= zlen m ->
  (forall i, (i < length l)%nat -> nth_error m (Z.to_nat p + i) = nth_error l i) ->
  mread m p (zlen l) = Some l.
Proof.
  intros m p l Hp Hlen H. unfold mread.
  replace (p + zlen l <=? zlen m) with true by (symmetry; apply Z.leb_le; lia).
  f_equal. unfold zlen in *. rewrite Nat2Z.id.
  assert (Hll : length (firstn (length l) (skipn (Z.to_nat p) m)) = length l).
  { rewrite firstn_length, skipn_length. lia. }
  apply nth_error_ext; [exact Hll|].
  intros i Hi. rewrite nth_error_firstn' by lia. rewrite nth_error_skipn'. now apply H.
Qed.

Lemma nth_le : forall k z i, (i < k)%nat ->
  nth_error (le k z) i = Some ((z / 256 ^ Z.of_nat i) mod 256).
Proof.
  induction k; intros z i Hi; [lia|].
  destruct i as [|i]; cbn [le nth_error].
  - now rewrite Z.div_1_r.
  - rewrite IHk by lia. rewrite Z.div_div by (try apply Z.pow_pos_nonneg; lia).
    now rewrite pow256.
Qed.

(** Reading what [holds] describes. *)
Lemma holds_size : forall mem p bs, holds mem p bs ->
  mread mem p 4 = Some (le 4 (zlen bs)).
Proof.
  intros mem p bs (Hp & Hl & _ & Hsz & _).
  replace 4 with (zlen (le 4 (zlen bs))) at 1 by (unfold zlen; now rewrite le_length).
  pose proof (zlen_nonneg bs).
  assert (H4 : zlen (le 4 (zlen bs)) = 4) by (unfold zlen at 1; now rewrite le_length).
  apply mread_intro; [assumption | rewrite H4; lia |].
  intros i Hi. rewrite le_length in Hi. rewrite Hsz by assumption.
  now rewrite nth_le by assumption.
Qed.

Lemma holds_body : forall mem p bs, holds mem p bs ->
  mread mem (p + 4) (zlen bs) = Some bs.
Proof.
  intros mem p bs (Hp & Hl & _ & _ & Hb).
  apply mread_intro; [lia | lia |].
  intros i Hi. rewrite <- Hb by assumption. f_equal. lia.
Qed.

(** The two writes leave the length-prefixed buffer in memory, whatever its size. *)
Lemma write_holds : forall G (m : wmodule G) st v st' p size,
  write_udf_input m st v = UOk (st', p, size) ->
  exists st1 mem2,
    m_alloc m st (zlen (enc v) + 4) = Some (st1, p) /\
    0 <= p /\ size = zlen (enc v) + 4 /\ size < 2 ^ 31 /\
    mwrite (st_mem st1) p (le 8 (zlen (enc v))) = Some mem2 /\
    mwrite mem2 (p + 4) (enc v) = Some (st_mem st') /\
    st_glob st' = st_glob st1.
Proof.
  intros G m st v st' p size H. unfold write_udf_input, size_bytes in H.
  destruct (zlen (enc v) + 4 <? two31) eqn:Es; cbn [negb] in H; [|discriminate].
  apply Z.ltb_lt in Es. change two31 with (2 ^ 31) in Es.
  destruct (m_alloc m st (zlen (enc v) + 4)) as [[st1 p1]|] eqn:Ea; [|discriminate].
  destruct (p1 <? 0) eqn:Ep; [discriminate|]. apply Z.ltb_ge in Ep.
  destruct (mwrite (st_mem st1) p1 (le 8 (zlen (enc v)))) as [mem2|] eqn:Ew; [|discriminate].
  destruct (mwrite mem2 (p1 + 4) (enc v)) as [mem3|] eqn:Ew2; [|discriminate].
  injection H as <- <- <-.
  exists st1, mem2. cbn [st_mem st_glob]. split; [reflexivity|].
  split; [assumption|]. split; [reflexivity|]. split; [assumption|].
  split; [assumption|]. split; [assumption|reflexivity].
Qed.

Lemma two_writes_hold : forall mem p bs mem2 mem3,
  0 <= p -> zlen bs < 2 ^ 31 ->
  mwrite mem p (le 8 (zlen bs)) = Some mem2 ->
  mwrite mem2 (p + 4) bs = Some mem3 ->
  holds mem3 p bs.
Proof.
  intros mem p bs mem2 mem3 Hp Hsz H1 H2.
  pose proof (mwrite_length _ _ _ _ Hp H1) as Hl1.
  assert (Hp4 : 0 <= p + 4) by lia.
  pose proof (mwrite_length _ _ _ _ Hp4 H2) as Hl2.
  pose proof (mwrite_fits _ _ _ _ H2) as Hf2.
  split; [assumption|]. split; [|split; [assumption|split]].
  - unfold zlen in *. lia.
  - intros i Hi.
    rewrite (mwrite_out _ _ _ _ _ Hp4 H2) by lia.
    rewrite (mwrite_in _ _ _ _ _ Hp H1) by (rewrite le_length; lia).
    apply nth_le. lia.
  - intros i Hi.
    replace (Z.to_nat p + 4 + i)%nat with (Z.to_nat (p + 4) + i)%nat by lia.
    now apply (mwrite_in _ _ _ _ _ Hp4 H2).
Qed.

(** Reading the output of a function whose buffer holds a value. *)
Lemma read_holds : forall G (st : store G) q v,
  representable v -> holds (st_mem st) q (enc v) ->
  read_udf_output st q =
  if zlen (enc v) + 4 <? 2 ^ 31 then UOk (v, zlen (enc v) + 4) else UPanic.
Proof.
  intros G st q v Hv Hh. unfold read_udf_output, size_bytes.
  pose proof Hh as (Hq & _ & Hsz & _).
  replace (q <? 0) with false by (symmetry; apply Z.ltb_ge; lia).
  rewrite (holds_size _ _ _ Hh).
  pose proof (zlen_nonneg (enc v)) as Hn.
  assert (Hs : signed 32 (unle (le 4 (zlen (enc v)))) = zlen (enc v)).
  { rewrite unle_le. change (256 ^ Z.of_nat 4) with (2 ^ 32).
    rewrite signed_mod; [reflexivity | lia | change (2 ^ (32 - 1)) with (2 ^ 31); lia]. }
  cbv zeta. rewrite Hs.
  replace (zlen (enc v) <? 0) with false by (symmetry; apply Z.ltb_ge; lia).
  rewrite (holds_body _ _ _ Hh), decode_enc by assumption.
  reflexivity.
Qed.

(** One call of a module that computes [F]. *)
Lemma call_computes : forall G (m : wmodule G) F st args st' v,
  computes m F -> Forall representable args ->
  call m st args = UOk (st', v) -> v = F args.
Proof.
  intros G m F st args st' v [HF Hc] Hargs H. unfold call in H.
  destruct (write_udf_input m st (MArr args)) as [[[st1 p] size]| |] eqn:Ew;
    cbn [obind] in H; try discriminate.
  destruct (write_holds _ _ _ _ _ _ _ Ew) as (st0 & mem2 & Ha & Hp & Hsz & Hlt & Hw1 & Hw2 & _).
  assert (Hh : holds (st_mem st1) p (enc (MArr args))).
  { assert (Hz : zlen (enc (MArr args)) < 2 ^ 31) by lia.
    exact (two_writes_hold _ _ _ _ _ Hp Hz Hw1 Hw2). }
  destruct (m_udf m st1 p) as [[st2 q]|] eqn:Eu; [|discriminate].
  pose proof (Hc _ _ _ _ _ Hargs Hh Eu) as Hr.
  assert (Hn : zlen args < 2 ^ 32).
  { pose proof (flat_map_length_ge args) as Hge. cbn [enc] in Hsz. rewrite zlen_app in Hsz.
    pose proof (zlen_nonneg (enc_arr_head (zlen args))). unfold zlen in *. lia. }
  rewrite (read_holds _ _ _ _ (HF _ Hargs Hn) Hr) in H.
  destruct (zlen (enc (F args)) + 4 <? 2 ^ 31); cbn [obind] in H; [|discriminate].
  destruct (m_dealloc m st2 p size) as [st3|]; [|discriminate].
  destruct (m_dealloc m st3 q _) as [st4|]; [|discriminate].
  now injection H as _ <-.
Qed.

(* ------------------------------------------------------------------ *)
(** * Batches *)

Lemma max_all : forall n args, batch_of n args ->
  inferred_length args = if forallb is_scalar args then
                           (match args with [] => O | _ => 1%nat end)
                         else if existsb is_scalar args then Nat.max 1 n else n.
Proof.
  intros n args. unfold inferred_length. induction args as [|c args IH]; intros H.
  - reflexivity.
  - inversion H as [|? ? Hc Ht]; subst. specialize (IH Ht).
    cbn [map fold_right forallb existsb]. rewrite IH.
    destruct c as [a|t s]; cbn [cval_len is_scalar andb orb].
    + rewrite Hc. destruct (forallb is_scalar args) eqn:Ef.
      * destruct args as [|c' args']; cbn [existsb]; [lia|].
        cbn [forallb] in Ef. apply andb_true_iff in Ef as [-> _]. cbn [orb]. lia.
      * destruct (existsb is_scalar args); lia.
    + destruct (forallb is_scalar args) eqn:Ef.
      * destruct args; lia.
      * destruct (existsb is_scalar args); lia.
Qed.

Lemma nth_error_repeat' {A : Type} : forall (x : A) n i, (i < n)%nat ->
  nth_error (repeat x n) i = Some x.
Proof.
  intros x n. induction n; intros i Hi; [lia|]. destruct i; [reflexivity|].
  cbn. apply IHn. lia.
Qed.

(** In every row below the length, an array made from an argument has the value
    of that argument. *)
Lemma slot_at : forall L c i, (i < L)%nat ->
  nth_error (a_slots (into_array L c)) i = arg_at c i.
Proof.
  intros L [a|t s] i Hi; cbn [into_array a_slots arg_at]; [reflexivity|].
  now apply nth_error_repeat'.
Qed.

Lemma into_array_type : forall L c, a_type (into_array L c) = cval_type c.
Proof. intros L [a|t s]; reflexivity. Qed.

Lemma omap_ok {A B : Type} : forall (f : A -> outcome B) l ys,
  omap f l = UOk ys -> Forall2 (fun x y => f x = UOk y) l ys.
Proof.
  intros f l. induction l as [|x l IH]; intros ys H; cbn [omap] in H.
  - injection H as <-. constructor.
  - destruct (f x) as [y| |] eqn:Ef; cbn [obind] in H; try discriminate.
    destruct (omap f l) as [ys'| |] eqn:Eo; cbn [obind] in H; try discriminate.
    injection H as <-. constructor; [assumption|]. now apply IH.
Qed.

Lemma omap_intro {A B : Type} : forall (f : A -> outcome B) l ys,
  Forall2 (fun x y => f x = UOk y) l ys -> omap f l = UOk ys.
Proof.
  intros f l ys H. induction H as [|x y l ys Hx Ht IH]; cbn [omap]; [reflexivity|].
  rewrite Hx. cbn [obind]. rewrite IH. reflexivity.
Qed.

Lemma omap_no_panic {A B : Type} : forall (f : A -> outcome B) l,
  Forall (fun x => f x <> UPanic) l -> omap f l <> UPanic.
Proof.
  intros f l H. induction H as [|x l Hx Ht IH]; cbn [omap]; [discriminate|].
  destruct (f x); cbn [obind]; try congruence.
  destruct (omap f l); cbn [obind]; congruence.
Qed.

(** The columns of a row, numbered. *)
Lemma combine_seq_in {A : Type} : forall (tys : list A) n k j t,
  In (j, t) (combine (seq k n) tys) -> (k <= j)%nat /\ (j < k + n)%nat /\ nth_error tys (j - k) = Some t.
Proof.
  induction tys as [|t0 tys IH]; intros n k j t H.
  - rewrite combine_nil in H. destruct H.
  - destruct n as [|n]; cbn [seq combine] in H; [destruct H|].
    destruct H as [H|H].
    + injection H as -> ->. rewrite Nat.sub_diag. split; [lia|]. split; [lia|reflexivity].
    + destruct (IH _ _ _ _ H) as (H1 & H2 & H3). split; [lia|]. split; [lia|].
      replace (j - k)%nat with (S (j - S k)) by lia. exact H3.
Qed.

Lemma get_value_at : forall L args row col c,
  nth_error args col = Some c ->
  get_value (cval_type c) (map (into_array L) args) row col =
  match nth_error (a_slots (into_array L c)) row with
  | None => UPanic
  | Some s => UOk (s_val s)
  end.
Proof.
  intros L args row col c H. unfold get_value. rewrite nth_error_map, H. cbn [option_map].
  rewrite into_array_type.
  replace (atype_eqb (cval_type c) (cval_type c)) with true; [reflexivity|].
  now destruct (cval_type c).
Qed.

(** What a row hands to the function. *)
Lemma encode_row_is : forall L tys args row vs,
  length args = length tys -> (row < L)%nat ->
  encode_row tys (map (into_array L) args) row = UOk vs -> row_is tys args row vs.
Proof.
  intros L tys args row vs Hlen Hrow H. unfold encode_row in H.
  apply omap_ok in H. rewrite map_length in H. unfold row_is.
  remember args as all eqn:Eall in H at 1.
  assert (Hsub : forall j c, nth_error args j = Some c -> nth_error all (0 + j) = Some c)
    by (subst; intros; assumption).
  clear Eall. revert Hsub H. generalize 0%nat as k. revert tys vs Hlen.
  induction args as [|c args IH]; intros [|t tys] vs Hlen k Hsub H; try discriminate.
  - cbn in H |- *. inversion H; subst. constructor.
  - cbn [length seq combine] in H |- *. inversion H as [|? y ? ys Hy Ht]; subst.
    constructor.
    + unfold encode_input in Hy.
      pose proof (Hsub 0%nat c eq_refl) as Hc. rewrite Nat.add_0_r in Hc.
      unfold get_value in Hy. rewrite nth_error_map, Hc in Hy. cbn [option_map] in Hy.
      destruct (atype_eqb _ _); [|discriminate].
      rewrite slot_at in Hy by assumption.
      destruct (arg_at c row) as [s|] eqn:Ea; cbn [obind] in Hy; [|discriminate].
      injection Hy as <-. exists s. now split.
    + cbn [length] in Hlen. apply Nat.succ_inj in Hlen.
      apply (IH _ _ Hlen (S k)); [|assumption].
      intros j c' Hj. replace (S k + j)%nat with (k + S j)%nat by lia. now apply Hsub.
Qed.

(** Every call that returns gives the value of [F]. *)
Definition calls {G : Type} (m : wmodule G) (F : list mval -> mval) : Prop :=
  forall st args st' v, Forall representable args ->
    call m st args = UOk (st', v) -> v = F args.

Lemma computes_calls : forall G (m : wmodule G) F, computes m F -> calls m F.
Proof. intros G m F Hc st args st' v Ha H. exact (call_computes _ _ _ _ _ _ _ Hc Ha H). Qed.

Lemma run_rows_ok : forall G (m : wmodule G) F tys arrays rows st vs,
  calls m F ->
  (forall r ps, In r rows -> encode_row tys arrays r = UOk ps ->
                Forall representable ps) ->
  run_rows m tys arrays rows st = UOk vs ->
  Forall2 (fun r v => exists ps, encode_row tys arrays r = UOk ps /\ v = F ps) rows vs.
Proof.
  intros G m F tys arrays rows. induction rows as [|r rs IH]; intros st vs Hc Hrep H;
    cbn [run_rows] in H.
  - injection H as <-. constructor.
  - destruct (encode_row tys arrays r) as [ps| |] eqn:Ee; cbn [obind] in H; try discriminate.
    destruct (call m st ps) as [[st' v]| |] eqn:Ec; cbn [obind] in H; try discriminate.
    destruct (run_rows m tys arrays rs st') as [vs'| |] eqn:Er; cbn [obind] in H;
      try discriminate.
    injection H as <-.
    pose proof (Hrep r ps (or_introl eq_refl) Ee) as Hrp.
    constructor.
    + exists ps. split; [first [reflexivity | assumption]|]. exact (Hc _ _ _ _ Hrp Ec).
    + apply (IH st' vs' Hc); [|assumption].
      intros r' ps' Hin. apply Hrep. now right.
Qed.
