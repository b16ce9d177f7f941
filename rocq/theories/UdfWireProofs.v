(** Lemmas for C159: the host's writer and reader against the format. *)
From Coq Require Import List ZArith Lia Bool.
From Verif Require Import UdfModel UdfSpec UdfProofs UdfWireSpec.
Import ListNotations.
Open Scope Z_scope.

Scheme packed_min := Minimality for packed Sort Prop
  with packs_min := Minimality for packs Sort Prop.
Combined Scheme packed_packs_ind from packed_min, packs_min.

(* ------------------------------------------------------------------ *)
(** * Numbers *)

Lemma unbe_fold : forall l, unbe l = fold_left (fun a b => 256 * a + b) l 0.
Proof.
  intros l. unfold unbe. rewrite <- fold_left_rev_right.
  induction (rev l) as [|b t IH]; cbn [unle fold_right]; [reflexivity|]. rewrite IH. lia.
Qed.

Lemma unle_range : forall l, Forall byte l -> 0 <= unle l < 256 ^ zlen l.
Proof.
  intros l H. unfold zlen. induction H as [|b t Hb Ht IH]; [cbn; lia|].
  cbn [unle length]. rewrite pow256. unfold byte in Hb. lia.
Qed.

Lemma big_range : forall k n bs, big k n bs -> 0 <= n < 256 ^ Z.of_nat k.
Proof.
  intros k n bs (<- & Hb & ->). rewrite <- unbe_fold. unfold unbe.
  pose proof (unle_range (rev bs) (Forall_rev Hb)) as H. unfold zlen in H.
  now rewrite rev_length in H.
Qed.

Lemma le_bytes : forall k z, Forall byte (le k z).
Proof.
  induction k; intros z; constructor; [|apply IHk].
  unfold byte. pose proof (Z.mod_pos_bound z 256). lia.
Qed.

Lemma be_big : forall k z, big k (z mod 256 ^ Z.of_nat k) (be k z).
Proof.
  intros k z. split; [apply be_length|]. split.
  - unfold be. apply Forall_rev, le_bytes.
  - now rewrite <- unbe_fold, unbe_be.
Qed.

Lemma be_big_small : forall k z, 0 <= z < 256 ^ Z.of_nat k -> big k z (be k z).
Proof. intros k z H. pose proof (be_big k z) as Hb. now rewrite Z.mod_small in Hb. Qed.

Lemma twos_signed : forall k u, twos k u (signed (8 * Z.of_nat k) u).
Proof.
  intros k u. unfold twos, signed.
  destruct (u <? 2 ^ (8 * Z.of_nat k - 1)) eqn:E.
  - apply Z.ltb_lt in E. now left.
  - apply Z.ltb_ge in E. now right.
Qed.

Lemma twos_fun : forall k u n, twos k u n -> n = signed (8 * Z.of_nat k) u.
Proof.
  intros k u n H. unfold signed.
  destruct H as [[H ->] | [H ->] ].
  - apply Z.ltb_lt in H. now rewrite H.
  - apply Z.ltb_ge in H. now rewrite H.
Qed.

Lemma take_num_big : forall k n bs rest, big k n bs ->
  take_num (Z.of_nat k) (bs ++ rest) = Some (n, rest).
Proof.
  intros k n bs rest (Hl & _ & ->). unfold take_num.
  replace (Z.of_nat k) with (zlen bs) by (unfold zlen; now rewrite Hl).
  rewrite take_app, unbe_fold. reflexivity.
Qed.

(* ------------------------------------------------------------------ *)
(** * Writing *)

Lemma packed_int : forall z, - 2 ^ 63 <= z < 2 ^ 64 -> packed (MInt z) (enc_int z).
Proof.
  intros z Hz. unfold enc_int.
  destruct (0 <=? z) eqn:E0; [apply Z.leb_le in E0 | apply Z.leb_gt in E0].
  - destruct (z <? 128) eqn:E1; [apply Z.ltb_lt in E1 | apply Z.ltb_ge in E1].
    { apply pk_small. lia. }
    destruct (z <? 256) eqn:E2; [apply Z.ltb_lt in E2 | apply Z.ltb_ge in E2].
    { apply pk_unsigned with 1%nat; [now left|]. apply be_big_small.
      change (256 ^ Z.of_nat 1) with 256. lia. }
    destruct (z <? 65536) eqn:E3; [apply Z.ltb_lt in E3 | apply Z.ltb_ge in E3].
    { apply pk_unsigned with 2%nat; [right; now left|]. apply be_big_small.
      change (256 ^ Z.of_nat 2) with 65536. lia. }
    destruct (z <? 4294967296) eqn:E4; [apply Z.ltb_lt in E4 | apply Z.ltb_ge in E4].
    { apply pk_unsigned with 4%nat; [do 2 right; now left|]. apply be_big_small.
      change (256 ^ Z.of_nat 4) with 4294967296. lia. }
    apply pk_unsigned with 8%nat; [do 3 right; now left|]. apply be_big_small.
    change (256 ^ Z.of_nat 8) with (2 ^ 64). lia.
  - destruct (-32 <=? z) eqn:E1; [apply Z.leb_le in E1 | apply Z.leb_gt in E1].
    { apply pk_negative. lia. }
    assert (Hneg : forall k, (1 <= k)%nat -> - 2 ^ (8 * Z.of_nat k - 1) <= z ->
              twos k (z mod 256 ^ Z.of_nat k) z).
    { intros k Hk Hlo.
      replace (256 ^ Z.of_nat k) with (2 ^ (8 * Z.of_nat k))
        by (rewrite Z.pow_mul_r by lia; reflexivity).
      assert (Hpos : 0 < 2 ^ (8 * Z.of_nat k - 1)) by (apply Z.pow_pos_nonneg; lia).
      rewrite <- (signed_mod (8 * Z.of_nat k) z) at 2 by lia.
      apply twos_signed. }
    destruct (-128 <=? z) eqn:E2; [apply Z.leb_le in E2 | apply Z.leb_gt in E2].
    { apply pk_signed with 1%nat (z mod 256 ^ Z.of_nat 1); [now left | apply be_big |].
      apply Hneg; [lia|]. change (2 ^ (8 * Z.of_nat 1 - 1)) with 128. lia. }
    destruct (-32768 <=? z) eqn:E3; [apply Z.leb_le in E3 | apply Z.leb_gt in E3].
    { apply pk_signed with 2%nat (z mod 256 ^ Z.of_nat 2);
        [right; now left | apply be_big |].
      apply Hneg; [lia|]. change (2 ^ (8 * Z.of_nat 2 - 1)) with 32768. lia. }
    destruct (-2147483648 <=? z) eqn:E4; [apply Z.leb_le in E4 | apply Z.leb_gt in E4].
    { apply pk_signed with 4%nat (z mod 256 ^ Z.of_nat 4);
        [do 2 right; now left | apply be_big |].
      apply Hneg; [lia|]. change (2 ^ (8 * Z.of_nat 4 - 1)) with 2147483648. lia. }
    apply pk_signed with 8%nat (z mod 256 ^ Z.of_nat 8);
      [do 3 right; now left | apply be_big |].
    apply Hneg; [lia|]. change (2 ^ (8 * Z.of_nat 8 - 1)) with (2 ^ 63). lia.
Qed.

Lemma packed_enc : forall v, representable v -> packed v (enc v).
Proof.
  induction v using mval_ind'; intros Hrep.
  - constructor.
  - destruct b; constructor.
  - inversion Hrep; subst. now apply packed_int.
  - inversion Hrep as [| | |? Hb| | |]; subst. constructor. now apply be_big_small.
  - inversion Hrep as [| | | |? Hb| |]; subst. constructor. now apply be_big_small.
  - inversion Hrep as [| | | | |? Hs|]; subst. pose proof (zlen_nonneg s) as Hn.
    cbn [enc]. unfold enc_str_head.
    destruct (zlen s <? 32) eqn:E1; [apply Z.ltb_lt in E1 | apply Z.ltb_ge in E1].
    { cbn [app]. apply pk_short. lia. }
    destruct (zlen s <? 256) eqn:E2; [apply Z.ltb_lt in E2 | apply Z.ltb_ge in E2].
    { apply (pk_text 217 1 s (be 1 (zlen s))); [now left|]. apply be_big_small.
      change (256 ^ Z.of_nat 1) with 256. lia. }
    destruct (zlen s <? 65536) eqn:E3; [apply Z.ltb_lt in E3 | apply Z.ltb_ge in E3].
    { apply (pk_text 218 2 s (be 2 (zlen s))); [right; now left|]. apply be_big_small.
      change (256 ^ Z.of_nat 2) with 65536. lia. }
    apply (pk_text 219 4 s (be 4 (zlen s))); [do 2 right; now left|]. apply be_big_small.
    change (256 ^ Z.of_nat 4) with (2 ^ 32). lia.
  - inversion Hrep as [| | | | | |? Hl Hall]; subst. pose proof (zlen_nonneg l) as Hn.
    assert (Hb : packs l (flat_map enc l)).
    { clear Hl Hn Hrep. induction l as [|v l IH]; cbn [flat_map]; constructor.
      - inversion H as [|? ? Hv Ht]; subst. inversion Hall; subst. now apply Hv.
      - inversion H as [|? ? Hv Ht]; subst. inversion Hall; subst. now apply IH. }
    cbn [enc]. unfold enc_arr_head.
    destruct (zlen l <? 16) eqn:E1; [apply Z.ltb_lt in E1 | apply Z.ltb_ge in E1].
    { cbn [app]. apply pk_few; [lia | assumption]. }
    destruct (zlen l <? 65536) eqn:E2; [apply Z.ltb_lt in E2 | apply Z.ltb_ge in E2].
    { apply (pk_list 220 2 l (be 2 (zlen l))); [now left | | assumption]. apply be_big_small.
      change (256 ^ Z.of_nat 2) with 65536. lia. }
    apply (pk_list 221 4 l (be 4 (zlen l))); [right; now left | | assumption].
    apply be_big_small. change (256 ^ Z.of_nat 4) with (2 ^ 32). lia.
Qed.

(* ------------------------------------------------------------------ *)
(** * Reading *)

Lemma packed_nonempty_and :
  (forall v bs, packed v bs -> (1 <= length bs)%nat) /\
  (forall l body, packs l body -> (length l <= length body)%nat).
Proof.
  apply packed_packs_ind; intros; cbn [length]; try lia.
  rewrite app_length. lia.
Qed.

Lemma dec_unsigned : forall f tag k t,
  In (tag, k) [(204, 1%nat); (205, 2%nat); (206, 4%nat); (207, 8%nat)] ->
  dec (S f) (tag :: t) = match take_num (Z.of_nat k) t with
                         | None => None
                         | Some (n, t') => Some (MInt n, t')
                         end.
Proof.
  intros f tag k t H. cbn [In] in H.
  destruct H as [H|[H|[H|[H|[]] ] ] ]; injection H as <- <-; reflexivity.
Qed.

Lemma dec_signed : forall f tag k t,
  In (tag, k) [(208, 1%nat); (209, 2%nat); (210, 4%nat); (211, 8%nat)] ->
  dec (S f) (tag :: t) = match take_num (Z.of_nat k) t with
                         | None => None
                         | Some (n, t') => Some (MInt (signed (8 * Z.of_nat k) n), t')
                         end.
Proof.
  intros f tag k t H. cbn [In] in H.
  destruct H as [H|[H|[H|[H|[]] ] ] ]; injection H as <- <-; reflexivity.
Qed.

Lemma dec_text : forall f tag k t,
  In (tag, k) [(217, 1%nat); (218, 2%nat); (219, 4%nat)] ->
  dec (S f) (tag :: t) = match take_num (Z.of_nat k) t with
                         | None => None
                         | Some (n, t') =>
                             match take n t' with
                             | None => None
                             | Some (s, t'') => Some (MStr s, t'')
                             end
                         end.
Proof.
  intros f tag k t H. cbn [In] in H.
  destruct H as [H|[H|[H|[]] ] ]; injection H as <- <-; reflexivity.
Qed.

Lemma dec_list : forall f tag k t,
  In (tag, k) [(220, 2%nat); (221, 4%nat)] ->
  dec (S f) (tag :: t) = match take_num (Z.of_nat k) t with
                         | None => None
                         | Some (n, t') =>
                             if n <=? zlen t' then
                               match dec_many (dec f) (Z.to_nat n) t' with
                               | None => None
                               | Some (vs, t'') => Some (MArr vs, t'')
                               end
                             else None
                         end.
Proof.
  intros f tag k t H. cbn [In] in H.
  destruct H as [H|[H|[]] ]; injection H as <- <-; reflexivity.
Qed.

(** What the format allows is read, from the front of a buffer. *)
Lemma dec_packed :
  (forall v bs, packed v bs ->
     forall f rest, (length bs <= f)%nat -> dec f (bs ++ rest) = Some (v, rest)) /\
  (forall l body, packs l body ->
     forall f rest, (length body <= f)%nat ->
     dec_many (dec f) (length l) (body ++ rest) = Some (l, rest)).
Proof.
  apply packed_packs_ind.
  - intros f rest Hf. destruct f; [cbn in Hf; lia|]. reflexivity.
  - intros f rest Hf. destruct f; [cbn in Hf; lia|]. reflexivity.
  - intros f rest Hf. destruct f; [cbn in Hf; lia|]. reflexivity.
  - intros n Hn f rest Hf. destruct f; [cbn in Hf; lia|]. apply dec_small. lia.
  - intros n Hn f rest Hf. destruct f; [cbn in Hf; lia|]. cbn [app].
    rewrite dec_neg by lia. repeat f_equal. lia.
  - intros tag k n bs Hin Hb f rest Hf. destruct f; [cbn in Hf; lia|]. cbn [app].
    now rewrite (dec_unsigned _ _ _ _ Hin), (take_num_big _ _ _ _ Hb).
  - intros tag k n u bs Hin Hb Ht f rest Hf. destruct f; [cbn in Hf; lia|]. cbn [app].
    rewrite (dec_signed _ _ _ _ Hin), (take_num_big _ _ _ _ Hb).
    now rewrite (twos_fun _ _ _ Ht).
  - intros n bs Hb f rest Hf. destruct f; [cbn in Hf; lia|].
    change (match take_num (Z.of_nat 4) (bs ++ rest) with
            | None => None | Some (x, t') => Some (MF32 x, t') end = Some (MF32 n, rest)).
    now rewrite (take_num_big _ _ _ _ Hb).
  - intros n bs Hb f rest Hf. destruct f; [cbn in Hf; lia|].
    change (match take_num (Z.of_nat 8) (bs ++ rest) with
            | None => None | Some (x, t') => Some (MF64 x, t') end = Some (MF64 n, rest)).
    now rewrite (take_num_big _ _ _ _ Hb).
  - intros s Hs f rest Hf. destruct f; [cbn in Hf; lia|]. cbn [app].
    pose proof (zlen_nonneg s). rewrite dec_fixstr by lia. now rewrite take_app.
  - intros tag k s bs Hin Hb f rest Hf. destruct f; [cbn in Hf; lia|].
    cbn [app]. rewrite <- app_assoc.
    now rewrite (dec_text _ _ _ _ Hin), (take_num_big _ _ _ _ Hb), take_app.
  - intros l body Hl Hp IH f rest Hf. destruct f; [cbn in Hf; lia|]. cbn [app].
    pose proof (zlen_nonneg l) as Hn. rewrite dec_fixarr by lia.
    pose proof (proj2 packed_nonempty_and _ _ Hp) as Hlen.
    replace (zlen l <=? zlen (body ++ rest)) with true.
    + unfold zlen at 1. rewrite Nat2Z.id. cbn [length] in Hf.
      now rewrite IH by lia.
    + symmetry. apply Z.leb_le. rewrite zlen_app. pose proof (zlen_nonneg rest).
      unfold zlen in *. lia.
  - intros tag k l bs body Hin Hb Hp IH f rest Hf. destruct f; [cbn in Hf; lia|].
    cbn [app]. rewrite <- app_assoc.
    rewrite (dec_list _ _ _ _ Hin), (take_num_big _ _ _ _ Hb).
    pose proof (proj2 packed_nonempty_and _ _ Hp) as Hlen.
    replace (zlen l <=? zlen (body ++ rest)) with true.
    + unfold zlen at 1. rewrite Nat2Z.id. cbn [length] in Hf. rewrite app_length in Hf.
      now rewrite IH by lia.
    + symmetry. apply Z.leb_le. rewrite zlen_app. pose proof (zlen_nonneg rest).
      unfold zlen in *. lia.
  - intros f rest Hf. reflexivity.
  - intros v l bs body Hv IHv Hl IHl f rest Hf. rewrite app_length in Hf.
    cbn [length dec_many]. rewrite <- app_assoc.
    rewrite IHv by lia. now rewrite IHl by lia.
Qed.

(** And nothing else. *)
Lemma take_inv : forall n l h t, take n l = Some (h, t) -> 0 <= n ->
  l = h ++ t /\ zlen h = n.
Proof.
  intros n l h t H Hn. unfold take in H.
  destruct (n <=? zlen l) eqn:E; [|discriminate]. apply Z.leb_le in E.
  injection H as <- <-. split; [symmetry; apply firstn_skipn|].
  unfold zlen in *. rewrite firstn_length. lia.
Qed.

Lemma take_num_inv : forall k l n t, take_num (Z.of_nat k) l = Some (n, t) ->
  Forall byte l -> exists h, l = h ++ t /\ big k n h.
Proof.
  intros k l n t H Hb. unfold take_num in H.
  destruct (take (Z.of_nat k) l) as [[h t']|] eqn:E; [|discriminate].
  injection H as <- <-. destruct (take_inv _ _ _ _ E ltac:(lia)) as [-> Hz].
  apply Forall_app in Hb as [Hb _]. exists h. split; [reflexivity|].
  split; [unfold zlen in Hz; lia|]. split; [assumption|]. apply unbe_fold.
Qed.

Lemma dec_many_inv : forall d,
  (forall l v rest, Forall byte l -> d l = Some (v, rest) ->
     exists bs, l = bs ++ rest /\ packed v bs) ->
  forall n l vs rest, Forall byte l -> dec_many d n l = Some (vs, rest) ->
  exists body, l = body ++ rest /\ packs vs body /\ length vs = n.
Proof.
  intros d Hd n. induction n as [|n IH]; intros l vs rest Hb H; cbn [dec_many] in H.
  - injection H as <- <-. exists []. split; [reflexivity|]. split; [constructor|reflexivity].
  - destruct (d l) as [[v l']|] eqn:Ed; [|discriminate].
    destruct (dec_many d n l') as [[vs' l'']|] eqn:Em; [|discriminate].
    injection H as <- <-.
    destruct (Hd _ _ _ Hb Ed) as (bs & -> & Hp).
    apply Forall_app in Hb as [_ Hb'].
    destruct (IH _ _ _ Hb' Em) as (body & -> & Hps & Hl).
    exists (bs ++ body). split; [apply app_assoc|]. split; [now constructor|].
    cbn [length]. now rewrite Hl.
Qed.

Lemma dec_inv : forall f l v rest, Forall byte l -> dec f l = Some (v, rest) ->
  exists bs, l = bs ++ rest /\ packed v bs.
Proof.
  induction f as [|f IH]; intros l v rest Hb H; [discriminate|].
  destruct l as [|b t]; [discriminate|].
  inversion Hb as [|? ? Hb0 Ht]; subst. unfold byte in Hb0.
  assert (Hnum : forall k n t', take_num (Z.of_nat k) t = Some (n, t') ->
            exists h, t = h ++ t' /\ big k n h /\ Forall byte t').
  { intros k n t' E. destruct (take_num_inv _ _ _ _ E Ht) as (h & -> & Hbig).
    exists h. split; [reflexivity|]. split; [assumption|]. now apply Forall_app in Ht as [_ Ht']. }
  assert (Hu : forall k, In (b, k) [(204, 1%nat); (205, 2%nat); (206, 4%nat); (207, 8%nat)] ->
            exists bs, b :: t = bs ++ rest /\ packed v bs).
  { intros k Hin. rewrite (dec_unsigned _ _ _ _ Hin) in H.
    destruct (take_num (Z.of_nat k) t) as [[n t']|] eqn:E; [|discriminate].
    injection H as <- <-. destruct (Hnum _ _ _ E) as (h & -> & Hbig & _).
    exists (b :: h). split; [reflexivity|]. now apply pk_unsigned with k. }
  assert (Hs : forall k, In (b, k) [(208, 1%nat); (209, 2%nat); (210, 4%nat); (211, 8%nat)] ->
            exists bs, b :: t = bs ++ rest /\ packed v bs).
  { intros k Hin. rewrite (dec_signed _ _ _ _ Hin) in H.
    destruct (take_num (Z.of_nat k) t) as [[n t']|] eqn:E; [|discriminate].
    injection H as <- <-. destruct (Hnum _ _ _ E) as (h & -> & Hbig & _).
    exists (b :: h). split; [reflexivity|]. apply pk_signed with k n; [assumption|assumption|].
    apply twos_signed. }
  assert (Hx : forall k, In (b, k) [(217, 1%nat); (218, 2%nat); (219, 4%nat)] ->
            exists bs, b :: t = bs ++ rest /\ packed v bs).
  { intros k Hin. rewrite (dec_text _ _ _ _ Hin) in H.
    destruct (take_num (Z.of_nat k) t) as [[n t']|] eqn:E; [|discriminate].
    destruct (take n t') as [[s t'']|] eqn:E2; [|discriminate].
    injection H as <- <-. destruct (Hnum _ _ _ E) as (h & -> & Hbig & _).
    pose proof (big_range _ _ _ Hbig).
    destruct (take_inv _ _ _ _ E2 ltac:(lia)) as [-> Hz].
    exists (b :: h ++ s). split; [cbn [app]; now rewrite <- app_assoc|].
    apply pk_text with k; [assumption|]. now rewrite Hz. }
  assert (Hl : forall k, In (b, k) [(220, 2%nat); (221, 4%nat)] ->
            exists bs, b :: t = bs ++ rest /\ packed v bs).
  { intros k Hin. rewrite (dec_list _ _ _ _ Hin) in H.
    destruct (take_num (Z.of_nat k) t) as [[n t']|] eqn:E; [|discriminate].
    destruct (n <=? zlen t'); [|discriminate].
    destruct (dec_many (dec f) (Z.to_nat n) t') as [[vs t'']|] eqn:E2; [|discriminate].
    injection H as <- <-. destruct (Hnum _ _ _ E) as (h & -> & Hbig & Ht').
    pose proof (big_range _ _ _ Hbig).
    destruct (dec_many_inv _ IH _ _ _ _ Ht' E2) as (body & -> & Hps & Hlen).
    exists (b :: h ++ body). split; [cbn [app]; now rewrite <- app_assoc|].
    apply pk_list with k; [assumption| |assumption].
    replace (zlen vs) with n by (unfold zlen; lia). assumption. }
  destruct (Z_lt_ge_dec b 128) as [C1|C1].
  { rewrite dec_small in H by lia. injection H as <- <-. exists [b].
    split; [reflexivity|]. apply pk_small. lia. }
  destruct (Z_lt_ge_dec b 144) as [C2|C2].
  { exfalso. cbn [dec] in H.
    destruct (b <? 128) eqn:E1; [apply Z.ltb_lt in E1; lia|].
    destruct (b <? 144) eqn:E2; [discriminate | apply Z.ltb_ge in E2; lia]. }
  destruct (Z_lt_ge_dec b 160) as [C3|C3].
  { clear Hu Hs Hx Hl. replace b with (144 + (b - 144)) in H by lia.
    rewrite dec_fixarr in H by lia.
    destruct (b - 144 <=? zlen t); [|discriminate].
    destruct (dec_many (dec f) (Z.to_nat (b - 144)) t) as [[vs t'']|] eqn:E2; [|discriminate].
    injection H as <- <-.
    destruct (dec_many_inv _ IH _ _ _ _ Ht E2) as (body & -> & Hps & Hlen).
    exists (b :: body). split; [reflexivity|].
    assert (Hz : zlen vs = b - 144) by (unfold zlen; lia).
    replace b with (144 + zlen vs) by lia. apply pk_few; [lia | assumption]. }
  destruct (Z_lt_ge_dec b 192) as [C4|C4].
  { clear Hu Hs Hx Hl. replace b with (160 + (b - 160)) in H by lia.
    rewrite dec_fixstr in H by lia.
    destruct (take (b - 160) t) as [[s t']|] eqn:E; [|discriminate].
    injection H as <- <-. destruct (take_inv _ _ _ _ E ltac:(lia)) as [-> Hz].
    exists (b :: s). split; [reflexivity|].
    replace b with (160 + zlen s) by lia. apply pk_short. lia. }
  destruct (Z_lt_ge_dec b 224) as [C5|C5].
  2:{ rewrite dec_neg in H by lia. injection H as <- <-. exists [b].
      split; [reflexivity|]. replace b with (256 + (b - 256)) at 2 by lia.
      apply pk_negative. lia. }
  assert (Hc : In b [192; 194; 195; 202; 203; 204; 205; 206; 207; 208; 209; 210; 211;
                     217; 218; 219; 220; 221] \/ dec (S f) (b :: t) = None).
  { clear -C4 C5. cbn [dec].
    destruct (b <? 128) eqn:E1; [apply Z.ltb_lt in E1; lia|].
    destruct (b <? 144) eqn:E2; [apply Z.ltb_lt in E2; lia|].
    destruct (b <? 160) eqn:E3; [apply Z.ltb_lt in E3; lia|].
    destruct (b <? 192) eqn:E4; [apply Z.ltb_lt in E4; lia|].
    clear E1 E2 E3 E4.
    destruct (b <? 224) eqn:E5; [|apply Z.ltb_ge in E5; lia]. clear E5.
    repeat match goal with
    | |- context [b =? ?n] =>
        let E := fresh in
        destruct (b =? n) eqn:E; [apply Z.eqb_eq in E; subst b; left; cbn [In]; tauto |]
    end.
    now right. }
  destruct Hc as [Hc|Hc]; [|congruence]. cbn [In] in Hc.
  destruct Hc as [Hc|Hc].
  { subst b. cbn in H. injection H as <- <-. exists [192]. split; [reflexivity | constructor]. }
  destruct Hc as [Hc|Hc].
  { subst b. cbn in H. injection H as <- <-. exists [194]. split; [reflexivity | constructor]. }
  destruct Hc as [Hc|Hc].
  { subst b. cbn in H. injection H as <- <-. exists [195]. split; [reflexivity | constructor]. }
  destruct Hc as [Hc|Hc].
  { subst b. change (match take_num (Z.of_nat 4) t with
            | None => None | Some (x, t') => Some (MF32 x, t') end = Some (v, rest)) in H.
    destruct (take_num (Z.of_nat 4) t) as [[n t']|] eqn:E; [|discriminate].
    injection H as <- <-. destruct (Hnum _ _ _ E) as (h & -> & Hbig & _).
    exists (202 :: h). split; [reflexivity|]. now constructor. }
  destruct Hc as [Hc|Hc].
  { subst b. change (match take_num (Z.of_nat 8) t with
            | None => None | Some (x, t') => Some (MF64 x, t') end = Some (v, rest)) in H.
    destruct (take_num (Z.of_nat 8) t) as [[n t']|] eqn:E; [|discriminate].
    injection H as <- <-. destruct (Hnum _ _ _ E) as (h & -> & Hbig & _).
    exists (203 :: h). split; [reflexivity|]. now constructor. }
  clear H.
  destruct Hc as [<-|Hc]; [apply (Hu 1%nat); cbn [In]; tauto|].
  destruct Hc as [<-|Hc]; [apply (Hu 2%nat); cbn [In]; tauto|].
  destruct Hc as [<-|Hc]; [apply (Hu 4%nat); cbn [In]; tauto|].
  destruct Hc as [<-|Hc]; [apply (Hu 8%nat); cbn [In]; tauto|].
  destruct Hc as [<-|Hc]; [apply (Hs 1%nat); cbn [In]; tauto|].
  destruct Hc as [<-|Hc]; [apply (Hs 2%nat); cbn [In]; tauto|].
  destruct Hc as [<-|Hc]; [apply (Hs 4%nat); cbn [In]; tauto|].
  destruct Hc as [<-|Hc]; [apply (Hs 8%nat); cbn [In]; tauto|].
  destruct Hc as [<-|Hc]; [apply (Hx 1%nat); cbn [In]; tauto|].
  destruct Hc as [<-|Hc]; [apply (Hx 2%nat); cbn [In]; tauto|].
  destruct Hc as [<-|Hc]; [apply (Hx 4%nat); cbn [In]; tauto|].
  destruct Hc as [<-|Hc]; [apply (Hl 2%nat); cbn [In]; tauto|].
  destruct Hc as [<-|Hc]; [apply (Hl 4%nat); cbn [In]; tauto|].
  destruct Hc.
Qed.

(* ------------------------------------------------------------------ *)
(** * Calls *)

Lemma decode_packed : forall v bs rest, packed v bs -> decode_buffer (bs ++ rest) = Some v.
Proof.
  intros v bs rest H. unfold decode_buffer.
  rewrite (proj1 dec_packed _ _ H); [reflexivity|]. rewrite app_length. lia.
Qed.

(** Reading an answer. *)
Lemma read_packed : forall G (st : store G) q v bs,
  packed v bs -> holds (st_mem st) q bs ->
  read_udf_output st q = if zlen bs + 4 <? 2 ^ 31 then UOk (v, zlen bs + 4) else UPanic.
Proof.
  intros G st q v bs Hv Hh. unfold read_udf_output, size_bytes.
  pose proof Hh as (Hq & _ & Hsz & _).
  replace (q <? 0) with false by (symmetry; apply Z.ltb_ge; lia).
  rewrite (holds_size _ _ _ Hh).
  pose proof (zlen_nonneg bs) as Hn.
  assert (Hs : signed 32 (unle (le 4 (zlen bs))) = zlen bs).
  { rewrite unle_le. change (256 ^ Z.of_nat 4) with (2 ^ 32).
    rewrite signed_mod; [reflexivity | lia | change (2 ^ (32 - 1)) with (2 ^ 31); lia]. }
  cbv zeta. rewrite Hs.
  replace (zlen bs <? 0) with false by (symmetry; apply Z.ltb_ge; lia).
  rewrite (holds_body _ _ _ Hh).
  rewrite <- (app_nil_r bs) at 1. rewrite (decode_packed _ _ _ Hv). reflexivity.
Qed.

(** One call of a module that follows the format. *)
Lemma call_speaks : forall G (m : wmodule G) F st args st' v,
  speaks m F -> Forall representable args ->
  call m st args = UOk (st', v) -> v = F args.
Proof.
  intros G m F st args st' v Hc Hargs H. unfold call in H.
  destruct (write_udf_input m st (MArr args)) as [[[st1 p] size]| |] eqn:Ew;
    cbn [obind] in H; try discriminate.
  destruct (write_holds _ _ _ _ _ _ _ Ew) as (st0 & mem2 & Ha & Hp & Hsz & Hlt & Hw1 & Hw2 & _).
  assert (Hh : holds (st_mem st1) p (enc (MArr args))).
  { assert (Hz : zlen (enc (MArr args)) < 2 ^ 31) by lia.
    exact (two_writes_hold _ _ _ _ _ Hp Hz Hw1 Hw2). }
  destruct (m_udf m st1 p) as [[st2 q]|] eqn:Eu; [|discriminate].
  assert (Hn : zlen args < 2 ^ 32).
  { pose proof (flat_map_length_ge args) as Hge. cbn [enc] in Hsz. rewrite zlen_app in Hsz.
    pose proof (zlen_nonneg (enc_arr_head (zlen args))). unfold zlen in *. lia. }
  assert (Hpk : packed (MArr args) (enc (MArr args))).
  { apply packed_enc. now constructor. }
  destruct (Hc _ _ _ _ _ _ Hpk Hh Eu) as (bs' & Hpk' & Hh').
  rewrite (read_packed _ _ _ _ _ Hpk' Hh') in H.
  destruct (zlen bs' + 4 <? 2 ^ 31); cbn [obind] in H; [|discriminate].
  destruct (m_dealloc m st2 p size) as [st3|]; [|discriminate].
  destruct (m_dealloc m st3 q _) as [st4|]; [|discriminate].
  now injection H as _ <-.
Qed.
