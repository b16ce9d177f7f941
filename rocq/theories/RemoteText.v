(* The UTF-8 check of the model accepts exactly the encodings of characters. Specification: RemoteSpec.v, model: RemoteModel.v. *)
From Coq Require Import Ascii String List Arith NArith Bool Lia ZArith.
From Verif Require Import HttpModel RemoteModel RemoteSpec.
Import ListNotations.
Open Scope list_scope.
#[local] Ltac Zify.zify_post_hook ::= Z.to_euclidean_division_equations.
Lemma between_iff lo hi c : between lo hi c = true <-> (N.of_nat lo <= N_of_ascii c <= N.of_nat hi)%N.
Proof. unfold between, nat_of_ascii. rewrite andb_true_iff, !Nat.leb_le. lia. Qed.
Lemma between_not lo hi c : between lo hi c = false <-> (N_of_ascii c < N.of_nat lo \/ N.of_nat hi < N_of_ascii c)%N.
Proof. rewrite <- not_true_iff_false, between_iff. lia. Qed.
Lemma utf8_1 a r : (N_of_ascii a <= 127)%N -> utf8 (a :: r) = utf8 r.
Proof. intros A. cbn [utf8]. rewrite (proj2 (between_iff 0 127 a)) by lia. reflexivity. Qed.
Lemma utf8_2 a b r : (194 <= N_of_ascii a <= 223)%N -> (128 <= N_of_ascii b <= 191)%N -> utf8 (a :: b :: r) = utf8 r.
Proof. intros A B. cbn [utf8]. unfold tail. rewrite (proj2 (between_not 0 127 a)), (proj2 (between_iff 194 223 a)), (proj2 (between_iff 128 191 b)) by lia. reflexivity. Qed.
Lemma utf8_3 a b c r : (224 <= N_of_ascii a <= 239)%N -> (128 <= N_of_ascii b <= 191)%N -> (128 <= N_of_ascii c <= 191)%N -> (N_of_ascii a = 224 -> 160 <= N_of_ascii b)%N -> (N_of_ascii a = 237 -> N_of_ascii b <= 159)%N ->
  utf8 (a :: b :: c :: r) = utf8 r.
Proof.
  intros A B C L H. cbn [utf8]. unfold tail. rewrite (proj2 (between_not 0 127 a)), (proj2 (between_not 194 223 a)), (proj2 (between_iff 224 239 a)), (proj2 (between_iff 128 191 c)) by lia.
  assert (X : between (if between 224 224 a then 160 else 128) (if between 237 237 a then 159 else 191) b = true).
  { destruct (between 224 224 a) eqn:Q1; [apply between_iff in Q1|]; (destruct (between 237 237 a) eqn:Q2; [apply between_iff in Q2|]); apply between_iff; lia. }
  rewrite X. reflexivity.
Qed.
Lemma utf8_4 a b c d r : (240 <= N_of_ascii a <= 244)%N -> (128 <= N_of_ascii b <= 191)%N -> (128 <= N_of_ascii c <= 191)%N -> (128 <= N_of_ascii d <= 191)%N -> (N_of_ascii a = 240 -> 144 <= N_of_ascii b)%N -> (N_of_ascii a = 244 -> N_of_ascii b <= 143)%N ->
  utf8 (a :: b :: c :: d :: r) = utf8 r.
Proof.
  intros A B C D L H. cbn [utf8]. unfold tail. rewrite (proj2 (between_not 0 127 a)), (proj2 (between_not 194 223 a)), (proj2 (between_not 224 239 a)), (proj2 (between_iff 240 244 a)), (proj2 (between_iff 128 191 c)), (proj2 (between_iff 128 191 d)) by lia.
  assert (X : between (if between 240 240 a then 144 else 128) (if between 244 244 a then 143 else 191) b = true).
  { destruct (between 240 240 a) eqn:Q1; [apply between_iff in Q1|]; (destruct (between 244 244 a) eqn:Q2; [apply between_iff in Q2|]); apply between_iff; lia. }
  rewrite X. reflexivity.
Qed.
Lemma byte_of n : (n < 256)%N -> N_of_ascii (ascii_of_N n) = n.
Proof. apply N_ascii_embedding. Qed.
Lemma utf8_encoding n t : scalar n -> utf8 (encoding n ++ t) = utf8 t.
Proof.
  intros [S T]. unfold encoding. destruct (n <? 128)%N eqn:A; [apply N.ltb_lt in A|apply N.ltb_ge in A].
  { cbn [map app]. apply utf8_1. rewrite byte_of; lia. }
  destruct (n <? 2048)%N eqn:B; [apply N.ltb_lt in B|apply N.ltb_ge in B].
  { cbn [map app]. apply utf8_2; rewrite byte_of; lia. }
  destruct (n <? 65536)%N eqn:C; [apply N.ltb_lt in C|apply N.ltb_ge in C].
  { cbn [map app]. apply utf8_3; rewrite !byte_of by lia; try (intros X); lia. }
  cbn [map app]. apply utf8_4; rewrite !byte_of by lia; try (intros X); lia.
Qed.
Lemma character_2 a b r : (194 <= N_of_ascii a <= 223)%N -> (128 <= N_of_ascii b <= 191)%N -> unicode r -> unicode (a :: b :: r).
Proof.
  intros A B U. pose (n := ((N_of_ascii a - 192) * 64 + (N_of_ascii b - 128))%N).
  replace (a :: b :: r) with (encoding n ++ r); [constructor; [unfold scalar, n; lia|exact U]|]. unfold encoding.
  rewrite (proj2 (N.ltb_ge n 128)), (proj2 (N.ltb_lt n 2048)) by (unfold n; lia). cbn [map app].
  replace (192 + n / 64)%N with (N_of_ascii a) by (unfold n; lia). replace (128 + n mod 64)%N with (N_of_ascii b) by (unfold n; lia). rewrite !ascii_N_embedding. reflexivity.
Qed.
Lemma character_3 a b c r : (224 <= N_of_ascii a <= 239)%N -> (128 <= N_of_ascii b <= 191)%N -> (128 <= N_of_ascii c <= 191)%N -> (N_of_ascii a = 224 -> 160 <= N_of_ascii b)%N -> (N_of_ascii a = 237 -> N_of_ascii b <= 159)%N ->
  unicode r -> unicode (a :: b :: c :: r).
Proof.
  intros A B C L H U. pose (n := ((N_of_ascii a - 224) * 4096 + (N_of_ascii b - 128) * 64 + (N_of_ascii c - 128))%N).
  replace (a :: b :: c :: r) with (encoding n ++ r); [constructor; [unfold scalar, n; lia|exact U]|]. unfold encoding.
  rewrite (proj2 (N.ltb_ge n 128)), (proj2 (N.ltb_ge n 2048)), (proj2 (N.ltb_lt n 65536)) by (unfold n; lia). cbn [map app].
  replace (224 + n / 4096)%N with (N_of_ascii a) by (unfold n; lia). replace (128 + n / 64 mod 64)%N with (N_of_ascii b) by (unfold n; lia). replace (128 + n mod 64)%N with (N_of_ascii c) by (unfold n; lia). rewrite !ascii_N_embedding. reflexivity.
Qed.
Lemma character_4 a b c d r : (240 <= N_of_ascii a <= 244)%N -> (128 <= N_of_ascii b <= 191)%N -> (128 <= N_of_ascii c <= 191)%N -> (128 <= N_of_ascii d <= 191)%N -> (N_of_ascii a = 240 -> 144 <= N_of_ascii b)%N -> (N_of_ascii a = 244 -> N_of_ascii b <= 143)%N ->
  unicode r -> unicode (a :: b :: c :: d :: r).
Proof.
  intros A B C D L H U. pose (n := ((N_of_ascii a - 240) * 262144 + (N_of_ascii b - 128) * 4096 + (N_of_ascii c - 128) * 64 + (N_of_ascii d - 128))%N).
  replace (a :: b :: c :: d :: r) with (encoding n ++ r); [constructor; [unfold scalar, n; lia|exact U]|]. unfold encoding.
  rewrite (proj2 (N.ltb_ge n 128)), (proj2 (N.ltb_ge n 2048)), (proj2 (N.ltb_ge n 65536)) by (unfold n; lia). cbn [map app].
  replace (240 + n / 262144)%N with (N_of_ascii a) by (unfold n; lia). replace (128 + n / 4096 mod 64)%N with (N_of_ascii b) by (unfold n; lia). replace (128 + n / 64 mod 64)%N with (N_of_ascii c) by (unfold n; lia).
  replace (128 + n mod 64)%N with (N_of_ascii d) by (unfold n; lia). rewrite !ascii_N_embedding. reflexivity.
Qed.
Lemma utf8_is_unicode_n k : forall t, List.length t <= k -> utf8 t = true -> unicode t.
Proof.
  induction k as [|k IH]; intros t L U; [destruct t; [constructor|cbn in L; lia]|]. destruct t as [|a r]; [constructor|]. cbn [utf8] in U. cbn [List.length] in L.
  destruct (between 0 127 a) eqn:A.
  { apply between_iff in A. replace (a :: r) with (encoding (N_of_ascii a) ++ r); [constructor; [unfold scalar; lia|apply IH; [lia|exact U]]|]. unfold encoding. rewrite (proj2 (N.ltb_lt _ 128)) by lia. cbn [map app]. rewrite ascii_N_embedding. reflexivity. }
  destruct r as [|b r]; [discriminate|]. cbn [List.length] in L. destruct (between 194 223 a) eqn:A2.
  { apply andb_true_iff in U. destruct U as [B U]. unfold tail in B. apply between_iff in B, A2. apply character_2; [lia|lia|apply IH; [lia|exact U]]. }
  destruct r as [|c r]; [discriminate|]. cbn [List.length] in L. destruct (between 224 239 a) eqn:A3.
  { rewrite !andb_true_iff in U. destruct U as [[B C] U]. unfold tail in C. apply between_iff in C, A3.
    destruct (between 224 224 a) eqn:Q1; [apply between_iff in Q1|apply between_not in Q1]; (destruct (between 237 237 a) eqn:Q2; [apply between_iff in Q2|apply between_not in Q2]); apply between_iff in B; apply character_3; try lia; apply IH; try lia; exact U. }
  destruct r as [|d r]; [discriminate|]. cbn [List.length] in L. rewrite !andb_true_iff in U. destruct U as [[[[A4 B] C] D] U]. unfold tail in C, D. apply between_iff in C, D, A4.
  destruct (between 240 240 a) eqn:Q1; [apply between_iff in Q1|apply between_not in Q1]; (destruct (between 244 244 a) eqn:Q2; [apply between_iff in Q2|apply between_not in Q2]); apply between_iff in B; apply character_4; try lia; apply IH; try lia; exact U.
Qed.
Lemma utf8_unicode t : utf8 t = true <-> unicode t.
Proof.
  split; [apply (utf8_is_unicode_n (List.length t)); apply le_n|]. intros U. induction U as [|n t S U IH]; [reflexivity|]. rewrite (utf8_encoding n t S). exact IH.
Qed.
