(* C168: the schema of a result can be read from its Content-Type. CtypeSpec.v says what the property means, CtypeModel.v is the code. *)
From Coq Require Import Ascii String List Bool Arith Lia.
From Verif Require Import HttpModel HttpProofs CtypeModel CtypeSpec.
From Verif Require HttpSpec.
Import ListNotations.
Open Scope list_scope.

Definition enc1 (c : ascii) : text := if kept_as_is c then [c] else [percent; digit (nat_of_ascii c / 16); digit (nat_of_ascii c mod 16)].
Definition plain_char (c : ascii) : bool := (kept_as_is c || Ascii.eqb c percent)%bool.
Lemma enc1_plain c : forallb plain_char (enc1 c) = true.
Proof. destruct c as [[] [] [] [] [] [] [] []]; vm_compute; reflexivity. Qed.
Lemma enc_plain t : forallb plain_char (utf8_percent_encode t) = true.
Proof. induction t as [|c t IH]; [reflexivity|]. change (utf8_percent_encode (c :: t)) with (enc1 c ++ utf8_percent_encode t). rewrite forallb_app, enc1_plain, IH. reflexivity. Qed.
Lemma plain_header c : plain_char c = true -> header_char c = true.
Proof. destruct c as [[] [] [] [] [] [] [] []]; intros E; vm_compute in E; try discriminate E; vm_compute; reflexivity. Qed.
Lemma plain_token c : plain_char c = true -> token_char c.
Proof.
  intros E. assert (X : existsb (Ascii.eqb c) (s_ "0123456789ABCDEFGHIJKLMNOPQRSTUVWXYZabcdefghijklmnopqrstuvwxyz!#$%&'*+-.^_`|~") = true)
    by (destruct c as [[] [] [] [] [] [] [] []]; vm_compute in E; try discriminate E; vm_compute; reflexivity).
  apply existsb_exists in X as (y & I & Y). apply Ascii.eqb_eq in Y. subst y. exact I.
Qed.
Lemma plain_printable c : plain_char c = true -> printable c.
Proof. intros E. assert (X : (Nat.leb 32 (nat_of_ascii c) && Nat.leb (nat_of_ascii c) 126)%bool = true) by (destruct c as [[] [] [] [] [] [] [] []]; vm_compute in E; try discriminate E; vm_compute; reflexivity). apply andb_true_iff in X as [A B]. apply Nat.leb_le in A, B. split; assumption. Qed.
Lemma plain_in t c : In c (utf8_percent_encode t) -> plain_char c = true.
Proof. pose proof (enc_plain t) as P. rewrite forallb_forall in P. exact (P c). Qed.
Lemma never_short t : content_type_with_schema t = s_ "application/json; arrow-schema=" ++ utf8_percent_encode t.
Proof.
  unfold content_type_with_schema. assert (F : forallb header_char (s_ "application/json; arrow-schema=" ++ utf8_percent_encode t) = true); [|rewrite F; reflexivity].
  rewrite forallb_app. apply andb_true_iff. split; [vm_compute; reflexivity|]. apply forallb_forall. intros c I. exact (plain_header c (plain_in t c I)).
Qed.
Lemma escape_digits (c : ascii) : exists x y, hex_value (digit (nat_of_ascii c / 16)) = Some x /\ hex_value (digit (nat_of_ascii c mod 16)) = Some y /\ ascii_of_nat (16 * x + y) = c.
Proof. destruct c as [[] [] [] [] [] [] [] []]; eexists; eexists; (split; [vm_compute; reflexivity|split; vm_compute; reflexivity]). Qed.
Lemma escapes t : escaped t (utf8_percent_encode t).
Proof.
  unfold escaped. induction t as [|c t IH]; [constructor|]. change (utf8_percent_encode (c :: t)) with (enc1 c ++ utf8_percent_encode t). unfold enc1. destruct (kept_as_is c) eqn:K.
  - cbn [app]. constructor; [intros ->; discriminate K|intros ->; discriminate K|exact IH].
  - destruct (escape_digits c) as (x & y & X & Y & E). cbn [app]. rewrite <- E at 1. apply HttpSpec.enc_escape; [apply hex_value_digit; exact X|apply hex_value_digit; exact Y|exact IH].
Qed.
(* C168: a result's Content-Type is JSON with the schema, escaped, as its parameter *)
Theorem c168_schema : forall json, json <> [] ->
  exists v x, get_content_type json = Some v /\ media_type v (s_ "application/json") (s_ "arrow-schema") x /\ escaped json x.
Proof.
  intros j N. exists (content_type_with_schema j), (utf8_percent_encode j). split; [reflexivity|]. split; [|exact (escapes j)]. rewrite never_short. split; [reflexivity|]. split.
  - destruct j as [|c j]; [exfalso; apply N; reflexivity|]. change (utf8_percent_encode (c :: j)) with (enc1 c ++ utf8_percent_encode j). unfold enc1. destruct (kept_as_is c); discriminate.
  - intros c I. exact (plain_token c (plain_in j c I)).
Qed.
(* C168: whatever the columns are called, nothing in the header ends it *)
Theorem c168_one_header : forall json c, In c (content_type_with_schema json) -> printable c.
Proof.
  intros j c. rewrite never_short, in_app_iff. intros [I|I]; [|exact (plain_printable c (plain_in j c I))].
  assert (F : Forall printable (s_ "application/json; arrow-schema=")); [|rewrite Forall_forall in F; exact (F c I)].
  unfold printable. repeat (constructor; [cbv [nat_of_ascii N_of_ascii N_of_digits]; vm_compute; split; repeat constructor|]). constructor.
Qed.
Lemma no_equals t : ~ In "="%char (utf8_percent_encode t).
Proof. intros I. apply plain_in in I. discriminate I. Qed.
Lemma without_app p t r : without p t = Some r -> t = p ++ r.
Proof.
  revert t. induction p as [|x p IH]; intros t; cbn [without]; [intros H; injection H as <-; reflexivity|]. destruct t as [|y t]; [discriminate|].
  destruct (Ascii.eqb_spec x y) as [->|_]; [|discriminate]. intros H. rewrite (IH t H) at 1. reflexivity.
Qed.
Lemma not_found t : ~ In "="%char t -> after_first (s_ "arrow-schema=") t = None.
Proof.
  assert (W : forall u, ~ In "="%char u -> without (s_ "arrow-schema=") u = None).
  { intros u N. destruct (without (s_ "arrow-schema=") u) as [r|] eqn:E; [|reflexivity]. exfalso. apply N. rewrite (without_app _ _ _ E), in_app_iff. left. cbv. tauto. }
  induction t as [|c t IH]; intros N; [reflexivity|]. cbn [after_first]. rewrite (W (c :: t) N). apply IH. intros I. apply N. right. exact I.
Qed.
(* C168: clients get the schema back *)
Theorem c168_read_back : forall schema utf8 (to_json : schema -> text) from_json,
  (forall s, from_json (to_json s) = Some s) -> (forall s, utf8 (to_json s) = true) ->
  forall s, schema_from_header schema utf8 from_json (content_type_with_schema (to_json s)) = Some s.
Proof.
  intros schema utf8 to_json from_json R U s. unfold schema_from_header. rewrite never_short. set (x := utf8_percent_encode (to_json s)).
  assert (L : last_piece (List.length (s_ "application/json; arrow-schema=" ++ x)) (s_ "arrow-schema=") (s_ "application/json; arrow-schema=" ++ x) = x).
  { rewrite app_length. change (List.length (s_ "application/json; arrow-schema=")) with 31. cbn [Nat.add]. cbn [last_piece].
    change (after_first (s_ "arrow-schema=") (s_ "application/json; arrow-schema=" ++ x)) with (Some x). cbv iota. rewrite (not_found x (no_equals (to_json s))). reflexivity. }
  rewrite L. unfold x. rewrite (encodes_decode _ _ (escapes (to_json s))), U. exact (R s).
Qed.
(* C168: results with different schemas have different types *)
Theorem c168_distinct : forall a b, content_type_with_schema a = content_type_with_schema b -> a = b.
Proof.
  intros a b. rewrite !never_short. intros H. apply app_inv_head in H. rewrite <- (encodes_decode _ _ (escapes a)), <- (encodes_decode _ _ (escapes b)), H. reflexivity.
Qed.
(* C168: a POST that is not refused is answered with the type if its last statement gives rows, and with none if not *)
Theorem c168_post : forall pr p l ok done json, post_query pr p l ok = Some done ->
  (ends_with_query l -> post_content_type l json = get_content_type json) /\ (~ ends_with_query l -> post_content_type l json = None).
Proof.
  intros pr p l ok d j H. unfold post_query in H. unfold post_content_type, get_content_type.
  destruct (exists_last (l := l)) as (before & s & E); [intros ->; discriminate H|].
  assert (Q : ends_with_query l <-> is_statement_read_only s = true).
  { subst l. split.
    - intros (b & s' & E & K). apply app_inj_tail in E as [_ <-]. destruct s; try reflexivity; destruct K.
    - intros K. exists before, s. split; [reflexivity|]. destruct s; try exact Logic.I; discriminate K. }
  assert (L : last l SShowTables = s) by (subst l; apply last_last). destruct l as [|s0 l0]; [discriminate H|]. cbv zeta in H. rewrite L in H.
  set (reads := List.length (filter is_statement_read_only (s0 :: l0))) in *. cbv zeta.
  destruct (negb (can_perform_action pr (if Nat.eqb reads (List.length (s0 :: l0)) then Read else Write) p)); [discriminate H|].
  destruct (Nat.ltb 1 reads || (Nat.eqb reads 1 && negb (is_statement_read_only s)))%bool eqn:G; [discriminate H|]. apply orb_false_iff in G as [G1 G2]. apply Nat.ltb_ge in G1.
  split; intros K.
  - apply Q in K. assert (1 <= reads); [|destruct (Nat.ltb_spec 0 reads); [reflexivity|lia]]. unfold reads. rewrite E, filter_app, app_length. cbn [filter]. rewrite K. cbn [List.length]. lia.
  - destruct (Nat.ltb_spec 0 reads) as [A|A]; [|reflexivity]. exfalso. apply K, Q. assert (R1 : reads = 1) by lia. rewrite R1 in G2. cbn [Nat.eqb andb] in G2. destruct (is_statement_read_only s); [reflexivity|discriminate G2].
Qed.

(* ---- cases that meet the hypotheses ---- *)
(* a column whose name has a line break, a quote and a semicolon *)
Definition ex_json : text := s_ "{""name"":""a;" ++ [ascii_of_nat 10] ++ s_ "b""}".
Example ex_type : content_type_with_schema ex_json = s_ "application/json; arrow-schema=%7B%22name%22%3A%22a%3B%0Ab%22%7D".
Proof. vm_compute. reflexivity. Qed.
Example ex_back : schema_from_header text (fun _ => true) Some (content_type_with_schema ex_json) = Some ex_json.
Proof. vm_compute. reflexivity. Qed.
Definition ex_all : policy := {| read := Any; write := Any |}.
Example ex_post : post_query Anonymous ex_all [SOther; SInsert; SQuery false] (fun _ => true) = Some [SOther; SInsert; SQuery false] /\
  ends_with_query [SOther; SInsert; SQuery false] /\ post_query Anonymous ex_all [SInsert] (fun _ => true) = Some [SInsert] /\ ~ ends_with_query [SInsert].
Proof.
  split; [vm_compute; reflexivity|]. split; [exists [SOther; SInsert], (SQuery false); split; [reflexivity|exact Logic.I]|]. split; [vm_compute; reflexivity|].
  intros (b & s & E & K). change [SInsert] with ([] ++ [SInsert]) in E. apply app_inj_tail in E as [_ <-]. exact K.
Qed.

Print Assumptions c168_schema.
Print Assumptions c168_one_header.
Print Assumptions c168_read_back.
Print Assumptions c168_distinct.
Print Assumptions c168_post.
