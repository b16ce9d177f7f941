From Coq Require Import String List Arith Bool Lia.
Import ListNotations.
From Verif Require Import SqlModel SqlSpec.
Open Scope list_scope.

(* 1. Combinators that stop at a semicolon *)
Definition ext {A} (tail : list token) (o : option (A * list token)) := match o with Some (x, r) => Some (x, r ++ Semi :: tail) | None => None end.
Notation local := stops_at_semicolon (only parsing).

Lemma piece_app u r : piece (u ++ r) -> piece r.
Proof. intros H C. apply H. apply in_or_app. auto. Qed.
Lemma piece_cons t r : piece (t :: r) -> t <> Semi /\ piece r.
Proof. intros H. split; [intros ->; apply H; left; reflexivity|intros C; apply H; right; exact C]. Qed.
Lemma local_suffix {A} (p : P A) ts x r : local p -> piece ts -> p ts = Some (x, r) -> piece r /\ length r <= length ts.
Proof. intros L H E. destruct (proj2 (L ts H) x r E) as [u ->]. split; [exact (piece_app _ _ H)|rewrite app_length; lia]. Qed.
Lemma local_ret {A} (x : A) : local (ret x).
Proof. intros ts H. split; [reflexivity|]. intros y r E. injection E as _ <-. exists []. reflexivity. Qed.
Lemma local_fail {A} : local (@fail A).
Proof. intros ts H. split; [reflexivity|discriminate]. Qed.
Lemma local_bind {A B} (p : P A) (f : A -> P B) : local p -> (forall x, local (f x)) -> local (bind p f).
Proof.
  intros Lp Lf ts H. destruct (Lp ts H) as [L1 L2]. unfold bind. split.
  - intros tail. rewrite L1. destruct (p ts) as [[x r]|] eqn:E; [|reflexivity]. destruct (L2 x r eq_refl) as [u ->]. apply (Lf x r (piece_app _ _ H)).
  - intros y r' E'. destruct (p ts) as [[x r]|] eqn:E; [|discriminate]. destruct (L2 x r eq_refl) as [u ->].
    destruct (proj2 (Lf x r (piece_app _ _ H)) y r' E') as [u' ->]. exists (u ++ u'). apply app_assoc.
Qed.
Lemma local_next {A} (f : token -> option A) : f Semi = None -> local (next f).
Proof.
  intros F ts H. unfold next. split.
  - intros tail. destruct ts as [|t r]; cbn; [rewrite F; reflexivity|]. destruct (f t); reflexivity.
  - intros x r E. destruct ts as [|t ts]; [discriminate|]. destruct (f t); [|discriminate]. injection E as <- <-. exists [t]. reflexivity.
Qed.
Lemma local_optional {A} (f : token -> option A) : f Semi = None -> local (optional f).
Proof.
  intros F ts H. unfold optional. split.
  - intros tail. destruct ts as [|t r]; cbn; [rewrite F; reflexivity|]. destruct (f t); reflexivity.
  - intros x r E. destruct ts as [|t ts]; [injection E as _ <-; exists []; reflexivity|]. destruct (f t); injection E as _ <-; [exists [t]|exists []]; reflexivity.
Qed.
Lemma local_keyword k : local (keyword k).
Proof. apply local_bind; [apply local_optional; reflexivity|intros; apply local_ret]. Qed.
Lemma local_expect_keyword k : local (expect_keyword k).
Proof. apply local_next. reflexivity. Qed.
Lemma local_one_of ks : local (one_of ks).
Proof. apply local_optional. induction ks as [|k ks IH]; [reflexivity|exact IH]. Qed.
Lemma keywords_at_local ks : forall ts tail, piece ts -> keywords_at ks (ts ++ Semi :: tail) = option_map (fun r => r ++ Semi :: tail) (keywords_at ks ts).
Proof.
  induction ks as [|k ks IH]; intros ts tail H; [reflexivity|]. destruct ts as [|t ts]; [reflexivity|]. cbn. destruct (is_kw k t); [|reflexivity].
  apply IH. exact (proj2 (piece_cons _ _ H)).
Qed.
Lemma keywords_at_suffix ks : forall ts r, keywords_at ks ts = Some r -> exists u, ts = u ++ r.
Proof.
  induction ks as [|k ks IH]; intros ts r E; cbn in E; [injection E as <-; exists []; reflexivity|]. destruct ts as [|t ts]; [discriminate|].
  destruct (is_kw k t); [|discriminate]. destruct (IH ts r E) as [u ->]. exists (t :: u). reflexivity.
Qed.
Lemma local_keywords ks : local (keywords ks).
Proof.
  intros ts H. unfold keywords. split.
  - intros tail. rewrite keywords_at_local by exact H. destruct (keywords_at ks ts); reflexivity.
  - intros x r E. destruct (keywords_at ks ts) as [r'|] eqn:Ek; injection E as _ <-; [exact (keywords_at_suffix ks ts r' Ek)|exists []; reflexivity].
Qed.
Lemma local_consume p : p <> Semi -> local (consume p).
Proof. intros N. apply local_bind; [apply local_optional; destruct p; try reflexivity; congruence|intros; apply local_ret]. Qed.
Lemma local_expect p : p <> Semi -> local (expect p).
Proof. intros N. apply local_next. destruct p; try reflexivity. congruence. Qed.
Lemma local_peek_word : local peek_word.
Proof.
  intros ts H. unfold peek_word. split; [intros tail; destruct ts as [|[] ts]; reflexivity|]. intros x r E. exists []. destruct ts as [|[] ts]; injection E as _ <-; reflexivity.
Qed.
(* loops *)
Definition progress {A} (body : A -> P (A + A)) : Prop := forall x ts x' r, piece ts -> body x ts = Some (inl x', r) -> length r < length ts.
Lemma loop_local {A} (body : A -> P (A + A)) : (forall x, local (body x)) -> progress body ->
  forall n m x ts tail, piece ts -> length ts < n -> length ts < m -> loop m body x (ts ++ Semi :: tail) = ext tail (loop n body x ts).
Proof.
  intros Lb Pb. induction n as [|n IH]; intros m x ts tail H Hn Hm; [lia|]. destruct m as [|m]; [lia|]. cbn [loop]. unfold bind.
  destruct (Lb x ts H) as [L1 L2]. rewrite L1. destruct (body x ts) as [[[x'|x'] r]|] eqn:E; [|reflexivity|reflexivity].
  destruct (L2 _ _ eq_refl) as [u Eu]. pose proof (Pb x ts x' r H E). apply IH; [rewrite Eu in H; exact (piece_app _ _ H)|lia|lia].
Qed.
Lemma loop_suffix {A} (body : A -> P (A + A)) : (forall x, local (body x)) -> forall n x ts y r, piece ts -> loop n body x ts = Some (y, r) -> exists u, ts = u ++ r.
Proof.
  intros Lb. induction n as [|n IH]; intros x ts y r H E; [discriminate|]. cbn [loop] in E. unfold bind in E.
  destruct (body x ts) as [[[x'|x'] r']|] eqn:Eb; [| |discriminate].
  - destruct (proj2 (Lb x ts H) _ _ Eb) as [u ->]. destruct (IH _ _ _ _ (piece_app _ _ H) E) as [u' ->]. exists (u ++ u'). apply app_assoc.
  - injection E as <- <-. exact (proj2 (Lb x ts H) _ _ Eb).
Qed.
Lemma local_looped {A} (body : A -> P (A + A)) x : (forall x, local (body x)) -> progress body -> local (looped body x).
Proof.
  intros Lb Pb ts H. unfold looped. split.
  - intros tail. apply (loop_local body Lb Pb); [exact H|lia|rewrite app_length; cbn; lia].
  - intros y r E. exact (loop_suffix body Lb _ _ _ _ _ H E).
Qed.
(* eating *)
Definition eats {A} (p : P A) : Prop := forall ts x r, piece ts -> p ts = Some (x, r) -> length r < length ts.
Lemma eats_next {A} (f : token -> option A) : eats (next f).
Proof. intros ts x r _ E. destruct ts as [|t ts]; [discriminate|]. cbn in E. destruct (f t); [|discriminate]. injection E as _ <-. cbn. lia. Qed.
Lemma eats_bind {A B} (p : P A) (f : A -> P B) : local p -> eats p -> (forall x, local (f x)) -> eats (bind p f).
Proof.
  intros Lp Ep Lf ts y r H E. unfold bind in E. destruct (p ts) as [[x r']|] eqn:E'; [|discriminate]. pose proof (Ep ts x r' H E').
  destruct (local_suffix p ts x r' Lp H E') as [H' _]. destruct (local_suffix (f x) r' y r (Lf x) H' E) as [_ ?]. lia.
Qed.
Lemma eats_after {A B} (p : P A) (f : A -> P B) : local p -> (forall x, eats (f x)) -> eats (bind p f).
Proof.
  intros Lp Ef ts y r H E. unfold bind in E. destruct (p ts) as [[x r']|] eqn:E'; [|discriminate].
  destruct (local_suffix p ts x r' Lp H E') as [H' ?]. pose proof (Ef x r' y r H' E). lia.
Qed.
Lemma eats_progress {A} (body : A -> P (A + A)) : (forall x, eats (body x)) -> progress body.
Proof. intros E x ts x' r H Eb. exact (E x ts _ r H Eb). Qed.
Lemma consume_eats p ts r : consume p ts = Some (true, r) -> length r < length ts.
Proof. unfold consume, optional, bind, ret. destruct ts as [|t ts]; [discriminate|]. destruct (is_punct p t); intros E; [injection E as <-; cbn; lia|discriminate]. Qed.
Lemma progress_consume {A} (p : token) (f g : A -> P (A + A)) : p <> Semi -> (forall x, local (f x)) -> (forall x ts x' r, g x ts <> Some (inl x', r)) ->
  progress (fun l => do c <- consume p; if c : bool then f l else g l).
Proof.
  intros N Lf G x ts x' r H E. unfold bind in E at 1. destruct (consume p ts) as [[[|] r']|] eqn:Ec; [| |discriminate].
  - pose proof (consume_eats p ts r' Ec). destruct (local_suffix _ ts _ _ (local_consume p N) H Ec) as [H' _]. destruct (local_suffix (f x) r' _ r (Lf x) H' E) as [_ ?]. lia.
  - exfalso. exact (G x r' x' r E).
Qed.

Ltac loc := repeat first
  [ apply local_ret | apply local_fail | apply local_keyword | apply local_expect_keyword | apply local_one_of | apply local_keywords
  | (apply local_consume; discriminate) | (apply local_expect; discriminate) | apply local_peek_word | (apply local_next; reflexivity)
  | (apply local_bind; [|intros ?]) | assumption ].
Lemma local_identifier : local identifier. Proof. apply local_next. reflexivity. Qed.
Lemma eats_identifier : eats identifier. Proof. apply eats_next. Qed.
Lemma local_literal : local literal_string. Proof. apply local_next. reflexivity. Qed.
Lemma local_object_name : local object_name.
Proof.
  apply local_bind; [apply local_identifier|]. intros i. apply local_looped.
  - intros l. apply local_bind; [loc|]. intros []; [|apply local_ret]. apply local_bind; [apply local_identifier|]. intros j. apply local_ret.
  - apply (progress_consume Period (fun l => do j <- identifier; ret (inl (l ++ [j]))) (fun l => ret (inr l))); [discriminate| |].
    + intros l. apply local_bind; [apply local_identifier|]. intros j. apply local_ret.
    + intros l ts x' r E. discriminate E.
Qed.
Lemma local_ensure {A} (o : option A) : local (ensure_not_set o).
Proof. destruct o; [apply local_fail|apply local_ret]. Qed.
Lemma local_option_key : local option_key.
Proof.
  apply local_bind; [loc|]. intros [k [|]]; cbn [fst snd]; [|apply local_ret]. apply local_looped.
  - intros l. apply local_bind; [loc|]. intros []; [|apply local_ret]. loc.
  - apply (progress_consume Period (fun l => do v <- next (fun t => match t with Word v _ _ => Some v | _ => None end); ret (inl (l ++ "." ++ v)%string)) (fun l => ret (inr l))); [discriminate| |].
    + intros l. loc.
    + intros l ts x' r E. discriminate E.
Qed.
Lemma eats_option_key : eats option_key.
Proof.
  intros ts x r H E. unfold option_key in E. unfold bind in E at 1.
  match type of E with (match ?n with _ => _ end) = _ => destruct n as [[k r']|] eqn:En; [|discriminate] end.
  pose proof (eats_next _ ts k r' H En). destruct k as [k [|]]; cbn [fst snd] in E; [|injection E as _ <-; exact H0].
  assert (H' : piece r') by (refine (proj1 (local_suffix _ ts _ _ _ H En)); apply local_next; reflexivity).
  unfold looped in E. match type of E with loop ?n ?b _ _ = _ => assert (Lb : forall l, local (b l)) by (intros l; apply local_bind; [loc|]; intros []; loc) end.
  destruct (loop_suffix _ Lb _ _ _ _ _ H' E) as [u ->]. rewrite app_length in H0. lia.
Qed.
Lemma local_option_value : local option_value. Proof. apply local_next. reflexivity. Qed.
Ltac loop_end := let c := fresh in let e := fresh in
  apply local_bind; [loc|]; intros c; apply local_bind; [loc|]; intros e; destruct e; [loc|]; destruct c; loc.
Lemma local_value_options : local value_options.
Proof.
  apply local_bind; [loc|]. intros _.
  assert (L : forall l, local ((fun l => do k <- option_key; do v <- option_value; do c <- consume Comma; do e <- consume RParen;
    if e : bool then ret (inr (l ++ [(k, v)])) else if c : bool then ret (inl (l ++ [(k, v)])) else fail) l : P (list (string * value) + list (string * value)))).
  { intros l. apply local_bind; [apply local_option_key|]. intros k. apply local_bind; [apply local_option_value|]. intros v. loop_end. }
  apply local_looped; [exact L|]. apply eats_progress. intros l. apply eats_bind; [apply local_option_key|apply eats_option_key|].
  intros k. apply local_bind; [apply local_option_value|]. intros v. loop_end.
Qed.
Lemma local_file_format upper : local (file_format upper). Proof. unfold file_format. loc. Qed.
Lemma local_partitions : local partitions.
Proof.
  apply local_bind; [loc|]. intros []; [|apply local_ret]. apply local_bind; [loc|]. intros []; [apply local_ret|].
  assert (L : forall l : list ident, local (do i <- identifier; do c <- consume Comma; do e <- consume RParen;
    if e : bool then ret (inr (l ++ [i])) else if c : bool then ret (inl (l ++ [i])) else fail) : Prop).
  { intros l. apply local_bind; [apply local_identifier|]. intros i. loop_end. }
  apply local_looped.
  - intros l. apply local_bind; [loc|]. intros []; [apply L|apply local_fail].
  - apply eats_progress. intros l. apply eats_after; [loc|]. intros []; [|intros ? ? ? _ E; discriminate E]. apply eats_bind; [apply local_identifier|apply eats_identifier|].
    intros i. loop_end.
Qed.

Section Parser.
Variable native_statement native_create native_query native_expr native_type : P nat.
Variable native_constraint native_option : P (option nat).
Variable upper : string -> string.
Hypothesis (Ls : local native_statement) (Lc : local native_create) (Lq : local native_query) (Le : local native_expr) (Lt : local native_type)
  (Lk : local native_constraint) (Lo : local native_option) (Nk : not_empty native_constraint) (No : not_empty native_option).

Lemma local_function_body : local function_body.
Proof.
  intros ts H. unfold function_body. destruct ts as [|t ts]; [exact (local_bind literal_string _ local_literal (fun s => local_ret _) [] H)|].
  destruct t; try exact (local_bind literal_string _ local_literal (fun s => local_ret _) _ H).
  split; [reflexivity|]. intros x r E. injection E as _ <-. exists [Dollar s]. reflexivity.
Qed.
Lemma local_create_function orr : local (parse_create_function orr).
Proof.
  apply local_bind; [apply local_object_name|]. intros n. apply local_bind; [loc|]. intros _. apply local_bind; [apply local_function_body|]. intros b. apply local_ret.
Qed.
Lemma local_order_by : local (order_by_expr native_expr).
Proof.
  apply local_bind; [exact Le|]. intros e. apply local_bind; [apply local_bind; [loc|]; intros []; loc|]. intros asc.
  apply local_bind; [apply local_bind; [loc|]; intros []; loc|]. intros nf. apply local_ret.
Qed.
Lemma local_order_by_exprs : local (order_by_exprs native_expr).
Proof.
  apply local_bind; [loc|]. intros _.
  assert (L : forall l e, local (do c <- consume Comma; if c : bool then ret (inl (l ++ [e])) else do _ <- expect RParen; ret (inr (l ++ [e] : list order_by)))).
  { intros l e. apply local_bind; [loc|]. intros []; loc. }
  apply local_looped.
  - intros l. apply local_bind; [apply local_order_by|]. intros e. apply L.
  - intros l ts l' r H E. unfold bind in E at 1. destruct (order_by_expr native_expr ts) as [[e r']|] eqn:Ee; [|discriminate].
    destruct (local_suffix _ _ _ _ local_order_by H Ee) as [H' ?]. unfold bind in E at 1. destruct (consume Comma r') as [[[|] r2]|] eqn:Ec; [| |discriminate].
    + pose proof (consume_eats _ _ _ Ec). injection E as _ <-. lia.
    + unfold bind in E. destruct (expect RParen r2) as [[? ?]|]; discriminate E.
Qed.
Lemma keyword_eats k ts r : keyword k ts = Some (true, r) -> length r < length ts.
Proof. unfold keyword, optional, bind, ret. destruct ts as [|t ts]; [discriminate|]. destruct (is_kw k t); intros E; [injection E as <-; cbn; lia|discriminate]. Qed.
Lemma local_column_rest n : local (do ty <- native_type;
  do coll <- (do c <- keyword "COLLATE"; if c : bool then do n <- object_name; ret (Some n) else ret None);
  do opts <- looped (fun l =>
    do c <- keyword "CONSTRAINT";
    if c : bool then do n <- identifier; do o <- native_option; match o with Some x => ret (inl (l ++ [(Some n, x)])) | None => fail end
    else do o <- native_option; match o with Some x => ret (inl (l ++ [(None, x)])) | None => ret (inr l) end) [];
  ret {| cd_name := n; cd_type := ty; cd_collation := coll; cd_options := opts |}).
Proof.
  apply local_bind; [exact Lt|]. intros ty.
  apply local_bind; [apply local_bind; [loc|]; intros []; [apply local_bind; [apply local_object_name|intros; apply local_ret]|apply local_ret]|]. intros coll.
  apply local_bind; [|intros; apply local_ret].
  apply local_looped.
  - intros l. apply local_bind; [loc|]. intros [].
    + apply local_bind; [apply local_identifier|]. intros m. apply local_bind; [exact Lo|]. intros []; loc.
    + apply local_bind; [exact Lo|]. intros []; loc.
  - intros l ts l' r H E. unfold bind in E at 1. destruct (keyword "CONSTRAINT" ts) as [[[|] r1]|] eqn:Ek; [| |discriminate].
    + pose proof (keyword_eats _ _ _ Ek). destruct (local_suffix _ _ _ _ (local_keyword _) H Ek) as [H1 _].
      assert (L2 : local (do m <- identifier; do o <- native_option; match o with Some x => ret (inl (l ++ [(Some m, x)])) | None => fail end : P (list (option ident * nat) + list (option ident * nat)))).
      { apply local_bind; [apply local_identifier|]. intros m. apply local_bind; [exact Lo|]. intros []; loc. }
      destruct (local_suffix _ _ _ _ L2 H1 E) as [_ ?]. lia.
    + destruct (local_suffix _ _ _ _ (local_keyword _) H Ek) as [_ ?]. unfold bind in E. destruct (native_option r1) as [[[x|] r2]|] eqn:Eo; [|discriminate|discriminate].
      pose proof (No r1 x r2 Eo). injection E as _ <-. lia.
Qed.
Lemma local_column_def : local (column_def native_type native_option).
Proof. apply local_bind; [apply local_identifier|]. apply local_column_rest. Qed.
Lemma eats_column_def : eats (column_def native_type native_option).
Proof. apply eats_bind; [apply local_identifier|apply eats_identifier|]. apply local_column_rest. Qed.
Definition column_step (a : list column * list nat) : P ((list column * list nat) + (list column * list nat)) :=
    do k <- native_constraint;
    do a' <- (match k with
              | Some x => ret (fst a, snd a ++ [x])
              | None => do w <- peek_word; if w : bool then do d <- column_def native_type native_option; ret (fst a ++ [d], snd a) else fail
              end);
    do c <- consume Comma; do e <- consume RParen;
    if e : bool then ret (inr a') else if c : bool then ret (inl a') else fail.
Lemma local_columns : local (columns native_type native_constraint native_option).
Proof.
  apply local_bind; [loc|]. intros []; [|apply local_ret]. apply local_bind; [loc|]. intros []; [apply local_ret|].
  assert (E : forall a' : list column * list nat, local (do c <- consume Comma; do e <- consume RParen; if e : bool then ret (inr a') else if c : bool then ret (inl a') else fail)) by (intros a'; loop_end).
  assert (D : forall a : list column * list nat, local (do w <- peek_word; if w : bool then do d <- column_def native_type native_option; ret (fst a ++ [d], snd a) else fail)).
  { intros a. apply local_bind; [loc|]. intros []; [|apply local_fail]. apply local_bind; [apply local_column_def|]. intros d. apply local_ret. }
  apply local_looped.
  - intros a. apply local_bind; [exact Lk|]. intros []; (apply local_bind; [|exact E]); [apply local_ret|apply D].
  - intros a ts a' r H Eb. unfold bind in Eb at 1. destruct (native_constraint ts) as [[k r1]|] eqn:Ek; [|discriminate].
    destruct (local_suffix _ _ _ _ Lk H Ek) as [H1 ?]. unfold bind in Eb at 1. destruct k as [x|].
    + pose proof (Nk ts x r1 Ek). cbn [ret] in Eb. destruct (local_suffix _ _ _ _ (E _) H1 Eb) as [_ ?]. lia.
    + match type of Eb with (match ?q with _ => _ end) = _ => destruct q as [[a1 r2]|] eqn:Ed; [|discriminate] end.
      destruct (local_suffix _ _ _ _ (D a) H1 Ed) as [H2 _]. destruct (local_suffix _ _ _ _ (E _) H2 Eb) as [_ ?].
      enough (length r2 < length r1) by lia. clear - Ed H1 No Lo Lt. unfold bind in Ed at 1. destruct (peek_word r1) as [[[|] r3]|] eqn:Ep; [| discriminate|discriminate].
      assert (r3 = r1) as -> by (destruct r1 as [|[] ?]; cbn in Ep; try discriminate; injection Ep as <-; reflexivity).
      unfold bind in Ed. destruct (column_def native_type native_option r1) as [[d r4]|] eqn:Ec; [|discriminate]. injection Ed as _ <-. exact (eats_column_def _ _ _ H1 Ec).
Qed.
(* with what follows a semicolon hidden from it, PARTITIONED BY is read the same *)
Lemma partitions_nothing ts : (match ts with LParen :: _ => False | _ => True end) -> partitions ts = Some ([], ts) /\ columns native_type native_constraint native_option ts = Some (([], []), ts).
Proof. destruct ts as [|[] ts]; intros H; try contradiction; split; reflexivity. Qed.
Lemma columns_open r : r = [] \/ (exists tail, r = Semi :: tail) -> columns native_type native_constraint native_option (LParen :: r) = None.
Proof.
  intros Hr. unfold columns. unfold bind at 1. cbn [consume bind optional is_punct ret negb].
  assert (consume RParen r = Some (false, r)) as E by (destruct Hr as [->|[tail ->]]; reflexivity). unfold bind at 1. rewrite E. unfold looped. cbn [loop]. unfold bind at 1. unfold bind at 1.
  assert (F : forall x : nat, native_constraint r = Some (Some x, r) -> False) by (intros x C; apply Nk in C; lia).
  assert (B : piece []) by (intros []).
  assert (K : native_constraint r = None \/ native_constraint r = Some (None, r)).
  { assert (K0 : native_constraint [] = None \/ native_constraint [] = Some (None, [])).
    { destruct (native_constraint []) as [[o r0]|] eqn:E0; [|auto]. destruct (proj2 (Lk [] B) _ _ E0) as [u Eu]. symmetry in Eu. apply app_eq_nil in Eu as [-> ->].
      destruct o as [x|]; [apply Nk in E0; cbn in E0; lia|auto]. }
    destruct Hr as [->|[tail ->]]; [exact K0|]. pose proof (proj1 (Lk [] B) tail) as L1. cbn in L1. destruct K0 as [K0|K0]; rewrite K0 in L1; [left|right]; exact L1. }
  destruct K as [->|K]; [reflexivity|]. rewrite K. destruct Hr as [->|[tail ->]]; reflexivity.
Qed.
Lemma partitions_open r : r = [] \/ (exists tail, r = Semi :: tail) -> partitions (LParen :: r) = None.
Proof. intros [->|[tail ->]]; reflexivity. Qed.
Lemma local_partition_clause : local (partition_clause native_type native_constraint native_option).
Proof.
  assert (C : local (do cc <- columns native_type native_constraint native_option; if (match snd cc with [] => true | _ => false end : bool) then ret (map cd_name (fst cc), fst cc) else fail)).
  { apply local_bind; [apply local_columns|]. intros [cs [|]]; loc. }
  assert (Q : local (do p <- partitions; ret (p, [] : list column))) by (apply local_bind; [apply local_partitions|intros; apply local_ret]).
  assert (Eq : forall ts, partition_clause native_type native_constraint native_option ts =
    if match nth_error ts 2 with Some t => is_punct Comma t || is_punct RParen t | None => false end then (do p <- partitions; ret (p, [] : list column)) ts
    else (do cc <- columns native_type native_constraint native_option; if (match snd cc with [] => true | _ => false end : bool) then ret (map cd_name (fst cc), fst cc) else fail) ts).
  { intros ts. unfold partition_clause. unfold bind at 1. unfold peek_nth. destruct (match nth_error ts 2 with Some t => _ | None => _ end); reflexivity. }
  intros ts H. split.
  - intros tail. rewrite !Eq.
    destruct ts as [|t0 [|t1 [|t2 ts]]].
    + cbn [app nth_error]. destruct (match nth_error tail 1 with Some t => _ | None => _ end); reflexivity.
    + cbn [app nth_error]. destruct (match tail with [] => _ | x :: _ => _ end) as [t|]; [destruct (is_punct Comma t || is_punct RParen t)|].
      * unfold bind at 1 2. destruct t0; try reflexivity. rewrite partitions_open by (right; exists tail; reflexivity). rewrite columns_open by auto. reflexivity.
      * exact (proj1 (C [t0] H) tail).
      * exact (proj1 (C [t0] H) tail).
    + exact (proj1 (C [t0; t1] H) tail).
    + cbn [app nth_error]. destruct (is_punct Comma t2 || is_punct RParen t2).
      * exact (proj1 (Q (t0 :: t1 :: t2 :: ts) H) tail).
      * exact (proj1 (C (t0 :: t1 :: t2 :: ts) H) tail).
  - intros x r. rewrite Eq. destruct (match nth_error ts 2 with Some t => _ | None => _ end); intros E.
    + exact (proj2 (Q ts H) x r E).
    + exact (proj2 (C ts H) x r E).
Qed.
Lemma local_end : local end_of_statement.
Proof.
  intros ts H. split; [intros tail; destruct ts as [|[] ts]; try reflexivity; exfalso; apply H; left; reflexivity|].
  intros x r E. exists []. destruct ts as [|[] ts]; try discriminate; injection E as _ <-; reflexivity.
Qed.
Lemma one_of_eats ks ts k r : one_of ks ts = Some (Some k, r) -> length r < length ts.
Proof. unfold one_of, optional. destruct ts as [|t ts]; [discriminate|]. destruct (find (fun k => is_kw k t) ks); intros E; [injection E as _ <-; cbn; lia|discriminate]. Qed.
Notation xclause := (external_clause native_expr native_type native_constraint native_option upper).
Lemma local_external_of b k : local (external_clause_of native_expr native_type native_constraint native_option upper b k).
Proof.
  unfold external_clause_of.
  destruct (String.eqb k "STORED"); [apply local_bind; [loc|]; intros _; apply local_bind; [apply local_ensure|]; intros _; apply local_bind; [apply local_file_format|]; intros; apply local_ret|].
  destruct (String.eqb k "LOCATION"); [apply local_bind; [apply local_ensure|]; intros _; apply local_bind; [apply local_literal|]; intros; apply local_ret|].
  destruct (String.eqb k "WITH"); [apply local_bind; [loc|]; intros []; [apply local_bind; [apply local_order_by_exprs|]; intros; apply local_ret|apply local_fail]|].
  destruct (String.eqb k "PARTITIONED"); [apply local_bind; [loc|]; intros _; apply local_bind; [apply local_ensure|]; intros _; apply local_bind; [apply local_partition_clause|]; intros; apply local_ret|].
  destruct (String.eqb k "OPTIONS"); [apply local_bind; [apply local_ensure|]; intros _; apply local_bind; [apply local_value_options|]; intros; apply local_ret|apply local_fail].
Qed.
Lemma local_external_clause b : local (xclause b).
Proof. apply local_bind; [loc|]. intros [k|]; [apply local_external_of|]. apply local_bind; [apply local_end|intros; apply local_ret]. Qed.
Lemma progress_external : progress xclause.
Proof.
  intros b ts b' r H E. unfold external_clause in E. unfold bind in E at 1.
  match type of E with (match ?n with _ => _ end) = _ => destruct n as [[k r']|] eqn:Eo; [|discriminate] end.
  destruct (local_suffix _ _ _ _ (local_one_of _) H Eo) as [H' ?]. destruct k as [k|].
  - destruct (local_suffix _ _ _ _ (local_external_of b k) H' E) as [_ ?]. pose proof (one_of_eats _ _ _ _ Eo). lia.
  - exfalso. unfold bind in E. destruct (end_of_statement r') as [[? ?]|]; discriminate E.
Qed.
Lemma local_create_external ub : local (parse_create_external_table native_expr native_type native_constraint native_option upper ub).
Proof.
  apply local_bind; [loc|]. intros temp. apply local_bind; [loc|]. intros _. apply local_bind; [loc|]. intros ine. apply local_bind; [apply local_object_name|]. intros name.
  apply local_bind; [apply local_columns|]. intros cc. apply local_bind.
  - apply local_looped; [apply local_external_clause|apply progress_external].
  - intros b. destruct (b_file_type b); [|apply local_fail]. destruct (b_location b); [apply local_ret|apply local_fail].
Qed.
Notation pcreate := (parse_create native_create native_expr native_type native_constraint native_option upper).
Lemma local_parse_create : local pcreate.
Proof.
  apply local_bind; [loc|]. intros orr. apply local_bind; [loc|]. intros []; [apply local_create_external|]. apply local_bind; [loc|].
  intros []; [apply local_bind; [loc|]; intros _; apply local_create_external|]. apply local_bind; [loc|]. intros []; [apply local_create_function|].
  apply local_bind; [exact Lc|]. intros; apply local_ret.
Qed.
Lemma local_convert : local parse_convert.
Proof. apply local_bind; [apply local_literal|]. intros l. apply local_bind; [loc|]. intros _. apply local_bind; [loc|]. intros _. apply local_bind; [apply local_object_name|]. intros n. apply local_ret. Qed.
Lemma local_vacuum : local parse_vacuum.
Proof.
  apply local_bind; [loc|]. intros []; [apply local_bind; [apply local_object_name|]; intros; apply local_ret|]. apply local_bind; [loc|]. intros []; [|apply local_fail].
  apply local_bind; [apply local_object_name|]. intros [|i n]; loc.
Qed.
Lemma local_truncate : local parse_truncate.
Proof. apply local_bind; [loc|]. intros _. apply local_bind; [apply local_object_name|]. intros n. apply local_ret. Qed.

(* 2. COPY takes the semicolon along *)
Definition swallows {A} (p : P A) : Prop := forall ts, piece ts ->
  (forall tail, p (ts ++ Semi :: tail) = match p ts with Some (x, r) => Some (x, tail) | None => None end) /\ (forall x r, p ts = Some (x, r) -> r = []).
Lemma swallows_bind {A B} (p : P A) (f : A -> P B) : local p -> (forall x, swallows (f x)) -> swallows (bind p f).
Proof.
  intros Lp Lf ts H. destruct (Lp ts H) as [L1 L2]. unfold bind. split.
  - intros tail. rewrite L1. destruct (p ts) as [[x r]|] eqn:E; [|reflexivity]. destruct (L2 x r eq_refl) as [u ->]. apply (Lf x r (piece_app _ _ H)).
  - intros y r' E'. destruct (p ts) as [[x r]|] eqn:E; [|discriminate]. destruct (L2 x r eq_refl) as [u ->]. exact (proj2 (Lf x r (piece_app _ _ H)) y r' E').
Qed.
Lemma swallows_then {A B} (p : P A) (f : A -> option B) : swallows p -> swallows (bind p (fun x => match f x with Some y => ret y | None => fail end)).
Proof.
  intros Sp ts H. destruct (Sp ts H) as [S1 S2]. unfold bind. split.
  - intros tail. rewrite S1. destruct (p ts) as [[x r]|]; [|reflexivity]. destruct (f x); reflexivity.
  - intros y r' E. destruct (p ts) as [[x r]|]; [|discriminate]. destruct (f x); [|discriminate]. injection E as _ <-. exact (S2 x r eq_refl).
Qed.
Notation cclause := (copy_clause upper).
Lemma local_copy_of b k : local (copy_clause_of upper b k).
Proof.
  unfold copy_clause_of.
  destruct (String.eqb k "STORED"); [apply local_bind; [loc|]; intros _; apply local_bind; [apply local_ensure|]; intros _; apply local_bind; [apply local_file_format|]; intros; apply local_ret|].
  destruct (String.eqb k "TO"); [apply local_bind; [apply local_ensure|]; intros _; apply local_bind; [apply local_literal|]; intros; apply local_ret|].
  destruct (String.eqb k "PARTITIONED"); [apply local_bind; [loc|]; intros _; apply local_bind; [apply local_ensure|]; intros _; apply local_bind; [apply local_partitions|]; intros; apply local_ret|].
  destruct (String.eqb k "OPTIONS"); [apply local_bind; [apply local_ensure|]; intros _; apply local_bind; [apply local_value_options|]; intros; apply local_ret|apply local_fail].
Qed.
Lemma copy_of_inl b k ts x r : copy_clause_of upper b k ts = Some (inr x, r) -> False.
Proof.
  unfold copy_clause_of, bind, ret, fail. intros E. repeat match type of E with context [match ?q with _ => _ end] => destruct q; try discriminate E end.
Qed.
Lemma copy_clause_cases b : forall ts, piece ts ->
  (exists x, cclause b ts = Some (inr x, []) /\ forall tail, cclause b (ts ++ Semi :: tail) = Some (inr x, tail)) \/
  (exists x r, cclause b ts = Some (inl x, r) /\ length r < length ts /\ piece r /\ forall tail, cclause b (ts ++ Semi :: tail) = Some (inl x, r ++ Semi :: tail)) \/
  (cclause b ts = None /\ forall tail, cclause b (ts ++ Semi :: tail) = None).
Proof.
  intros ts H. assert (Eq : forall ts, cclause b ts = match one_of ["STORED"; "TO"; "PARTITIONED"; "OPTIONS"; "WITH"]%string ts with
    | Some (Some k, r) => copy_clause_of upper b k r | Some (None, r) => (do _ <- end_of_copy; ret (inr b)) r | None => None end).
  { intros ts'. unfold copy_clause. unfold bind at 1. destruct (one_of _ ts') as [[[k|] r]|]; reflexivity. }
  pose proof (local_one_of ["STORED"; "TO"; "PARTITIONED"; "OPTIONS"; "WITH"]%string ts H) as [L1 L2].
  assert (Et : forall tail, cclause b (ts ++ Semi :: tail) = match one_of ["STORED"; "TO"; "PARTITIONED"; "OPTIONS"; "WITH"]%string ts with
    | Some (Some k, r) => copy_clause_of upper b k (r ++ Semi :: tail) | Some (None, r) => (do _ <- end_of_copy; ret (inr b)) (r ++ Semi :: tail) | None => None end).
  { intros tail. rewrite Eq, L1. destruct (one_of _ ts) as [[[k|] r]|]; reflexivity. }
  specialize (Eq ts). destruct (one_of ["STORED"; "TO"; "PARTITIONED"; "OPTIONS"; "WITH"]%string ts) as [[[k|] r]|] eqn:Eo.
  - pose proof (one_of_eats _ _ _ _ Eo). destruct (L2 _ _ eq_refl) as [u Eu]. assert (Hr : piece r) by (rewrite Eu in H; exact (piece_app _ _ H)).
    destruct (local_copy_of b k r Hr) as [G1 G2]. rewrite Eq.
    destruct (copy_clause_of upper b k r) as [[[x|x] r2]|] eqn:Eq2.
    + right. left. exists x, r2. split; [reflexivity|]. destruct (G2 _ _ eq_refl) as [u2 Eu2]. split; [rewrite Eu2 in H0; rewrite app_length in H0; lia|].
      split; [rewrite Eu2 in Hr; exact (piece_app _ _ Hr)|]. intros tail. rewrite Et. exact (G1 tail).
    + exfalso. exact (copy_of_inl _ _ _ _ _ Eq2).
    + right. right. split; [reflexivity|]. intros tail. rewrite Et. exact (G1 tail).
  - assert (r = ts) as -> by (unfold one_of, optional in Eo; destruct ts as [|t ts]; [injection Eo as <-; reflexivity|];
      match type of Eo with context [find ?f ?l] => destruct (find f l) end; [discriminate|injection Eo as <-; reflexivity]).
    rewrite Eq. destruct ts as [|t ts]; [left; exists b; split; [reflexivity|]; intros tail; rewrite Et; reflexivity|].
    right. right. assert (En : forall l, end_of_copy (t :: l) = None) by (intros l; destruct t; try reflexivity; exfalso; apply H; left; reflexivity).
    split; [unfold bind; rewrite En; reflexivity|]. intros tail. rewrite Et. cbn [app]. unfold bind. rewrite En. reflexivity.
  - right. right. split; [exact Eq|exact Et].
Qed.
Lemma copy_loop : forall n m b ts, piece ts -> length ts < n -> length ts < m ->
  (forall tail, loop m cclause b (ts ++ Semi :: tail) = match loop n cclause b ts with Some (x, r) => Some (x, tail) | None => None end) /\
  (forall x r, loop n cclause b ts = Some (x, r) -> r = []).
Proof.
  induction n as [|n IH]; intros m b ts H Hn Hm; [lia|]. destruct m as [|m]; [lia|]. cbn [loop]. unfold bind.
  destruct (copy_clause_cases b ts H) as [(x & E & Et)|[(x & r & E & Hr & Pr & Et)|(E & Et)]]; rewrite E.
  - split; [intros tail; rewrite Et; reflexivity|]. intros y r Ey. injection Ey as _ <-. reflexivity.
  - destruct (IH m x r Pr) as [I1 I2]; [lia|lia|]. split; [intros tail; rewrite Et; apply I1|exact I2].
  - split; [intros tail; rewrite Et; reflexivity|discriminate].
Qed.
Notation pcopy := (parse_copy native_query upper).
Lemma swallows_copy : swallows pcopy.
Proof.
  apply swallows_bind.
  - apply local_bind; [loc|]. intros []; [apply local_bind; [exact Lq|]; intros x; loc|apply local_bind; [apply local_object_name|]; intros; apply local_ret].
  - intros s. set (b0 := Build_copy_builder None None None None).
    assert (Sw : swallows (looped cclause b0)).
    { intros ts H. unfold looped. split; [intros tail|]; [apply (copy_loop (S (length ts)) _ b0 ts H); [lia|rewrite app_length; cbn; lia]|].
      exact (proj2 (copy_loop (S (length ts)) (S (length ts)) b0 ts H ltac:(lia) ltac:(lia))). }
    intros ts H. pose proof (swallows_then (looped cclause b0)
      (fun b => option_map (fun t => CopyTo s t (list_of (cb_partitioned b)) (cb_stored b) (list_of (cb_options b))) (cb_target b)) Sw ts H) as [S1 S2].
    unfold bind in *. split.
    + intros tail. specialize (S1 tail). destruct (looped cclause b0 (ts ++ Semi :: tail)) as [[x r]|], (looped cclause b0 ts) as [[x' r']|];
        repeat match goal with |- context [cb_target ?x] => destruct (cb_target x) end; cbn in *; exact S1.
    + intros y r E. apply (S2 y r). destruct (looped cclause b0 ts) as [[x' r']|]; [|discriminate]. destruct (cb_target x'); [exact E|discriminate].
Qed.

(* 3. Statements *)
Notation pstmt := (parse_statement native_statement native_create native_query native_expr native_type native_constraint native_option upper).
Notation psql := (parse_sql native_statement native_create native_query native_expr native_type native_constraint native_option upper).
Notation stmts := (statements native_statement native_create native_query native_expr native_type native_constraint native_option upper).
Notation pof := (statement_of native_statement native_create native_query native_expr native_type native_constraint native_option upper).
Lemma local_statement_of k : k <> Some "COPY"%string -> local (pof k).
Proof.
  destruct k as [k|]; [|intros _; apply local_bind; [exact Ls|]; intros n; apply local_ret]. intros N. cbn [statement_of].
  destruct (String.eqb_spec k "CREATE"); [apply local_parse_create|]. destruct (String.eqb_spec k "CONVERT"); [apply local_convert|].
  destruct (String.eqb_spec k "COPY"); [congruence|]. destruct (String.eqb_spec k "VACUUM"); [apply local_vacuum|apply local_truncate].
Qed.
Lemma statement_local ts : piece ts -> ~ is_copy ts ->
  (forall tail, pstmt (ts ++ Semi :: tail) = ext tail (pstmt ts)) /\ (forall x r, pstmt ts = Some (x, r) -> exists u, ts = u ++ r).
Proof.
  intros H N. pose proof (local_one_of ["CREATE"; "CONVERT"; "COPY"; "VACUUM"; "TRUNCATE"]%string ts H) as [L1 L2].
  assert (K : forall k r, one_of ["CREATE"; "CONVERT"; "COPY"; "VACUUM"; "TRUNCATE"]%string ts = Some (k, r) -> k <> Some "COPY"%string).
  { intros k r Eo ->. apply N. unfold one_of, optional in Eo. destruct ts as [|t ts]; [discriminate|].
    match type of Eo with context [find ?f ?l] => destruct (find f l) as [k'|] eqn:Ef; [|discriminate] end. injection Eo as -> _. apply find_some in Ef as [_ Ef].
    destruct t; try discriminate. cbn in Ef. apply String.eqb_eq in Ef. subst. exists v, quoted, ts. reflexivity. }
  unfold parse_statement, bind. split.
  - intros tail. rewrite L1. destruct (one_of ["CREATE"; "CONVERT"; "COPY"; "VACUUM"; "TRUNCATE"]%string ts) as [[k r]|]; [|reflexivity].
    destruct (L2 _ _ eq_refl) as [u Eu]. rewrite Eu in H. exact (proj1 (local_statement_of k (K k r eq_refl) r (piece_app _ _ H)) tail).
  - intros x r' E. destruct (one_of ["CREATE"; "CONVERT"; "COPY"; "VACUUM"; "TRUNCATE"]%string ts) as [[k r]|]; [|discriminate].
    destruct (L2 _ _ eq_refl) as [u Eu]. rewrite Eu in H. destruct (proj2 (local_statement_of k (K k r eq_refl) r (piece_app _ _ H)) x r' E) as [u2 E2].
    exists (u ++ u2). rewrite Eu, E2. apply app_assoc.
Qed.
Lemma statement_copy ts : piece ts -> is_copy ts ->
  (forall tail, pstmt (ts ++ Semi :: tail) = match pstmt ts with Some (x, r) => Some (x, tail) | None => None end) /\ (forall x r, pstmt ts = Some (x, r) -> r = []).
Proof.
  intros H (v & q & r & ->). assert (Hr : piece r) by exact (proj2 (piece_cons _ _ H)). unfold parse_statement, bind, one_of, optional. cbn [app find is_kw String.eqb Ascii.eqb eqb].
  exact (swallows_copy r Hr).
Qed.

(* 4. Requests *)
Lemma split_semi ts : piece ts \/ exists p tail, piece p /\ ts = p ++ Semi :: tail.
Proof.
  induction ts as [|t ts IH]; [left; intros []|]. assert (D : t = Semi \/ t <> Semi) by (destruct t; (left; reflexivity) || (right; discriminate)). destruct D as [->|N].
  - right. exists [], ts. split; [intros []|reflexivity].
  - destruct IH as [H|(p & tail & H & ->)]; [left; intros [C|C]; [exact (N C)|exact (H C)]|]. right. exists (t :: p), tail. split; [intros [C|C]; [exact (N C)|exact (H C)]|reflexivity].
Qed.
Lemma is_copy_dec ts : is_copy ts \/ ~ is_copy ts.
Proof.
  destruct ts as [|[v q k| | | | | | | | | | |] ts]; try (right; intros (? & ? & ? & E); discriminate E). destruct (String.eqb_spec k "COPY") as [->|N].
  - left. exists v, q, ts. reflexivity.
  - right. intros (? & ? & ? & E). injection E as _ _ -> _. apply N. reflexivity.
Qed.
Lemma pstmt_shrinks ts x r : pstmt ts = Some (x, r) -> length r <= length ts.
Proof.
  intros E. destruct (split_semi ts) as [H|(p & tail & H & ->)].
  - destruct (is_copy_dec ts) as [C|C]; [rewrite (proj2 (statement_copy ts H C) x r E); cbn; lia|]. destruct (proj2 (statement_local ts H C) x r E) as [u ->]. rewrite app_length. lia.
  - destruct (is_copy_dec p) as [C|C].
    + rewrite (proj1 (statement_copy p H C)) in E. destruct (pstmt p) as [[x' r']|]; [|discriminate]. injection E as _ <-. rewrite app_length. cbn. lia.
    + rewrite (proj1 (statement_local p H C)) in E. destruct (pstmt p) as [[x' r']|] eqn:E'; [|discriminate]. cbn [ext] in E. injection E as _ <-.
      destruct (proj2 (statement_local p H C) x' r' E') as [u ->]. rewrite !app_length. cbn. lia.
Qed.
Lemma drop_semis_le ts : length (drop_semis ts) <= length ts.
Proof. induction ts as [|t ts IH]; [cbn; lia|]. destruct t; cbn; lia. Qed.
Lemma stmts_semi n ts : stmts n true (Semi :: ts) = stmts n false ts.
Proof. destruct n; [reflexivity|]. cbn [statements drop_semis starts_semi negb andb]. reflexivity. Qed.
Lemma stmts_semi_false n ts : stmts n false (Semi :: ts) = stmts n false ts.
Proof. destruct n; [reflexivity|]. reflexivity. Qed.
Lemma stmts_fuel : forall k n m e ts, length ts <= k -> S (length ts) < n -> S (length ts) < m -> stmts n e ts = stmts m e ts.
Proof.
  induction k as [|k IH]; intros n m e ts Hk Hn Hm.
  - destruct ts; [|cbn in Hk; lia]. destruct n; [lia|]. destruct m; [lia|]. reflexivity.
  - destruct n as [|n]; [lia|]. destruct m as [|m]; [lia|]. cbn [statements].
    pose proof (drop_semis_le ts) as D. destruct (drop_semis ts) as [|t ts']; [reflexivity|]. destruct (e && negb (starts_semi ts)); [reflexivity|].
    destruct (pstmt (t :: ts')) as [[s r]|] eqn:E; [|reflexivity]. f_equal. pose proof (pstmt_shrinks _ _ _ E) as Sh.
    destruct r as [|t2 r]; [destruct n; [lia|]; destruct m; [lia|]; reflexivity|].
    destruct (Bool.bool_dec (starts_semi (t2 :: r)) true) as [Es|Es].
    + destruct t2; try discriminate. rewrite !stmts_semi. cbn in *. apply IH; lia.
    + assert (F : forall n, stmts (S n) true (t2 :: r) = None) by (intros n'; destruct t2; try reflexivity; exfalso; apply Es; reflexivity).
      destruct n; [lia|]. destruct m; [lia|]. rewrite !F. reflexivity.
Qed.
Lemma psql_piece p : piece p -> psql p = match p with [] => Some [] | _ => match pstmt p with Some (s, []) => Some [s] | _ => None end end.
Proof.
  intros H. unfold parse_sql. destruct p as [|t p]; [reflexivity|]. assert (N : t <> Semi) by exact (proj1 (piece_cons _ _ H)).
  assert (Ed : drop_semis (t :: p) = t :: p) by (destruct t; try reflexivity; contradiction). cbn [length statements]. rewrite Ed. cbn [andb].
  destruct (pstmt (t :: p)) as [[s r]|] eqn:E; [|reflexivity]. destruct r as [|t2 r]; [reflexivity|].
  assert (Pr : piece (t2 :: r)).
  { destruct (is_copy_dec (t :: p)) as [C|C]; [pose proof (proj2 (statement_copy _ H C) _ _ E) as Er; discriminate Er|].
    destruct (proj2 (statement_local _ H C) _ _ E) as [u Eu]. rewrite Eu in H. exact (piece_app _ _ H). }
  assert (N2 : t2 <> Semi) by exact (proj1 (piece_cons _ _ Pr)). destruct t2; try reflexivity. contradiction.
Qed.
Lemma psql_cons p tail : piece p -> ~ is_copy p -> psql (p ++ Semi :: tail) = all_of [psql p; psql tail].
Proof.
  intros H C. rewrite (psql_piece p H). destruct p as [|t p].
  - cbn [app]. unfold parse_sql at 1. rewrite stmts_semi_false. unfold all_of. unfold parse_sql.
    rewrite (stmts_fuel (length tail) (S (S (length (Semi :: tail)))) (S (S (length tail))) false tail); [|lia|cbn; lia|lia].
    destruct (stmts (S (S (length tail))) false tail) as [l|]; [rewrite app_nil_r; reflexivity|reflexivity].
  - assert (N : t <> Semi) by exact (proj1 (piece_cons _ _ H)).
    assert (Ed : drop_semis ((t :: p) ++ Semi :: tail) = (t :: p) ++ Semi :: tail) by (destruct t; try reflexivity; contradiction).
    unfold parse_sql at 1. set (n := S (length ((t :: p) ++ Semi :: tail))). cbn [statements]. rewrite Ed. cbn [andb app]. cbn [app] in Ed.
    pose proof (proj1 (statement_local _ H C) tail) as L1. cbn [app] in L1. rewrite L1. destruct (pstmt (t :: p)) as [[s r]|] eqn:E; [|reflexivity]. cbn [ext].
    destruct r as [|t2 r].
    + cbn [app]. rewrite stmts_semi. unfold all_of. unfold parse_sql. rewrite (stmts_fuel (length tail) n (S (S (length tail))) false tail); [|lia|unfold n; rewrite app_length; cbn; lia|lia].
      destruct (stmts (S (S (length tail))) false tail) as [l|]; [cbn; rewrite app_nil_r; reflexivity|reflexivity].
    + assert (Pr : piece (t2 :: r)) by (destruct (proj2 (statement_local _ H C) _ _ E) as [u Eu]; rewrite Eu in H; exact (piece_app _ _ H)).
      assert (N2 : t2 <> Semi) by exact (proj1 (piece_cons _ _ Pr)). cbn [app]. unfold n. destruct t2; try reflexivity. contradiction.
Qed.
Lemma psql_copy p tail : piece p -> is_copy p -> psql (p ++ Semi :: tail) =
  match psql p with Some l => match tail with Semi :: _ | [] => all_of [Some l; psql tail] | _ => None end | None => None end.
Proof.
  intros H C. rewrite (psql_piece p H). destruct p as [|t p]; [destruct C as (? & ? & ? & E); discriminate E|].
  assert (N : t <> Semi) by exact (proj1 (piece_cons _ _ H)).
  assert (Ed : drop_semis ((t :: p) ++ Semi :: tail) = (t :: p) ++ Semi :: tail) by (destruct t; try reflexivity; contradiction).
  unfold parse_sql at 1. set (n := S (length ((t :: p) ++ Semi :: tail))). cbn [statements]. rewrite Ed. cbn [andb app]. cbn [app] in Ed.
  pose proof (proj1 (statement_copy _ H C) tail) as L1. cbn [app] in L1. rewrite L1. destruct (pstmt (t :: p)) as [[s r]|] eqn:E; [|reflexivity].
  rewrite (proj2 (statement_copy _ H C) s r E). destruct tail as [|t2 tail]; [reflexivity|].
  destruct (Bool.bool_dec (starts_semi (t2 :: tail)) true) as [Es|Es].
  - destruct t2; try discriminate. rewrite stmts_semi. unfold all_of, parse_sql. rewrite stmts_semi_false.
    rewrite (stmts_fuel (length tail) n (S (S (length (Semi :: tail)))) false tail); [|lia|unfold n; rewrite app_length; cbn; lia|cbn; lia].
    destruct (stmts (S (S (length (Semi :: tail)))) false tail) as [l|]; [cbn; rewrite app_nil_r; reflexivity|reflexivity].
  - unfold n. destruct t2; try reflexivity. exfalso. apply Es. reflexivity.
Qed.
End Parser.
