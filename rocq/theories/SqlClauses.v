(* Reading what SqlSpec.v says is written: names, literals, options and the clauses of COPY and CREATE EXTERNAL TABLE. *)
From Coq Require Import String List Arith Bool Lia.
Import ListNotations.
From Verif Require Import SqlModel SqlSpec.
Open Scope list_scope.

Lemma string_app_assoc (a b c : string) : ((a ++ b) ++ c = a ++ (b ++ c))%string.
Proof. induction a as [|x a IH]; cbn; [reflexivity|]. f_equal. exact IH. Qed.

Lemma bind_some {A B} (p : P A) (f : A -> P B) ts x r : p ts = Some (x, r) -> bind p f ts = f x r.
Proof. intros E. unfold bind. rewrite E. reflexivity. Qed.
Lemma bind_none {A B} (p : P A) (f : A -> P B) ts : p ts = None -> bind p f ts = None.
Proof. intros E. unfold bind. rewrite E. reflexivity. Qed.

Lemma expect_kw k t rest : kw k t -> expect_keyword k (t :: rest) = Some (tt, rest).
Proof. intros (v & q & ->). unfold expect_keyword, next, is_kw. rewrite String.eqb_refl. reflexivity. Qed.
Lemma keyword_kw k t rest : kw k t -> keyword k (t :: rest) = Some (true, rest).
Proof. intros (v & q & ->). unfold keyword, bind, optional, is_kw. rewrite String.eqb_refl. reflexivity. Qed.
Definition starts_kw (k : string) (ts : list token) : bool := match ts with t :: _ => is_kw k t | [] => false end.
Lemma keyword_no k ts : starts_kw k ts = false -> keyword k ts = Some (false, ts).
Proof. unfold keyword, bind, optional. destruct ts as [|t ts]; cbn; [reflexivity|]. intros ->. reflexivity. Qed.
Lemma keyword_false k ts r : keyword k ts = Some (false, r) -> r = ts.
Proof. unfold keyword, bind, optional, ret. destruct ts as [|t ts]; [intros H; injection H as <-; reflexivity|]. destruct (is_kw k t); intros H; [discriminate|injection H as <-; reflexivity]. Qed.
Lemma kw_is k k' t : kw k t -> is_kw k' t = String.eqb k k'.
Proof. intros (v & q & ->). reflexivity. Qed.
Lemma one_of_kw ks k t rest : kw k t -> find (fun k' => String.eqb k k') ks = Some k -> one_of ks (t :: rest) = Some (Some k, rest).
Proof. intros (v & q & ->) E. unfold one_of, optional, is_kw. rewrite E. reflexivity. Qed.

Lemma ident_written i t : writes_ident i t -> ident_token t = Some i.
Proof. destruct i as [v q]. unfold writes_ident. cbn [fst snd]. intros [[k ->]|[E [->| ->]]]; subst; reflexivity. Qed.
Lemma identifier_written i t rest : writes_ident i t -> identifier (t :: rest) = Some (i, rest).
Proof. intros H. unfold identifier, next. rewrite (ident_written _ _ H). reflexivity. Qed.
Lemma literal_written s t rest : writes_literal s t -> literal_string (t :: rest) = Some (s, rest).
Proof. intros [->|[->|[->|[q ->]]]]; reflexivity. Qed.

Definition no_period (rest : list token) : Prop := match rest with Period :: _ => False | _ => True end.
Lemma consume_no p rest : (match rest with t :: _ => is_punct p t = false | [] => True end) -> consume p rest = Some (false, rest).
Proof. unfold consume, bind, optional. destruct rest as [|t r]; [reflexivity|]. intros ->. reflexivity. Qed.
Lemma consume_no_period rest : no_period rest -> consume Period rest = Some (false, rest).
Proof. intros H. apply consume_no. destruct rest as [|[]]; try reflexivity; cbn in H; trivial. destruct H. Qed.
Lemma consume_period ts : consume Period (Period :: ts) = Some (true, ts). Proof. reflexivity. Qed.

(* names *)
Lemma name_loop : forall n name ts acc rest, writes_name name ts -> no_period rest -> length ts < n ->
  loop n (fun l => do c <- consume Period; if c : bool then do j <- identifier; ret (inl (l ++ [j])) else ret (inr l)) acc (Period :: ts ++ rest) = Some (acc ++ name, rest).
Proof.
  induction n as [|n IH]; intros name ts acc rest W R L; [lia|]. inversion W as [i t Wi|i t l ts' Wi W' E1 E2]; subst.
  - cbn [length] in L. cbn [app loop]. rewrite (bind_some _ _ _ (inl (acc ++ [i])) rest).
    2:{ rewrite (bind_some _ _ _ true _ (consume_period _)). rewrite (bind_some _ _ _ _ _ (identifier_written i t rest Wi)). reflexivity. }
    destruct n; [lia|]. cbn [loop]. rewrite (bind_some _ _ _ (inr (acc ++ [i])) rest); [reflexivity|].
    rewrite (bind_some _ _ _ _ _ (consume_no_period rest R)). reflexivity.
  - cbn [length] in L. cbn [app loop]. rewrite (bind_some _ _ _ (inl (acc ++ [i])) (Period :: ts' ++ rest)).
    2:{ rewrite (bind_some _ _ _ true _ (consume_period _)). rewrite (bind_some _ _ _ _ _ (identifier_written i t (Period :: ts' ++ rest) Wi)). reflexivity. }
    rewrite (IH l ts' (acc ++ [i]) rest W' R); [|lia]. rewrite <- app_assoc. reflexivity.
Qed.
Lemma object_name_written name ts rest : writes_name name ts -> no_period rest -> object_name (ts ++ rest) = Some (name, rest).
Proof.
  intros W R. unfold object_name. inversion W as [i t Wi|i t l ts' Wi W' E1 E2]; subst; cbn [app]; rewrite (bind_some _ _ _ _ _ (identifier_written i t _ Wi)); unfold looped.
  - cbn [loop]. rewrite (bind_some _ _ _ (inr [i]) rest); [reflexivity|]. rewrite (bind_some _ _ _ _ _ (consume_no_period rest R)). reflexivity.
  - apply (name_loop _ l ts' [i] rest W' R). cbn [length]. rewrite app_length. lia.
Qed.
Lemma writes_name_head name ts : writes_name name ts -> exists i t r, ts = t :: r /\ writes_ident i t /\ (r = [] \/ exists r', r = Period :: r').
Proof. intros W. inversion W; subst; eexists _, _, _; (split; [reflexivity|]); (split; [eassumption|]); [left; reflexivity|right; eexists; reflexivity]. Qed.

(* options *)
Lemma key_loop : forall n p ts acc rest, writes_path p ts -> no_period rest -> length ts < n ->
  loop n (fun l => do c <- consume Period;
    if c : bool then do v <- next (fun t => match t with Word v _ _ => Some v | _ => None end); ret (inl (l ++ "." ++ v)%string) else ret (inr l)) acc (Period :: ts ++ rest)
  = Some ((acc ++ "." ++ p)%string, rest).
Proof.
  induction n as [|n IH]; intros p ts acc rest W R L; [lia|]. inversion W as [v q k|v q k p' ts' W' E1 E2]; subst; cbn [length] in L.
  - cbn [app loop]. rewrite (bind_some _ _ _ (inl (acc ++ "." ++ p)%string) rest).
    2:{ rewrite (bind_some _ _ _ true _ (consume_period _)). reflexivity. }
    destruct n; [lia|]. cbn [loop]. rewrite (bind_some _ _ _ (inr (acc ++ "." ++ p)%string) rest); [reflexivity|].
    rewrite (bind_some _ _ _ _ _ (consume_no_period rest R)). reflexivity.
  - cbn [app loop]. rewrite (bind_some _ _ _ (inl (acc ++ "." ++ v)%string) (Period :: ts' ++ rest)).
    2:{ rewrite (bind_some _ _ _ true _ (consume_period _)). reflexivity. }
    rewrite (IH p' ts' (acc ++ "." ++ v)%string rest W' R); [|lia]. f_equal. f_equal. rewrite !string_app_assoc. reflexivity.
Qed.
Lemma option_key_written s ts rest : writes_key s ts -> no_period rest -> option_key (ts ++ rest) = Some (s, rest).
Proof.
  intros [->|[->|[->|W]]] R; try reflexivity. unfold option_key. inversion W as [v q k|v q k p' ts' W' E1 E2]; subst; cbn [app].
  - rewrite (bind_some _ _ _ (s, true) rest) by reflexivity. cbn [fst snd]. unfold looped. cbn [loop].
    rewrite (bind_some _ _ _ (inr s) rest); [reflexivity|]. rewrite (bind_some _ _ _ _ _ (consume_no_period rest R)). reflexivity.
  - rewrite (bind_some _ _ _ (v, true) (Period :: ts' ++ rest)) by reflexivity. cbn [fst snd]. unfold looped.
    apply (key_loop _ p' ts' v rest W' R). cbn [length]. rewrite app_length. lia.
Qed.
Lemma option_value_written v t rest : writes_value v t -> option_value (t :: rest) = Some (v, rest).
Proof. destruct v; cbn [writes_value]; [intros [->|(q & k & ->)]|intros ->|intros ->|intros ->|intros []]; reflexivity. Qed.
Lemma value_no_period v t rest : writes_value v t -> no_period (t :: rest).
Proof. destruct v; cbn [writes_value]; [intros [->|(q & k & ->)]|intros ->|intros ->|intros ->|intros []]; exact Logic.I. Qed.

(* a comma separated list, read by a loop that reads an element and then looks for a comma or the closing parenthesis *)
Definition sep_body {S} (p : S -> P S) (l : S) : P (S + S) :=
  do l' <- p l; do c <- consume Comma; do e <- consume RParen; if e : bool then ret (inr l') else if c : bool then ret (inl l') else fail.
Lemma commas_head (P0 : list token -> Prop) tss : tss <> [] -> Forall (fun ts => forall r, P0 (ts ++ r)) tss -> forall r, P0 (commas tss ++ r).
Proof. destruct tss as [|ts [|ts2 tss]]; [contradiction|intros _ F r; inversion F; subst; cbn; auto|]. intros _ F r. inversion F; subst. cbn [commas]. rewrite <- app_assoc. auto. Qed.
Definition no_rparen (ts : list token) : Prop := match ts with t :: _ => t <> RParen | [] => True end.
Lemma consume_no_rparen ts : no_rparen ts -> consume RParen ts = Some (false, ts).
Proof. intros H. apply consume_no. destruct ts as [|t r]; [exact Logic.I|]. destruct t; try reflexivity. contradiction H. reflexivity. Qed.
Lemma consume_no_comma t ts : t <> Comma -> consume Comma (t :: ts) = Some (false, t :: ts).
Proof. intros H. apply consume_no. destruct t; try reflexivity. contradiction. Qed.
Definition closing (fin : list token) : Prop := fin = [RParen] \/ fin = [Comma; RParen].
Lemma listed_inv tss ts : listed tss ts -> exists fin, closing fin /\ (tss = [] -> fin = [RParen]) /\ forall rest, ts ++ rest = LParen :: commas tss ++ fin ++ rest.
Proof.
  intros [->|[Ne ->]].
  - exists [RParen]. split; [left; reflexivity|]. split; [reflexivity|]. intros rest. unfold parens. cbn [app]. rewrite <- app_assoc. reflexivity.
  - exists [Comma; RParen]. split; [right; reflexivity|]. split; [intros E; contradiction|]. intros rest. cbn [app]. rewrite <- app_assoc. reflexivity.
Qed.
Lemma closing_head fin rest : closing fin -> exists t r, fin ++ rest = t :: r /\ (t = Comma \/ t = RParen).
Proof. intros [->| ->]; eexists _, _; (split; [reflexivity|auto]). Qed.
Lemma sep_loop {A S} (push : S -> A -> S) (body : S -> P (S + S)) (W : A -> list token -> Prop) (p : S -> P S) :
  (forall l ts, body l ts = sep_body p l ts) ->
  (forall l x ts t rest, W x ts -> t = Comma \/ t = RParen -> p l (ts ++ t :: rest) = Some (push l x, t :: rest)) ->
  (forall x ts, W x ts -> forall rest, no_rparen (ts ++ RParen :: rest) /\ no_rparen (ts ++ Comma :: rest)) ->
  forall fin, closing fin ->
  forall n xs tss acc rest, xs <> [] -> Forall2 W xs tss -> length (commas tss) < n -> loop n body acc (commas tss ++ fin ++ rest) = Some (fold_left push xs acc, rest).
Proof.
  intros Hb Hp Hn fin Hf. induction n as [|n IH]; intros xs tss acc rest Ne F L; [lia|]. destruct F as [|x ts xs tss Wx F]; [contradiction|]. clear Ne.
  destruct F as [|x2 ts2 xs tss Wx2 F].
  - cbn [commas loop fold_left]. rewrite (bind_some _ _ _ (inr (push acc x)) rest); [reflexivity|]. rewrite Hb. unfold sep_body.
    destruct Hf as [->| ->]; cbn [app].
    + rewrite (bind_some _ _ _ _ _ (Hp acc x ts RParen rest Wx (or_intror eq_refl))). reflexivity.
    + rewrite (bind_some _ _ _ _ _ (Hp acc x ts Comma (RParen :: rest) Wx (or_introl eq_refl))). reflexivity.
  - assert (E : commas (ts :: ts2 :: tss) ++ fin ++ rest = ts ++ Comma :: commas (ts2 :: tss) ++ fin ++ rest) by (cbn [commas]; rewrite <- app_assoc; reflexivity).
    assert (Le : length (commas (ts2 :: tss)) < n) by (change (commas (ts :: ts2 :: tss)) with (ts ++ Comma :: commas (ts2 :: tss)) in L; rewrite app_length in L; cbn [length] in L; lia).
    assert (Nr : no_rparen (commas (ts2 :: tss) ++ fin ++ rest)).
    { cbn [commas]. destruct tss as [|ts3 tss']; [|rewrite <- app_assoc; apply (Hn x2 ts2 Wx2)]. destruct (closing_head fin rest Hf) as (t & r & -> & [->| ->]); apply (Hn x2 ts2 Wx2). }
    rewrite E. cbn [loop fold_left]. rewrite (bind_some _ _ _ (inl (push acc x)) (commas (ts2 :: tss) ++ fin ++ rest)).
    + rewrite (IH (x2 :: xs) (ts2 :: tss) (push acc x) rest); [reflexivity|discriminate|constructor; assumption|exact Le].
    + rewrite Hb. unfold sep_body. rewrite (bind_some _ _ _ _ _ (Hp acc x ts Comma _ Wx (or_introl eq_refl))).
      rewrite (bind_some _ _ _ true (commas (ts2 :: tss) ++ fin ++ rest)) by reflexivity.
      rewrite (bind_some _ _ _ _ _ (consume_no_rparen _ Nr)). reflexivity.
Qed.
Lemma fold_push {A} (xs : list A) : forall acc, fold_left (fun l x => l ++ [x]) xs acc = acc ++ xs.
Proof. induction xs as [|x xs IH]; intros acc; cbn; [rewrite app_nil_r; reflexivity|]. rewrite IH, <- app_assoc. reflexivity. Qed.
Lemma app_cons {A} (a b : list A) t : (a ++ [t]) ++ b = a ++ t :: b. Proof. rewrite <- app_assoc. reflexivity. Qed.

Lemma key_not_empty s ts : writes_key s ts -> ts <> [] /\ forall rest, no_rparen (ts ++ rest).
Proof.
  intros [->|[->|[->|W]]]; try (split; [discriminate|intros rest; cbn; discriminate]).
  inversion W; subst; (split; [discriminate|intros rest; cbn; discriminate]).
Qed.
Lemma value_options_written l ts rest : writes_options l ts -> value_options (ts ++ rest) = Some (l, rest).
Proof.
  intros (Ne & tss & F & Hl). destruct (listed_inv _ _ Hl) as (fin & Hf & _ & ->). clear ts Hl. unfold value_options. rewrite (bind_some _ _ _ tt (commas tss ++ fin ++ rest)) by reflexivity.
  unfold looped. rewrite sep_loop with (push := fun l x => l ++ [x]) (W := writes_option) (p := fun l => do k <- option_key; do v <- option_value; ret (l ++ [(k, v)])) (xs := l) (tss := tss); [rewrite fold_push; reflexivity| | | |exact Hf|exact Ne|exact F|rewrite app_length; cbn; lia].
  - intros l0 ts. unfold sep_body, bind. destruct (option_key ts) as [[k r]|]; [|reflexivity]. destruct (option_value r) as [[v r']|]; reflexivity.
  - intros l0 [k v] ts t rest0 (key & val & -> & Wk & Wv) _. rewrite app_cons. cbn [fst snd] in *.
    rewrite (bind_some _ _ _ _ _ (option_key_written k key (val :: t :: rest0) Wk (value_no_period _ _ _ Wv))).
    rewrite (bind_some _ _ _ _ _ (option_value_written v val _ Wv)). reflexivity.
  - intros [k v] ts (key & val & -> & Wk & Wv). destruct (key_not_empty _ _ Wk) as [Z H]. intros r. rewrite <- !app_assoc. split; apply H.
Qed.
Definition names_body (l : list ident) : P (list ident + list ident) :=
  do w <- peek_word; if w : bool then do i <- identifier; do c <- consume Comma; do e <- consume RParen;
    if e : bool then ret (inr (l ++ [i])) else if c : bool then ret (inl (l ++ [i])) else fail else fail.
Lemma partitions_written l ts rest : writes_names l ts -> partitions (ts ++ rest) = Some (l, rest).
Proof.
  intros (tss & F & Hl). destruct (listed_inv _ _ Hl) as (fin & Hf & Hz & ->). clear ts Hl. unfold partitions. rewrite (bind_some _ _ _ true (commas tss ++ fin ++ rest)) by reflexivity. cbn [negb].
  destruct l as [|i l].
  - inversion F; subst. rewrite (Hz eq_refl). reflexivity.
  - assert (Nr : no_rparen (commas tss ++ fin ++ rest)).
    { inversion F as [|? ? ? tss' (k & ->)]; subst. destruct tss'; cbn; discriminate. }
    rewrite (bind_some _ _ _ _ _ (consume_no_rparen _ Nr)). unfold looped. fold names_body.
    rewrite sep_loop with (push := fun l x => l ++ [x]) (W := fun i ts => exists k, ts = [Word (fst i) (snd i) k])
      (p := fun l => do w <- peek_word; if w : bool then do i <- identifier; ret (l ++ [i]) else fail) (xs := i :: l) (tss := tss);
      [rewrite fold_push; reflexivity| | | |exact Hf|discriminate|exact F|rewrite app_length; cbn; lia].
    + intros l0 ts. unfold names_body, sep_body, bind. destruct (peek_word ts) as [[[] r]|]; try reflexivity. destruct (identifier r) as [[i0 r']|]; reflexivity.
    + intros l0 [v q] ts t rest0 (k & ->) _. reflexivity.
    + intros [v q] ts (k & ->) r. split; cbn; discriminate.
Qed.

Section Upper.
Variable upper : string -> string.

(* COPY *)
Definition is_set (b : copy_builder) (c : clause) : bool :=
  match c with
  | Stored _ => match cb_stored b with Some _ => true | None => false end
  | To _ => match cb_target b with Some _ => true | None => false end
  | PartitionedBy _ => match cb_partitioned b with Some _ => true | None => false end
  | Options _ => match cb_options b with Some _ => true | None => false end
  end.
Definition add (b : copy_builder) (c : clause) : copy_builder :=
  match c with
  | Stored f => {| cb_stored := Some f; cb_target := cb_target b; cb_partitioned := cb_partitioned b; cb_options := cb_options b |}
  | To t => {| cb_stored := cb_stored b; cb_target := Some t; cb_partitioned := cb_partitioned b; cb_options := cb_options b |}
  | PartitionedBy p => {| cb_stored := cb_stored b; cb_target := cb_target b; cb_partitioned := Some p; cb_options := cb_options b |}
  | Options o => {| cb_stored := cb_stored b; cb_target := cb_target b; cb_partitioned := cb_partitioned b; cb_options := Some o |}
  end.
Definition copy_words := ["STORED"; "TO"; "PARTITIONED"; "OPTIONS"; "WITH"]%string.
Lemma clause_written c ts b rest : writes_clause upper c ts ->
  copy_clause upper b (ts ++ rest) = if is_set b c then None else Some (inl (add b c), rest).
Proof.
  destruct c as [f|s|l|l]; cbn [writes_clause].
  - intros (t1 & t2 & v & q & k & K1 & K2 & -> & ->). unfold copy_clause. fold copy_words. cbn [app]. rewrite (bind_some _ _ _ _ _ (one_of_kw copy_words "STORED" t1 _ K1 eq_refl)).
    unfold copy_clause_of. cbn [String.eqb Ascii.eqb Bool.eqb]. rewrite (bind_some _ _ _ _ _ (expect_kw "AS" t2 _ K2)). unfold ensure_not_set. cbn [is_set].
    destruct (cb_stored b); reflexivity.
  - intros (t1 & t2 & K1 & W & ->). unfold copy_clause. fold copy_words. cbn [app]. rewrite (bind_some _ _ _ _ _ (one_of_kw copy_words "TO" t1 _ K1 eq_refl)).
    unfold copy_clause_of. cbn [String.eqb Ascii.eqb Bool.eqb]. unfold ensure_not_set. cbn [is_set]. destruct (cb_target b); [reflexivity|].
    rewrite (bind_some _ _ _ tt (t2 :: rest)) by reflexivity. rewrite (bind_some _ _ _ _ _ (literal_written s t2 rest W)). reflexivity.
  - intros (t1 & t2 & ts' & K1 & K2 & W & ->). unfold copy_clause. fold copy_words. cbn [app]. rewrite (bind_some _ _ _ _ _ (one_of_kw copy_words "PARTITIONED" t1 _ K1 eq_refl)).
    unfold copy_clause_of. cbn [String.eqb Ascii.eqb Bool.eqb]. rewrite (bind_some _ _ _ _ _ (expect_kw "BY" t2 _ K2)). unfold ensure_not_set. cbn [is_set].
    destruct (cb_partitioned b); [reflexivity|]. rewrite (bind_some _ _ _ tt (ts' ++ rest)) by reflexivity. rewrite (bind_some _ _ _ _ _ (partitions_written l ts' rest W)). reflexivity.
  - intros (t & ts' & K1 & W & ->). unfold copy_clause. fold copy_words. cbn [app]. rewrite (bind_some _ _ _ _ _ (one_of_kw copy_words "OPTIONS" t _ K1 eq_refl)).
    unfold copy_clause_of. cbn [String.eqb Ascii.eqb Bool.eqb]. unfold ensure_not_set. cbn [is_set]. destruct (cb_options b); [reflexivity|].
    rewrite (bind_some _ _ _ tt (ts' ++ rest)) by reflexivity. rewrite (bind_some _ _ _ _ _ (value_options_written l ts' rest W)). reflexivity.
Qed.
Fixpoint add_all (b : copy_builder) (cs : list clause) : option copy_builder :=
  match cs with [] => Some b | c :: cs' => if is_set b c then None else add_all (add b c) cs' end.
Lemma clause_not_empty c ts : writes_clause upper c ts -> ts <> [].
Proof. destruct c; cbn; [intros (? & ? & ? & ? & ? & ? & ? & -> & ?)|intros (? & ? & ? & ? & ->)|intros (? & ? & ? & ? & ? & ? & ->)|intros (? & ? & ? & ? & ->)]; discriminate. Qed.
Lemma copy_loop_written : forall n cs tss b, Forall2 (writes_clause upper) cs tss -> length (concat tss) < n ->
  loop n (copy_clause upper) b (concat tss) = option_map (fun b' => (b', [])) (add_all b cs).
Proof.
  induction n as [|n IH]; intros cs tss b F L; [lia|]. destruct F as [|c ts cs tss W F]; cbn [concat loop add_all].
  - reflexivity.
  - unfold bind. rewrite (clause_written c ts b (concat tss) W). destruct (is_set b c); [reflexivity|]. apply IH; [exact F|].
    cbn [concat] in L. rewrite app_length in L. pose proof (clause_not_empty c ts W). destruct ts; [contradiction|cbn in L; lia].
Qed.
(* the builder holds the clauses *)
Definition of_opt {A} (o : option A) : list A := match o with Some x => [x] | None => [] end.
Lemma of_opt_list {A} (o : option (list A)) : list_of o = concat (of_opt o).
Proof. destruct o; cbn; [rewrite app_nil_r; reflexivity|reflexivity]. Qed.
Lemma of_opt_hd {A} (o : option A) : o = hd_error (of_opt o). Proof. destruct o; reflexivity. Qed.
Lemma of_opt_le {A} (o : option A) : length (of_opt o) <= 1. Proof. destruct o; cbn; lia. Qed.
Lemma add_all_spec : forall cs b,
  match add_all b cs with
  | Some b' => of_opt (cb_stored b') = of_opt (cb_stored b) ++ formats cs /\ of_opt (cb_target b') = of_opt (cb_target b) ++ targets cs /\
               of_opt (cb_partitioned b') = of_opt (cb_partitioned b) ++ partitionings cs /\ of_opt (cb_options b') = of_opt (cb_options b) ++ option_lists cs
  | None => 1 < length (of_opt (cb_stored b) ++ formats cs) \/ 1 < length (of_opt (cb_target b) ++ targets cs) \/
            1 < length (of_opt (cb_partitioned b) ++ partitionings cs) \/ 1 < length (of_opt (cb_options b) ++ option_lists cs)
  end.
Proof.
  induction cs as [|c cs IH]; intros b; cbn [add_all].
  - cbn [formats targets partitionings option_lists flat_map]. rewrite !app_nil_r. auto.
  - destruct (is_set b c) eqn:E.
    + destruct c; cbn [is_set] in E; cbn [formats targets partitionings option_lists flat_map app]; [left|right; left|right; right; left|right; right; right];
        match goal with |- context [of_opt (?f b)] => destruct (f b); [|discriminate] end; cbn; lia.
    + specialize (IH (add b c)). destruct (add_all (add b c) cs) as [b'|]; destruct c; cbn [is_set] in E; cbn [formats targets partitionings option_lists flat_map app];
        cbn [add cb_stored cb_target cb_partitioned cb_options] in IH;
        match type of E with match ?x with _ => _ end = _ => destruct x; [discriminate|] end; cbn [of_opt app] in IH |- *; exact IH.
Qed.

Section Parser.
Variable native_statement native_create native_query native_expr native_type : P nat.
Variable native_constraint native_option : P (option nat).
Notation pstmt := (parse_statement native_statement native_create native_query native_expr native_type native_constraint native_option upper).
Notation psql := (parse_sql native_statement native_create native_query native_expr native_type native_constraint native_option upper).
Lemma psql_one t ts : t <> Semi -> psql (t :: ts) = match pstmt (t :: ts) with Some (s, []) => Some [s] | None => None | _ => psql (t :: ts) end.
Proof.
  intros N. assert (E : drop_semis (t :: ts) = t :: ts) by (destruct t; try reflexivity; contradiction).
  unfold parse_sql. cbn [statements]. rewrite E. cbn [andb]. destruct (pstmt (t :: ts)) as [[s [|t2 r]]|]; reflexivity.
Qed.
Lemma kw_not_semi k t : kw k t -> t <> Semi. Proof. intros (v & q & ->). discriminate. Qed.

Lemma clause_head c ts rest : writes_clause upper c ts -> no_period (ts ++ rest).
Proof.
  destruct c; cbn; [intros (t & ? & ? & ? & ? & (? & ? & ->) & ? & -> & ?)|intros (t & ? & (? & ? & ->) & ? & ->)|intros (t & ? & ? & (? & ? & ->) & ? & ? & ->)|intros (t & ? & (? & ? & ->) & ? & ->)]; exact Logic.I.
Qed.
Lemma clauses_head cs tss : Forall2 (writes_clause upper) cs tss -> no_period (concat tss).
Proof. intros [|c ts cs' tss' W F]; [exact Logic.I|]. cbn [concat]. exact (clause_head c ts _ W). Qed.
Lemma copy_source_written s ts rest : writes_source native_query s ts -> no_period rest -> copy_source native_query (ts ++ rest) = Some (s, rest).
Proof.
  destruct s as [x|n]; cbn [writes_source]; unfold copy_source.
  - intros (q & -> & R) _. cbn [app]. rewrite app_cons. rewrite (bind_some _ _ _ true (q ++ RParen :: rest)) by reflexivity. rewrite (bind_some _ _ _ _ _ (R rest)). reflexivity.
  - intros W R. rewrite (bind_some _ _ _ false (ts ++ rest)).
    + rewrite (bind_some _ _ _ _ _ (object_name_written n ts rest W R)). reflexivity.
    + destruct (writes_name_head _ _ W) as (i & t & r & -> & Wi & _). apply consume_no. cbn. destruct Wi as [[k ->]|[_ [->| ->]]]; reflexivity.
Qed.
Lemma copy_written t s ss cs tss : kw "COPY" t -> writes_source native_query s ss -> Forall2 (writes_clause upper) cs tss ->
  psql (t :: ss ++ concat tss) =
    match add_all {| cb_stored := None; cb_target := None; cb_partitioned := None; cb_options := None |} cs with
    | Some b => match cb_target b with
                | Some target => Some [CopyTo s target (list_of (cb_partitioned b)) (cb_stored b) (list_of (cb_options b))]
                | None => None
                end
    | None => None
    end.
Proof.
  intros K W F. rewrite (psql_one _ _ (kw_not_semi _ _ K)).
  assert (E : pstmt (t :: ss ++ concat tss) = parse_copy native_query upper (ss ++ concat tss)).
  { unfold parse_statement. rewrite (bind_some _ _ _ _ _ (one_of_kw ["CREATE"; "CONVERT"; "COPY"; "VACUUM"; "TRUNCATE"]%string "COPY" t _ K eq_refl)). reflexivity. }
  assert (E2 : parse_copy native_query upper (ss ++ concat tss) = match add_all {| cb_stored := None; cb_target := None; cb_partitioned := None; cb_options := None |} cs with
    | Some b => match cb_target b with
                | Some target => Some (CopyTo s target (list_of (cb_partitioned b)) (cb_stored b) (list_of (cb_options b)), [])
                | None => None
                end
    | None => None
    end).
  { unfold parse_copy. rewrite (bind_some _ _ _ _ _ (copy_source_written s ss (concat tss) W (clauses_head _ _ F))). unfold looped, bind.
    rewrite (copy_loop_written (S (length (concat tss))) cs tss _ F (Nat.lt_succ_diag_r _)).
    destruct (add_all _ cs) as [b|]; [|reflexivity]. cbn [option_map]. destruct (cb_target b); reflexivity. }
  rewrite E, E2. destruct (add_all _ cs) as [b|]; [|reflexivity]. destruct (cb_target b); reflexivity.
Qed.

(* CREATE EXTERNAL TABLE *)
Lemma keywords_two k1 k2 t1 t2 rest : kw k1 t1 -> kw k2 t2 -> keywords [k1; k2] (t1 :: t2 :: rest) = Some (true, rest).
Proof. intros (v1 & q1 & ->) (v2 & q2 & ->). unfold keywords. cbn [keywords_at is_kw]. rewrite !String.eqb_refl. reflexivity. Qed.
Lemma keywords_no1 k ks t rest : is_kw k t = false -> keywords (k :: ks) (t :: rest) = Some (false, t :: rest).
Proof. intros E. unfold keywords. cbn [keywords_at]. rewrite E. reflexivity. Qed.
Lemma punct_kw k t : t = Comma \/ t = RParen -> is_kw k t = false.
Proof. intros [->| ->]; reflexivity. Qed.
Lemma order_written o ts t rest : writes_order native_expr o ts -> t = Comma \/ t = RParen -> order_by_expr native_expr (ts ++ t :: rest) = Some (o, t :: rest).
Proof.
  destruct o as [x asc nf]. intros (e & a & n & -> & R & Ha & Hn) Ht. cbn [ob_expr ob_asc ob_nulls_first] in *.
  assert (Enf : (do a <- keywords ["NULLS"; "FIRST"]%string; if a : bool then ret (Some true) else do d <- keywords ["NULLS"; "LAST"]%string; ret (if d : bool then Some false else None)) (n ++ t :: rest) = Some (nf, t :: rest)).
  { destruct nf as [[]|].
    - destruct Hn as (t1 & t2 & K1 & K2 & ->). cbn [app]. rewrite (bind_some _ _ _ _ _ (keywords_two "NULLS" "FIRST" t1 t2 _ K1 K2)). reflexivity.
    - destruct Hn as (t1 & t2 & K1 & K2 & ->). cbn [app]. rewrite (bind_some _ _ _ false (t1 :: t2 :: t :: rest)).
      + rewrite (bind_some _ _ _ _ _ (keywords_two "NULLS" "LAST" t1 t2 _ K1 K2)). reflexivity.
      + destruct K1 as (v & q & ->), K2 as (v2 & q2 & ->). reflexivity.
    - subst n. cbn [app]. rewrite (bind_some _ _ _ _ _ (keywords_no1 "NULLS" ["FIRST"]%string t rest (punct_kw _ _ Ht))).
      rewrite (bind_some _ _ _ _ _ (keywords_no1 "NULLS" ["LAST"]%string t rest (punct_kw _ _ Ht))). reflexivity. }
  assert (Hd : exists t0 r0, n ++ t :: rest = t0 :: r0 /\ (t0 = Comma \/ t0 = RParen \/ kw "NULLS" t0)).
  { destruct nf as [[]|]; [destruct Hn as (t1 & t2 & K1 & K2 & ->)|destruct Hn as (t1 & t2 & K1 & K2 & ->)|subst n]; cbn [app]; eexists _, _; (split; [reflexivity|]); [auto|auto|tauto]. }
  destruct Hd as (t0 & r0 & Ed & Ht0).
  assert (Nk : forall k, k = "ASC"%string \/ k = "DESC"%string -> starts_kw k (n ++ t :: rest) = false).
  { intros k Hk. rewrite Ed. cbn. destruct Ht0 as [->|[->|(v & q & ->)]]; [reflexivity|reflexivity|]. cbn. destruct Hk as [->| ->]; reflexivity. }
  assert (Ea : (do a <- keyword "ASC"; if a : bool then ret (Some true) else do d <- keyword "DESC"; ret (if d : bool then Some false else None)) (a ++ n ++ t :: rest) = Some (asc, n ++ t :: rest)).
  { destruct asc as [[]|].
    - destruct Ha as (t1 & K1 & ->). cbn [app]. rewrite (bind_some _ _ _ _ _ (keyword_kw "ASC" t1 _ K1)). reflexivity.
    - destruct Ha as (t1 & K1 & ->). cbn [app]. rewrite (bind_some _ _ _ false (t1 :: n ++ t :: rest)).
      + rewrite (bind_some _ _ _ _ _ (keyword_kw "DESC" t1 _ K1)). reflexivity.
      + apply keyword_no. destruct K1 as (v & q & ->). reflexivity.
    - subst a. cbn [app]. rewrite (bind_some _ _ _ _ _ (keyword_no "ASC" _ (Nk "ASC"%string (or_introl eq_refl)))).
      rewrite (bind_some _ _ _ _ _ (keyword_no "DESC" _ (Nk "DESC"%string (or_intror eq_refl)))). reflexivity. }
  assert (Ee : native_expr (e ++ a ++ n ++ t :: rest) = Some (x, a ++ n ++ t :: rest)).
  { destruct asc as [[]|]; [destruct Ha as (t1 & K1 & ->)|destruct Ha as (t1 & K1 & ->)|subst a]; cbn [app]; [apply R; auto|apply R; auto 6|]. rewrite Ed. apply R. tauto. }
  unfold order_by_expr. rewrite <- !app_assoc. rewrite (bind_some _ _ _ _ _ Ee). rewrite (bind_some _ _ _ _ _ Ea). rewrite (bind_some _ _ _ _ _ Enf). reflexivity.
Qed.
Lemma orders_written l tss rest : l <> [] -> Forall2 (writes_order native_expr) l tss -> order_by_exprs native_expr (parens tss ++ rest) = Some (l, rest).
Proof.
  intros Ne F. unfold order_by_exprs, parens. cbn [app]. rewrite app_cons. rewrite (bind_some _ _ _ tt (commas tss ++ RParen :: rest)) by reflexivity. unfold looped.
  set (body := fun l0 : list order_by => _).
  assert (G : forall n l tss acc, l <> [] -> Forall2 (writes_order native_expr) l tss -> length (commas tss) < n -> loop n body acc (commas tss ++ RParen :: rest) = Some (acc ++ l, rest)).
  2:{ apply (G _ l tss []); [exact Ne|exact F|rewrite app_length; cbn; lia]. }
  clear l tss Ne F. induction n as [|n IH]; intros l tss acc Ne F L; [lia|]. destruct F as [|x ts xs tss Wx F]; [contradiction|]. destruct F as [|x2 ts2 xs tss Wx2 F].
  - cbn [commas loop]. rewrite (bind_some _ _ _ (inr (acc ++ [x])) rest); [reflexivity|]. unfold body.
    rewrite (bind_some _ _ _ _ _ (order_written x ts RParen rest Wx (or_intror eq_refl))). reflexivity.
  - assert (E : commas (ts :: ts2 :: tss) ++ RParen :: rest = ts ++ Comma :: commas (ts2 :: tss) ++ RParen :: rest) by (cbn [commas]; rewrite <- app_assoc; reflexivity).
    assert (Le : length (commas (ts2 :: tss)) < n) by (change (commas (ts :: ts2 :: tss)) with (ts ++ Comma :: commas (ts2 :: tss)) in L; rewrite app_length in L; cbn [length] in L; lia).
    rewrite E. cbn [loop]. rewrite (bind_some _ _ _ (inl (acc ++ [x])) (commas (ts2 :: tss) ++ RParen :: rest)).
    + rewrite (IH (x2 :: xs) (ts2 :: tss) (acc ++ [x])); [rewrite <- app_assoc; reflexivity|discriminate|constructor; assumption|exact Le].
    + unfold body. rewrite (bind_some _ _ _ _ _ (order_written x ts Comma _ Wx (or_introl eq_refl))). reflexivity.
Qed.
Hypothesis No : no_option_here native_option.
Lemma options_head l ts t rest : writes_col_options native_option l ts -> t = Comma \/ t = RParen ->
  starts_kw "COLLATE" (ts ++ t :: rest) = false /\ no_period (ts ++ t :: rest).
Proof.
  intros W Ht. destruct W as [|x v q k opt l ts W N1 N2 R|n x t1 t2 opt l ts W K1 K2 R]; cbn [app].
  - destruct Ht as [->| ->]; split; cbn; reflexivity || exact Logic.I.
  - split; [|exact Logic.I]. cbn. apply String.eqb_neq. exact N2.
  - destruct K1 as (v & q & ->). split; [reflexivity|exact Logic.I].
Qed.
Definition option_body (l : list (option ident * nat)) : P (list (option ident * nat) + list (option ident * nat)) :=
    do c <- keyword "CONSTRAINT";
    if c : bool then do n <- identifier; do o <- native_option; match o with Some x => ret (inl (l ++ [(Some n, x)])) | None => fail end
    else do o <- native_option; match o with Some x => ret (inl (l ++ [(None, x)])) | None => ret (inr l) end.
Lemma options_written t rest : t = Comma \/ t = RParen -> forall n l ts acc, writes_col_options native_option l ts -> length ts < n ->
  loop n option_body acc (ts ++ t :: rest) = Some (acc ++ l, t :: rest).
Proof.
  intros Ht. induction n as [|n IH]; intros l ts acc W L; [lia|]. cbn [loop].
  destruct W as [|x v q k opt l ts W N1 N2 R|m x t1 t2 opt l ts W K1 K2 R].
  - cbn [app]. rewrite (bind_some _ _ _ (inr acc) (t :: rest)); [rewrite app_nil_r; reflexivity|]. unfold option_body.
    rewrite (bind_some _ _ _ _ _ (keyword_no "CONSTRAINT" (t :: rest) (punct_kw _ _ Ht))). rewrite (bind_some _ _ _ _ _ (No t rest Ht)). reflexivity.
  - cbn [app]. rewrite <- app_assoc. rewrite (bind_some _ _ _ (inl (acc ++ [(None, x)])) (ts ++ t :: rest)).
    + rewrite (IH l ts _ W); [rewrite <- app_assoc; reflexivity|]. cbn [length] in L. rewrite app_length in L. lia.
    + unfold option_body. rewrite (bind_some _ _ _ false (Word v q k :: opt ++ ts ++ t :: rest)).
      * rewrite (bind_some _ _ _ _ _ (R t rest Ht)). reflexivity.
      * apply keyword_no. cbn. apply String.eqb_neq. exact N1.
  - cbn [app]. rewrite <- app_assoc. rewrite (bind_some _ _ _ (inl (acc ++ [(Some m, x)])) (ts ++ t :: rest)).
    + rewrite (IH l ts _ W); [rewrite <- app_assoc; reflexivity|]. cbn [length] in L. rewrite app_length in L. lia.
    + unfold option_body. rewrite (bind_some _ _ _ _ _ (keyword_kw "CONSTRAINT" t1 _ K1)). rewrite (bind_some _ _ _ m (opt ++ ts ++ t :: rest)).
      * rewrite (bind_some _ _ _ _ _ (R t rest Ht)). reflexivity.
      * destruct m as [v q]. destruct K2 as [(k & ->)|(Eq & [->| ->])]; cbn [fst snd] in *; [reflexivity|subst q; reflexivity|subst q; reflexivity].
Qed.
Lemma column_written c ts t rest : writes_column native_type native_option c ts -> t = Comma \/ t = RParen -> column_def native_type native_option (ts ++ t :: rest) = Some (c, t :: rest).
Proof.
  destruct c as [[v q] ty coll opts]. intros (k & t0 & tt0 & cts & ots & -> & N1 & N2 & Wc & Wo & R) Ht. cbn [cd_collation cd_options cd_name cd_type fst snd] in *.
  unfold column_def. cbn [app]. rewrite <- !app_assoc. rewrite (bind_some _ _ _ (v, q) (t0 :: tt0 ++ cts ++ ots ++ t :: rest)) by reflexivity.
  rewrite (bind_some _ _ _ _ _ (R t rest Ht)). destruct (options_head _ _ t rest Wo Ht) as [Hc Hp].
  rewrite (bind_some _ _ _ coll (ots ++ t :: rest)).
  2:{ destruct coll as [n|]; cbn [writes_collation] in Wc.
      - destruct Wc as (t1 & ns & K1 & Wn & ->). cbn [app]. rewrite (bind_some _ _ _ _ _ (keyword_kw "COLLATE" t1 _ K1)).
        rewrite (bind_some _ _ _ _ _ (object_name_written n ns (ots ++ t :: rest) Wn Hp)). reflexivity.
      - subst cts. cbn [app]. rewrite (bind_some _ _ _ _ _ (keyword_no "COLLATE" _ Hc)). reflexivity. }
  rewrite (bind_some _ _ _ opts (t :: rest)); [reflexivity|].
  unfold looped. fold option_body. rewrite (options_written t rest Ht _ opts ots [] Wo); [reflexivity|]. rewrite app_length. cbn. lia.
Qed.
Definition col_push (a : list column * list nat) (c : column + nat) := match c with inl c => (fst a ++ [c], snd a) | inr x => (fst a, snd a ++ [x]) end.
Lemma fold_col cells : forall a, fold_left col_push cells a = (fst a ++ columns_in cells, snd a ++ constraints_in cells).
Proof.
  induction cells as [|c cells IH]; intros [a n]; cbn [fold_left columns_in constraints_in flat_map fst snd]; [rewrite !app_nil_r; reflexivity|]. rewrite IH.
  destruct c as [c|x]; cbn [col_push fst snd app]; rewrite <- app_assoc; reflexivity.
Qed.
Notation wcell := (writes_cell native_type native_constraint native_option).
Lemma cell_word c ts : wcell c ts -> exists v q k r, ts = Word v q k :: r.
Proof. destruct c as [c|x]; [intros [(k & t & ty & cl & op & -> & _) _]|intros (v & q & k & r & -> & _)]; eexists _, _, _, _; reflexivity. Qed.
Lemma columns_written l tss ts rest : Forall2 wcell l tss -> listed tss ts ->
  columns native_type native_constraint native_option (ts ++ rest) = Some ((columns_in l, constraints_in l), rest).
Proof.
  intros F Hl. destruct (listed_inv _ _ Hl) as (fin & Hf & Hz & ->). unfold columns. rewrite (bind_some _ _ _ true (commas tss ++ fin ++ rest)) by reflexivity. cbn [negb].
  destruct l as [|c l].
  - inversion F; subst. rewrite (Hz eq_refl). reflexivity.
  - assert (Nr : no_rparen (commas tss ++ fin ++ rest)).
    { inversion F as [|? ts0 ? tss' W F']; subst. destruct (cell_word _ _ W) as (v & q & k & r & ->). destruct tss'; cbn; discriminate. }
    rewrite (bind_some _ _ _ _ _ (consume_no_rparen _ Nr)). unfold looped.
    rewrite sep_loop with (push := col_push) (W := wcell) (xs := c :: l) (tss := tss)
      (p := fun a => do k <- native_constraint; match k with
              | Some x => ret (fst a, snd a ++ [x])
              | None => do w <- peek_word; if w : bool then do d <- column_def native_type native_option; ret (fst a ++ [d], snd a) else fail
              end); [rewrite fold_col; reflexivity| | | |exact Hf|discriminate|exact F|rewrite app_length; cbn; lia].
    + intros a ts0. unfold sep_body, bind. destruct (native_constraint ts0) as [[[x|] r]|]; reflexivity.
    + intros a x ts0 t rest0 W Ht. destruct x as [x|x].
      * destruct W as [W N]. rewrite (bind_some _ _ _ _ _ (N (t :: rest0))). rewrite (bind_some _ _ _ true (ts0 ++ t :: rest0)).
        -- rewrite (bind_some _ _ _ _ _ (column_written x ts0 t rest0 W Ht)). reflexivity.
        -- destruct W as (k & t1 & ty & cl & op & -> & N1). reflexivity.
      * destruct W as (v & q & k & r & E & R). rewrite (bind_some _ _ _ _ _ (R t rest0 Ht)). reflexivity.
    + intros x ts0 W r. destruct (cell_word _ _ W) as (v & q & k & r0 & ->). split; cbn; discriminate.
Qed.
Lemma only_columns l tss : Forall2 (writes_column native_type native_option) l tss -> Forall (no_constraint native_constraint) tss -> Forall2 wcell (map inl l) tss.
Proof. induction 1 as [|c ts l tss W F IH]; intros C; [constructor|]. inversion C; subst. cbn [map]. constructor; [split; assumption|auto]. Qed.
Lemma only_columns_in l : columns_in (map inl l) = l /\ constraints_in (map inl l) = [].
Proof. induction l as [|c l [IH1 IH2]]; [auto|]. cbn. fold (columns_in (map inl l)). fold (constraints_in (map inl l)). rewrite IH1, IH2. auto. Qed.
Definition xwords := ["STORED"; "LOCATION"; "WITH"; "DELIMITER"; "COMPRESSION"; "PARTITIONED"; "OPTIONS"]%string.
Definition xis_set (b : builder) (c : xclause) : bool :=
  match c with
  | XStored _ => match b_file_type b with Some _ => true | None => false end
  | XLocation _ => match b_location b with Some _ => true | None => false end
  | XPartitionNames _ | XPartitionColumns _ => match b_partitions b with Some _ => true | None => false end
  | XOptions _ => match b_options b with Some _ => true | None => false end
  | XOrder _ => false
  end.
Definition xadd (b : builder) (c : xclause) : builder :=
  match c with
  | XStored f => {| b_file_type := Some f; b_location := b_location b; b_partitions := b_partitions b; b_order := b_order b; b_options := b_options b; b_columns := b_columns b |}
  | XLocation l => {| b_file_type := b_file_type b; b_location := Some l; b_partitions := b_partitions b; b_order := b_order b; b_options := b_options b; b_columns := b_columns b |}
  | XPartitionNames p => {| b_file_type := b_file_type b; b_location := b_location b; b_partitions := Some p; b_order := b_order b; b_options := b_options b; b_columns := b_columns b ++ [] |}
  | XPartitionColumns p => {| b_file_type := b_file_type b; b_location := b_location b; b_partitions := Some (map cd_name p); b_order := b_order b; b_options := b_options b; b_columns := b_columns b ++ p |}
  | XOptions o => {| b_file_type := b_file_type b; b_location := b_location b; b_partitions := b_partitions b; b_order := b_order b; b_options := Some o; b_columns := b_columns b |}
  | XOrder es => {| b_file_type := b_file_type b; b_location := b_location b; b_partitions := b_partitions b; b_order := b_order b ++ [es]; b_options := b_options b; b_columns := b_columns b |}
  end.
Lemma partition_names_written l ts rest : l <> [] -> writes_names l ts -> partition_clause native_type native_constraint native_option (ts ++ rest) = Some ((l, []), rest).
Proof.
  intros Ne W. unfold partition_clause. rewrite (bind_some _ _ _ true (ts ++ rest)).
  - rewrite (bind_some _ _ _ _ _ (partitions_written l ts rest W)). reflexivity.
  - destruct W as (tss & F & Hl). destruct (listed_inv _ _ Hl) as (fin & Hf & _ & ->). unfold peek_nth. inversion F as [|? ? ? tss' (k & ->) F']; subst; [contradiction|].
    destruct F'; [destruct Hf as [->| ->]|]; reflexivity.
Qed.
Lemma partition_columns_written l tss ts rest : l <> [] -> Forall2 (writes_column native_type native_option) l tss -> Forall (no_constraint native_constraint) tss -> listed tss ts ->
  partition_clause native_type native_constraint native_option (ts ++ rest) = Some ((map cd_name l, l), rest).
Proof.
  intros Ne F C Hl. unfold partition_clause. rewrite (bind_some _ _ _ false (ts ++ rest)).
  - rewrite (bind_some _ _ _ _ _ (columns_written _ _ _ rest (only_columns l tss F C) Hl)). destruct (only_columns_in l) as [E1 E2]. cbn [fst snd]. rewrite E1, E2. reflexivity.
  - destruct (listed_inv _ _ Hl) as (fin & _ & _ & ->).
    unfold peek_nth. f_equal. f_equal. inversion F as [|? ? ? tss' W F']; subst; [contradiction|]. destruct W as (k & t & ty & cl & op & -> & N1 & N2 & R).
    destruct F'; cbn; destruct t; try reflexivity; contradiction.
Qed.
Notation xparse := (external_clause native_expr native_type native_constraint native_option upper).
Lemma xclause_written c ts b rest : writes_xclause native_expr native_type native_constraint native_option upper c ts ->
  xparse b (ts ++ rest) = if xis_set b c then None else Some (inl (xadd b c), rest).
Proof.
  destruct c as [f|s|l|l|l|l]; cbn [writes_xclause].
  - intros (t1 & t2 & v & q & k & K1 & K2 & -> & ->). unfold external_clause. fold xwords. cbn [app]. rewrite (bind_some _ _ _ _ _ (one_of_kw xwords "STORED" t1 _ K1 eq_refl)).
    unfold external_clause_of. cbn [String.eqb Ascii.eqb Bool.eqb]. rewrite (bind_some _ _ _ _ _ (expect_kw "AS" t2 _ K2)). unfold ensure_not_set. cbn [xis_set].
    destruct (b_file_type b); reflexivity.
  - intros (t1 & t2 & K1 & W & ->). unfold external_clause. fold xwords. cbn [app]. rewrite (bind_some _ _ _ _ _ (one_of_kw xwords "LOCATION" t1 _ K1 eq_refl)).
    unfold external_clause_of. cbn [String.eqb Ascii.eqb Bool.eqb]. unfold ensure_not_set. cbn [xis_set]. destruct (b_location b); [reflexivity|].
    rewrite (bind_some _ _ _ tt (t2 :: rest)) by reflexivity. rewrite (bind_some _ _ _ _ _ (literal_written s t2 rest W)). reflexivity.
  - intros (Ne & t1 & t2 & ts' & K1 & K2 & W & ->). unfold external_clause. fold xwords. cbn [app]. rewrite (bind_some _ _ _ _ _ (one_of_kw xwords "PARTITIONED" t1 _ K1 eq_refl)).
    unfold external_clause_of. cbn [String.eqb Ascii.eqb Bool.eqb]. rewrite (bind_some _ _ _ _ _ (expect_kw "BY" t2 _ K2)). unfold ensure_not_set. cbn [xis_set].
    destruct (b_partitions b); [reflexivity|]. rewrite (bind_some _ _ _ tt (ts' ++ rest)) by reflexivity. rewrite (bind_some _ _ _ _ _ (partition_names_written l ts' rest Ne W)). reflexivity.
  - intros (Ne & t1 & t2 & tss & K1 & K2 & F & C & ts' & Hl & ->). unfold external_clause. fold xwords. cbn [app]. rewrite (bind_some _ _ _ _ _ (one_of_kw xwords "PARTITIONED" t1 _ K1 eq_refl)).
    unfold external_clause_of. cbn [String.eqb Ascii.eqb Bool.eqb]. rewrite (bind_some _ _ _ _ _ (expect_kw "BY" t2 _ K2)). unfold ensure_not_set. cbn [xis_set].
    destruct (b_partitions b); [reflexivity|]. rewrite (bind_some _ _ _ tt (ts' ++ rest)) by reflexivity.
    rewrite (bind_some _ _ _ _ _ (partition_columns_written l tss ts' rest Ne F C Hl)). reflexivity.
  - intros (t & ts' & K1 & W & ->). unfold external_clause. fold xwords. cbn [app]. rewrite (bind_some _ _ _ _ _ (one_of_kw xwords "OPTIONS" t _ K1 eq_refl)).
    unfold external_clause_of. cbn [String.eqb Ascii.eqb Bool.eqb]. unfold ensure_not_set. cbn [xis_set]. destruct (b_options b); [reflexivity|].
    rewrite (bind_some _ _ _ tt (ts' ++ rest)) by reflexivity. rewrite (bind_some _ _ _ _ _ (value_options_written l ts' rest W)). reflexivity.
  - intros (Ne & t1 & t2 & tss & K1 & K2 & F & ->). unfold external_clause. fold xwords. cbn [app]. rewrite (bind_some _ _ _ _ _ (one_of_kw xwords "WITH" t1 _ K1 eq_refl)).
    unfold external_clause_of. cbn [String.eqb Ascii.eqb Bool.eqb]. rewrite (bind_some _ _ _ _ _ (keyword_kw "ORDER" t2 _ K2)).
    rewrite (bind_some _ _ _ _ _ (orders_written l tss rest Ne F)). reflexivity.
Qed.
Fixpoint xadd_all (b : builder) (cs : list xclause) : option builder :=
  match cs with [] => Some b | c :: cs' => if xis_set b c then None else xadd_all (xadd b c) cs' end.
Lemma xclause_head c ts : writes_xclause native_expr native_type native_constraint native_option upper c ts ->
  exists k t r, ts = t :: r /\ kw k t /\ In k ["STORED"; "LOCATION"; "PARTITIONED"; "OPTIONS"; "WITH"]%string.
Proof.
  destruct c; cbn [writes_xclause]; [intros (t & ? & ? & ? & ? & K & ? & -> & ?)|intros (t & ? & K & ? & ->)|intros (? & t & ? & ? & K & ? & ? & ->)|intros (? & t & ? & ? & K & ? & ? & ? & ? & ? & ->)|intros (t & ? & K & ? & ->)|intros (? & t & ? & ? & K & ? & ? & ->)];
    eexists _, _, _; (split; [reflexivity|]); (split; [exact K|]); cbn; tauto.
Qed.
Lemma xloop_written : forall n cs tss b, Forall2 (writes_xclause native_expr native_type native_constraint native_option upper) cs tss -> length (concat tss) < n ->
  loop n xparse b (concat tss) = option_map (fun b' => (b', [])) (xadd_all b cs).
Proof.
  induction n as [|n IH]; intros cs tss b F L; [lia|]. destruct F as [|c ts cs tss W F]; cbn [concat loop xadd_all].
  - reflexivity.
  - unfold bind. rewrite (xclause_written c ts b (concat tss) W). destruct (xis_set b c); [reflexivity|]. apply IH; [exact F|].
    cbn [concat] in L. rewrite app_length in L. destruct (xclause_head c ts W) as (k & t & r & -> & _). cbn in L; lia.
Qed.
Lemma xadd_all_spec : forall cs b,
  match xadd_all b cs with
  | Some b' => of_opt (b_file_type b') = of_opt (b_file_type b) ++ xformats cs /\ of_opt (b_location b') = of_opt (b_location b) ++ xlocations cs /\
               of_opt (b_partitions b') = of_opt (b_partitions b) ++ xpartitionings cs /\ of_opt (b_options b') = of_opt (b_options b) ++ xoption_lists cs /\
               b_order b' = b_order b ++ xorders cs /\ b_columns b' = b_columns b ++ xpartition_columns cs
  | None => 1 < length (of_opt (b_file_type b) ++ xformats cs) \/ 1 < length (of_opt (b_location b) ++ xlocations cs) \/
            1 < length (of_opt (b_partitions b) ++ xpartitionings cs) \/ 1 < length (of_opt (b_options b) ++ xoption_lists cs)
  end.
Proof.
  induction cs as [|c cs IH]; intros b; cbn [xadd_all].
  - cbn [xformats xlocations xpartitionings xoption_lists xorders xpartition_columns flat_map]. rewrite !app_nil_r. auto 8.
  - destruct (xis_set b c) eqn:E.
    + destruct c; cbn [xis_set] in E; cbn [xformats xlocations xpartitionings xoption_lists flat_map app];
        [left|right; left|right; right; left|right; right; left|right; right; right|discriminate];
        match goal with |- context [of_opt (?f b)] => destruct (f b); [|discriminate] end; cbn; lia.
    + specialize (IH (xadd b c)). destruct (xadd_all (xadd b c) cs) as [b'|]; destruct c; cbn [xis_set] in E; cbn [xformats xlocations xpartitionings xoption_lists xorders xpartition_columns flat_map app];
        cbn [xadd b_file_type b_location b_partitions b_options b_order b_columns] in IH;
        try (match type of E with match ?x with _ => _ end = _ => destruct x; [discriminate|] end); cbn [of_opt app] in IH |- *;
        rewrite ?app_nil_r, <- ?app_assoc in IH; rewrite ?app_nil_r, <- ?app_assoc; exact IH.
Qed.

Lemma xclauses_head cs tss : Forall2 (writes_xclause native_expr native_type native_constraint native_option upper) cs tss ->
  concat tss = [] \/ exists k t r, concat tss = t :: r /\ kw k t /\ In k ["STORED"; "LOCATION"; "PARTITIONED"; "OPTIONS"; "WITH"]%string.
Proof. intros [|c ts cs' tss' W F]; [left; reflexivity|]. right. cbn [concat]. destruct (xclause_head c ts W) as (k & t & r & -> & K & I). exists k, t, (r ++ concat tss'). auto. Qed.
Lemma external_written t flag_u e temp tbl ine unb tmp ifn name ns cells cts cs tss :
  kw "CREATE" t -> writes_flag ["UNBOUNDED"]%string unb flag_u -> kw "EXTERNAL" e -> writes_temp tmp temp -> kw "TABLE" tbl -> writes_flag ["IF"; "NOT"; "EXISTS"]%string ifn ine ->
  writes_name name ns -> writes_columns native_type native_constraint native_option cells cts -> Forall2 (writes_xclause native_expr native_type native_constraint native_option upper) cs tss ->
  psql (t :: flag_u ++ e :: temp ++ tbl :: ine ++ ns ++ cts ++ concat tss) =
    match xadd_all {| b_file_type := None; b_location := None; b_partitions := None; b_order := []; b_options := None; b_columns := columns_in cells |} cs with
    | Some b => match b_file_type b, b_location b with
                | Some f, Some l => Some [CreateExternalTable {| ex_name := name; ex_columns := b_columns b; ex_file_type := f; ex_location := l; ex_partitions := list_of (b_partitions b);
                                      ex_order := b_order b; ex_if_not_exists := ifn; ex_temporary := tmp; ex_unbounded := unb; ex_options := list_of (b_options b); ex_constraints := constraints_in cells |}]
                | _, _ => None
                end
    | None => None
    end.
Proof.
  intros K Hu Ke Ht Kt Hi Wn Wc F. rewrite (psql_one _ _ (kw_not_semi _ _ K)).
  set (rest1 := temp ++ tbl :: ine ++ ns ++ cts ++ concat tss).
  assert (E : pstmt (t :: flag_u ++ e :: rest1) = parse_create_external_table native_expr native_type native_constraint native_option upper unb rest1).
  { unfold parse_statement. rewrite (bind_some _ _ _ _ _ (one_of_kw ["CREATE"; "CONVERT"; "COPY"; "VACUUM"; "TRUNCATE"]%string "CREATE" t _ K eq_refl)).
    cbn [statement_of String.eqb Ascii.eqb Bool.eqb]. unfold parse_create. destruct unb; cbn [writes_flag] in Hu.
    - inversion Hu as [|? u ? ? Ku Hn]; subst. inversion Hn; subst. cbn [app]. rewrite (bind_some _ _ _ _ _ (keywords_no1 "OR" ["REPLACE"]%string u _ (kw_is _ _ _ Ku))).
      rewrite (bind_some _ _ _ _ _ (keyword_no "EXTERNAL" (u :: _) (kw_is _ _ _ Ku))). rewrite (bind_some _ _ _ _ _ (keyword_kw "UNBOUNDED" u _ Ku)).
      rewrite (bind_some _ _ _ _ _ (expect_kw "EXTERNAL" e _ Ke)). reflexivity.
    - subst. cbn [app]. rewrite (bind_some _ _ _ _ _ (keywords_no1 "OR" ["REPLACE"]%string e _ (kw_is _ _ _ Ke))). rewrite (bind_some _ _ _ _ _ (keyword_kw "EXTERNAL" e _ Ke)). reflexivity. }
  rewrite E. unfold parse_create_external_table.
  assert (Et : exists o, one_of ["TEMP"; "TEMPORARY"]%string rest1 = Some (o, tbl :: ine ++ ns ++ cts ++ concat tss) /\ (match o with Some _ => true | None => false end) = tmp).
  { unfold rest1. destruct tmp; cbn [writes_temp] in Ht.
    - destruct Ht as (t0 & [K0|K0] & ->); cbn [app].
      + exists (Some "TEMP"%string). split; [exact (one_of_kw ["TEMP"; "TEMPORARY"]%string "TEMP" t0 _ K0 eq_refl)|reflexivity].
      + exists (Some "TEMPORARY"%string). split; [exact (one_of_kw ["TEMP"; "TEMPORARY"]%string "TEMPORARY" t0 _ K0 eq_refl)|reflexivity].
    - subst. cbn [app]. exists None. split; [|reflexivity]. destruct Kt as (v & q & ->). reflexivity. }
  destruct Et as (o & Et & Eo). rewrite (bind_some _ _ _ _ _ Et). rewrite (bind_some _ _ _ _ _ (expect_kw "TABLE" tbl _ Kt)).
  assert (Hh : match cts ++ concat tss with [] => True | t2 :: _ => t2 <> Period /\ is_kw "NOT" t2 = false end).
  { destruct Wc as [[-> ->]|(tss0 & F0 & Hl0)]; cbn [app].
    - destruct (xclauses_head _ _ F) as [->|(k & t2 & r & -> & (v & q & ->) & I)]; [exact Logic.I|]. split; [discriminate|]. cbn in I |- *. repeat (destruct I as [<-|I]; [reflexivity|]). destruct I.
    - destruct (listed_inv _ _ Hl0) as (fin & _ & _ & ->). split; [discriminate|reflexivity]. }
  assert (Ei : keywords ["IF"; "NOT"; "EXISTS"]%string (ine ++ ns ++ cts ++ concat tss) = Some (ifn, ns ++ cts ++ concat tss)).
  { destruct ifn; cbn [writes_flag] in Hi.
    - inversion Hi as [|? t1 ? ? K1 H1]; subst. inversion H1 as [|? t2 ? ? K2 H2]; subst. inversion H2 as [|? t3 ? ? K3 H3]; subst. inversion H3; subst.
      destruct K1 as (? & ? & ->), K2 as (? & ? & ->), K3 as (? & ? & ->). reflexivity.
    - subst. cbn [app]. unfold keywords. destruct (writes_name_head _ _ Wn) as (i & t1 & r & -> & _ & Hr). cbn [app keywords_at]. destruct (is_kw "IF" t1); [|reflexivity].
      destruct Hr as [->|(r' & ->)]; cbn [app]; [|reflexivity]. destruct (cts ++ concat tss) as [|t2 r2]; [reflexivity|]. rewrite (proj2 Hh). reflexivity. }
  rewrite (bind_some _ _ _ _ _ Ei).
  assert (Np : no_period (cts ++ concat tss)) by (destruct (cts ++ concat tss) as [|[] r2]; cbn; trivial; destruct Hh as [Hh _]; contradiction).
  rewrite (bind_some _ _ _ _ _ (object_name_written name ns (cts ++ concat tss) Wn Np)).
  assert (Ec : columns native_type native_constraint native_option (cts ++ concat tss) = Some ((columns_in cells, constraints_in cells), concat tss)).
  { destruct Wc as [[-> ->]|(tss0 & F0 & Hl0)]; [|exact (columns_written cells tss0 cts (concat tss) F0 Hl0)]. cbn [app].
    destruct (xclauses_head _ _ F) as [->|(k & t2 & r & -> & (v & q & ->) & I)]; reflexivity. }
  rewrite (bind_some _ _ _ _ _ Ec). cbn [fst snd]. unfold looped, bind.
  rewrite (xloop_written (S (length (concat tss))) cs tss _ F (Nat.lt_succ_diag_r _)).
  destruct (xadd_all _ cs) as [b|]; [|reflexivity]. cbn [option_map]. destruct (b_file_type b) as [f|]; [|reflexivity]. destruct (b_location b) as [l|]; [|reflexivity].
  rewrite Eo. reflexivity.
Qed.
End Parser.
End Upper.
