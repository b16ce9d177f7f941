(* How the tokens of a filter are read. *)
From Coq Require Import Ascii String List Arith Bool Lia.
Import ListNotations.
From Verif Require Import PushModel PushSpec PushProofs.
Open Scope nat_scope.
Open Scope list_scope.

(* ---- More fuel does not change a result ---- *)
Definition mono (d : dialect) (n : nat) : Prop :=
  (forall min ts r, expr_at d n min ts = r -> r <> OutOfFuel -> expr_at d (S n) min ts = r) /\
  (forall min lhs ts r, rest_at d n min lhs ts = r -> r <> OutOfFuel -> rest_at d (S n) min lhs ts = r) /\
  (forall ts r, list_at d n ts = r -> r <> LOutOfFuel -> list_at d (S n) ts = r).
Ltac fuel_case IH :=
  match goal with
  | |- context [match expr_at ?d ?n ?m ?t with _ => _ end] =>
      let E := fresh "E" in destruct (expr_at d n m t) eqn:E;
      [intros ? ?; congruence | rewrite (IH _ _ _ E ltac:(discriminate)) | rewrite (IH _ _ _ E ltac:(discriminate))]
  end.
Lemma mono_all d n : mono d n.
Proof.
  induction n as [|n (IHe & IHr & IHl)]; split; [|split| |split].
  - cbn. congruence.
  - cbn. congruence.
  - cbn. congruence.
  - intros min ts r. change (expr_at d (S (S n)) min ts) with (expr_at d (S (S n)) min ts). remember (S n) as k eqn:K. cbn [expr_at]. rewrite K at 1. cbn [expr_at]. subst k.
    destruct ts as [|[s|s|t|w|s| | |] rest]; try (intros <- _; reflexivity); try (apply IHr).
    + destruct (upper w =? "NOT")%string.
      { destruct (min <=? not_level); [|intros <- _; reflexivity].
        destruct (expr_at d n not_level rest) eqn:E; intros H N; [congruence| |]; rewrite (IHe _ _ _ E ltac:(discriminate)); [exact H|apply IHr; assumption]. }
      destruct (upper w =? "NULL")%string; [apply IHr|]. destruct (upper w =? "TRUE")%string; [apply IHr|]. destruct (upper w =? "FALSE")%string; [apply IHr|].
      destruct (existsb _ _); [intros <- _; reflexivity|apply IHr].
    + destruct (s =? "-")%string; [|intros <- _; reflexivity].
      destruct (expr_at d n sign_level rest) eqn:E; intros H N; [congruence| |]; rewrite (IHe _ _ _ E ltac:(discriminate)); [exact H|apply IHr; assumption].
    + destruct (expr_at d n 1 rest) eqn:E; intros H N; [congruence| |]; rewrite (IHe _ _ _ E ltac:(discriminate)); [exact H|].
      destruct rest0 as [|[]]; try exact H. apply IHr; assumption.
  - intros min lhs ts r. remember (S n) as k eqn:K. cbn [rest_at]. rewrite K at 1. cbn [rest_at]. subst k.
    destruct (next_operator d ts); try (intros <- _; reflexivity).
    + destruct (min <=? is_level); [apply IHr|intros <- _; reflexivity].
    + destruct (min <=? in_level); [|intros <- _; reflexivity]. destruct rest as [|[] rest]; try (intros <- _; reflexivity).
      destruct (list_at d n rest) as [| |l q] eqn:E; intros H N; [congruence| |]; rewrite (IHl _ _ E ltac:(discriminate)); [exact H|].
      destruct q as [|[]]; try exact H. destruct (chained d Eq q); [exact H|]. apply IHr; assumption.
    + destruct (min <=? level o); [|intros <- _; reflexivity].
      destruct (expr_at d n (S (level o)) rest) as [| |e q] eqn:E; intros H N; [congruence| |]; rewrite (IHe _ _ _ E ltac:(discriminate)); [exact H|].
      destruct (chained d o q); [exact H|]. apply IHr; assumption.
  - intros ts r. remember (S n) as k eqn:K. cbn [list_at]. rewrite K at 1. cbn [list_at]. subst k.
    destruct (expr_at d n 1 ts) as [| |e q] eqn:E; intros H N; [congruence| |]; rewrite (IHe _ _ _ E ltac:(discriminate)); [exact H|].
    destruct q as [|[]]; try exact H. destruct (list_at d n q) as [| |l q'] eqn:E'; [congruence| |]; rewrite (IHl _ _ E' ltac:(discriminate)); exact H.
Qed.
Lemma expr_more d n m min ts r : expr_at d n min ts = r -> r <> OutOfFuel -> n <= m -> expr_at d m min ts = r.
Proof. intros H N L. induction L as [|m L IH]; [exact H|]. apply (proj1 (mono_all d m)); assumption. Qed.
Lemma rest_more d n m min lhs ts r : rest_at d n min lhs ts = r -> r <> OutOfFuel -> n <= m -> rest_at d m min lhs ts = r.
Proof. intros H N L. induction L as [|m L IH]; [exact H|]. apply (proj1 (proj2 (mono_all d m))); assumption. Qed.
Lemma list_more d n m ts r : list_at d n ts = r -> r <> LOutOfFuel -> n <= m -> list_at d m ts = r.
Proof. intros H N L. induction L as [|m L IH]; [exact H|]. apply (proj2 (proj2 (mono_all d m))); assumption. Qed.
Lemma expr_unique d n m min ts r r' : expr_at d n min ts = r -> expr_at d m min ts = r' -> r <> OutOfFuel -> r' <> OutOfFuel -> r = r'.
Proof.
  intros H H' N N'. destruct (Nat.le_ge_cases n m) as [L|L].
  - rewrite <- H'. symmetry. exact (expr_more _ _ _ _ _ _ H N L).
  - rewrite <- H. exact (expr_more _ _ _ _ _ _ H' N' L).
Qed.

(* ---- The parser as a relation ---- *)
Definition PE d min ts r : Prop := r <> OutOfFuel /\ exists n, expr_at d n min ts = r.
Definition PR d min lhs ts r : Prop := r <> OutOfFuel /\ exists n, rest_at d n min lhs ts = r.
Definition PL d ts r : Prop := r <> LOutOfFuel /\ exists n, list_at d n ts = r.
Lemma pe_atom d min t e ts r : match t with TId s => e = Col s | TStr s => e = Lit (SText s) | TNum s => e = Lit (SNum false s) | _ => False end ->
  PR d min e ts r -> PE d min (t :: ts) r.
Proof. intros T [N [n H]]. split; [exact N|]. exists (S n). cbn [expr_at]. destruct t; try contradiction; subst e; exact H. Qed.
Lemma pe_word d min w v ts r : In (w, v) [("NULL"%string, SNull); ("true"%string, SBool true); ("false"%string, SBool false)] ->
  PR d min (Lit v) ts r -> PE d min (TWord w :: ts) r.
Proof. intros I [N [n H]]. split; [exact N|]. exists (S n). cbn [In] in I. destruct I as [E|[E|[E|[]]]]; injection E as <- <-; exact H. Qed.
Lemma pe_minus d min ts e q r : PE d sign_level ts (Parsed e q) -> PR d min (Neg e) q r -> PE d min (TSym "-" :: ts) r.
Proof.
  intros [N1 [n H1]] [N [m H]]. split; [exact N|]. exists (S (Nat.max n m)). cbn [expr_at String.eqb Ascii.eqb Bool.eqb].
  rewrite (expr_more d n (Nat.max n m) _ _ _ H1) by (congruence || lia). apply (rest_more d m); [exact H|exact N|lia].
Qed.
Lemma pe_paren d min ts e q r : PE d 1 ts (Parsed e (RP :: q)) -> PR d min e q r -> PE d min (LP :: ts) r.
Proof.
  intros [N1 [n H1]] [N [m H]]. split; [exact N|]. exists (S (Nat.max n m)). cbn [expr_at].
  rewrite (expr_more d n (Nat.max n m) _ _ _ H1) by (congruence || lia). apply (rest_more d m); [exact H|exact N|lia].
Qed.
Lemma pe_not d min ts e q r : min <= not_level -> PE d not_level ts (Parsed e q) -> PR d min (Not e) q r -> PE d min (TWord "NOT" :: ts) r.
Proof.
  intros L [N1 [n H1]] [N [m H]]. split; [exact N|]. exists (S (Nat.max n m)). cbn [expr_at].
  change (upper "NOT" =? "NOT")%string with true. cbn iota. rewrite (proj2 (Nat.leb_le _ _) L).
  rewrite (expr_more d n (Nat.max n m) _ _ _ H1) by (congruence || lia). apply (rest_more d m); [exact H|exact N|lia].
Qed.
Lemma pr_post d min lhs ts f q r : next_operator d ts = FPost f q -> min <= is_level -> PR d min (f lhs) q r -> PR d min lhs ts r.
Proof. intros E L [N [n H]]. split; [exact N|]. exists (S n). cbn [rest_at]. rewrite E, (proj2 (Nat.leb_le _ _) L). exact H. Qed.
Lemma pr_bin d min lhs ts o q e q' r : next_operator d ts = FBin o q -> min <= level o -> PE d (S (level o)) q (Parsed e q') -> chained d o q' = false ->
  PR d min (Bin lhs o e) q' r -> PR d min lhs ts r.
Proof.
  intros E L [N1 [n H1]] C [N [m H]]. split; [exact N|]. exists (S (Nat.max n m)). cbn [rest_at]. rewrite E, (proj2 (Nat.leb_le _ _) L).
  rewrite (expr_more d n (Nat.max n m) _ _ _ H1) by (congruence || lia). rewrite C. apply (rest_more d m); [exact H|exact N|lia].
Qed.
Lemma pr_in d min lhs ts b q l q' r : next_operator d ts = FIn b (LP :: q) -> min <= in_level -> PL d q (LParsed l (RP :: q')) -> chained d Eq q' = false ->
  PR d min (InList lhs l b) q' r -> PR d min lhs ts r.
Proof.
  intros E L [N1 [n H1]] C [N [m H]]. split; [exact N|]. exists (S (Nat.max n m)). cbn [rest_at]. rewrite E, (proj2 (Nat.leb_le _ _) L).
  rewrite (list_more d n (Nat.max n m) _ _ H1) by (congruence || lia). rewrite C. apply (rest_more d m); [exact H|exact N|lia].
Qed.
Lemma pl_one d ts e q : PE d 1 ts (Parsed e (RP :: q)) -> PL d ts (LParsed [e] (RP :: q)).
Proof. intros [N [n H]]. split; [discriminate|]. exists (S n). cbn [list_at]. rewrite H. reflexivity. Qed.
Lemma pl_cons d ts e q l q' : PE d 1 ts (Parsed e (Comma :: q)) -> PL d q (LParsed l q') -> PL d ts (LParsed (e :: l) q').
Proof.
  intros [N1 [n H1]] [N [m H]]. split; [discriminate|]. exists (S (Nat.max n m)). cbn [list_at].
  rewrite (expr_more d n (Nat.max n m) _ _ _ H1) by (congruence || lia). rewrite (list_more d m (Nat.max n m) _ _ H) by (congruence || lia). reflexivity.
Qed.

(* ---- What may come next ---- *)
Definition follow_level (f : follow) : option nat :=
  match f with FNone => Some 0 | FBad => None | FPost _ _ => Some is_level | FIn _ _ => Some in_level | FBin o _ => Some (level o) end.
Definition fits d (l : nat) (ts : list token) : Prop := exists k, follow_level (next_operator d ts) = Some k /\ k <= l /\ (l = 5 -> k < 5).
Lemma level_le o : level o <= 8.
Proof. destruct o; cbn; lia. Qed.
Lemma level_ge o : 1 <= level o.
Proof. destruct o; cbn; lia. Qed.
Lemma fits_sub d l l' ts : fits d l ts -> l < l' -> fits d l' ts.
Proof. intros (k & E & L & F) H. exists k. split; [exact E|]. split; [lia|]. intros ->. lia. Qed.
Lemma fits_close d l ts : fits d l (RP :: ts).
Proof. exists 0. split; [reflexivity|]. split; lia. Qed.
Lemma fits_comma d l ts : fits d l (Comma :: ts).
Proof. exists 0. split; [reflexivity|]. split; lia. Qed.
Lemma fits_end d l : fits d l [].
Proof. exists 0. split; [reflexivity|]. split; lia. Qed.
(* reading stops there *)
Lemma pr_stop d min lhs l ts : fits d l ts -> l < min -> PR d min lhs ts (Parsed lhs ts).
Proof.
  intros (k & E & L & _) H. split; [discriminate|]. exists 1. cbn [rest_at]. destruct (next_operator d ts); cbn [follow_level] in E; try discriminate; injection E as <-.
  - reflexivity.
  - replace (min <=? is_level) with false by (symmetry; apply Nat.leb_gt; lia). reflexivity.
  - replace (min <=? in_level) with false by (symmetry; apply Nat.leb_gt; lia). reflexivity.
  - replace (min <=? level o) with false by (symmetry; apply Nat.leb_gt; lia). reflexivity.
Qed.
Lemma pr_close d min lhs ts : PR d min lhs (RP :: ts) (Parsed lhs (RP :: ts)).
Proof. split; [discriminate|]. exists 1. reflexivity. Qed.
Lemma pr_comma d min lhs ts : PR d min lhs (Comma :: ts) (Parsed lhs (Comma :: ts)).
Proof. split; [discriminate|]. exists 1. reflexivity. Qed.
Lemma not_chained d o l ts : fits d l ts -> level o = l -> chained d o ts = false.
Proof.
  intros (k & E & L & F) <-. unfold chained. destruct (level o =? 5) eqn:E5; [|reflexivity]. apply Nat.eqb_eq in E5. specialize (F E5). cbn [andb].
  destruct (next_operator d ts); try reflexivity; cbn [follow_level] in E; injection E as <-.
  - unfold in_level in F. lia.
  - apply Nat.eqb_neq. lia.
Qed.

(* ---- The expression that is read ---- *)
Definition logic_pair (o o' : op) : bool := match o, o' with And, And => true | Or, Or => true | _, _ => false end.
Definition wrap (k : option (op * expr)) (e : expr) : expr := match k with Some (o, l) => Bin l o e | None => e end.
Definition literal (v : scalar) : expr :=
  match v with SNum true t => Neg (Lit (SNum false t)) | STemporal (Some t) => Lit (SText t) | _ => Lit v end.
(* [read k e]: what e is read as, after a left operand and an operator [k] *)
Fixpoint read (k : option (op * expr)) (e : expr) {struct e} : expr :=
  match e with
  | Col n => wrap k (Col n)
  | Lit v => wrap k (literal v)
  | Not x => wrap k (Not (read None x))
  | Neg x => wrap k (Neg (read None x))
  | IsNull x => wrap k (IsNull (read None x)) | IsNotNull x => wrap k (IsNotNull (read None x))
  | IsTrue x => wrap k (IsTrue (read None x)) | IsFalse x => wrap k (IsFalse (read None x))
  | IsNotTrue x => wrap k (IsNotTrue (read None x)) | IsNotFalse x => wrap k (IsNotFalse (read None x))
  | InList x l b => wrap k (InList (read None x) (map (read None) l) b)
  | Bin x o y =>
      match k with
      | Some (o', lhs) => if logic_pair o' o then read (Some (o, read (Some (o', lhs)) x)) y else wrap k (read (Some (o, read None x)) y)
      | None => read (Some (o, read None x)) y
      end
  | OtherExpr => wrap k OtherExpr
  end.
Lemma read_some o lhs e : (match e with Bin _ o' _ => logic_pair o o' | _ => false end) = false -> read (Some (o, lhs)) e = Bin lhs o (read None e).
Proof. destruct e; intros H; try reflexivity. cbn [read]. rewrite H. reflexivity. Qed.

Ltac bools := repeat match goal with H : (_ && _)%bool = true |- _ => let A := fresh "B" in apply andb_true_iff in H as [H A] end.
Lemma parenthesised_lower o a o' b : ordinary o = true -> ordinary o' = true -> level o' < level o -> parenthesised o (Bin a o' b) = true.
Proof. destruct o, o'; cbn; intros; try discriminate; try lia; reflexivity. Qed.
Lemma parenthesised_other o a o' b : ordinary o' = false -> parenthesised o (Bin a o' b) = true.
Proof. destruct o, o'; cbn; intros; try discriminate; reflexivity. Qed.
(* an operand that is fine is in parentheses, or binds tighter, or the place is a left one, or it is the same connective *)
Lemma operand_cases left o c : good_operand left o c = true ->
  parenthesised o c = true \/ level o < expr_level c \/ (left = true /\ level o = expr_level c /\ level o <> 5) \/
  (exists x o' y, c = Bin x o' y /\ logic_pair o o' = true).
Proof.
  assert (G : forall e, (match e with Bin _ _ _ => False | _ => True end) -> (if ordinary o then level o <? expr_level e else expr_level e =? sign_level) = true -> level o < expr_level e).
  { intros e _ H. destruct (ordinary o); [apply Nat.ltb_lt; exact H|]. apply Nat.eqb_eq in H. rewrite H. pose proof (level_le o). unfold sign_level. lia. }
  destruct c; cbn [good_operand]; intros H; try (right; left; apply G; [exact Logic.I|exact H]).
  rename o0 into o'. destruct (ordinary o') eqn:O'; [|left; exact (parenthesised_other o c1 o' c2 O')]. cbn [negb orb] in H. apply andb_true_iff in H as [O H].
  destruct (Nat.lt_trichotomy (level o) (level o')) as [L|[L|L]].
  - right; left. exact L.
  - right; right. rewrite (proj2 (Nat.eqb_eq _ _) L) in H. cbn [negb orb] in H. apply orb_true_iff in H as [H|H].
    + apply andb_true_iff in H as [-> H]. left. split; [reflexivity|]. split; [exact L|]. apply Nat.eqb_neq. destruct (level o =? 5); [discriminate|reflexivity].
    + right. exists c1, o', c2. split; [reflexivity|exact H].
  - left. exact (parenthesised_lower o c1 o' c2 O O' L).
Qed.
Lemma logic_not_paren o x o' y : logic_pair o o' = true -> parenthesised o (Bin x o' y) = false /\ o' = o /\ (o = And \/ o = Or).
Proof. destruct o, o'; try discriminate; intros _; repeat split; auto. Qed.
Lemma good_logic o c : o = And \/ o = Or -> good_operand true o c = true -> good_operand false o c = true.
Proof. intros [-> | ->]; destruct c; try (intros H; exact H); cbn [good_operand]; destruct o; cbn; intros; try reflexivity; discriminate. Qed.

Definition reads_alone d e : Prop := forall min rest r, well_grouped d e = true -> min <= expr_level e -> fits d (expr_level e) rest ->
  PR d min (read None e) rest r -> PE d min (toks d e ++ rest) r.
Definition reads_after d e : Prop := forall o min lhs rest r, known d o = true -> well_grouped d e = true -> good_operand false o e = true ->
  min <= level o -> fits d (level o) rest -> PR d min (read (Some (o, lhs)) e) rest r -> PR d min lhs (op_toks d o ++ group o e (toks d e) ++ rest) r.

Lemma paren_reads d o e min rest r : reads_alone d e -> well_grouped d e = true -> parenthesised o e = true -> PR d min (read None e) rest r ->
  PE d min (group o e (toks d e) ++ rest) r.
Proof.
  intros A W Hp H. unfold group. rewrite Hp. cbn [app]. apply (pe_paren d min _ (read None e) rest); [|exact H].
  rewrite <- app_assoc. cbn [app]. apply A; [exact W| |apply fits_close|apply pr_close].
  destruct e; cbn [expr_level]; unfold not_level, is_level, in_level, sign_level; try lia. apply level_ge.
Qed.
(* an operand that is not part of a chain of connectives *)
Lemma after_single d e o min lhs rest r : reads_alone d e -> known d o = true -> well_grouped d e = true -> good_operand false o e = true ->
  (match e with Bin _ o' _ => logic_pair o o' | _ => false end) = false ->
  min <= level o -> fits d (level o) rest -> PR d min (read (Some (o, lhs)) e) rest r -> PR d min lhs (op_toks d o ++ group o e (toks d e) ++ rest) r.
Proof.
  intros A K W G NL L F H. rewrite (read_some _ _ _ NL) in H.
  apply (pr_bin d min lhs _ o _ (read None e) rest r (op_next d o _ K) L); [|exact (not_chained d o _ _ F eq_refl)|exact H].
  destruct (operand_cases false o e G) as [Hp|[Hl|[[C _]|(x & o' & y & -> & C)]]]; [| |discriminate|congruence].
  - apply paren_reads; [exact A|exact W|exact Hp|]. apply (pr_stop d _ _ _ _ F). lia.
  - destruct (parenthesised o e) eqn:Hp.
    + apply paren_reads; [exact A|exact W|exact Hp|]. apply (pr_stop d _ _ _ _ F). lia.
    + unfold group. rewrite Hp. apply A; [exact W|lia|exact (fits_sub _ _ _ _ F Hl)|]. apply (pr_stop d _ _ _ _ F). lia.
Qed.
Lemma reads_bin d a o b : reads_alone d a -> reads_after d b -> reads_alone d (Bin a o b).
Proof.
  intros A B min rest r W L F H. cbn [expr_level] in *. cbn [well_grouped] in W. bools. rename B3 into Wa, B2 into Wb, B1 into Ga, B0 into Gb.
  cbn [toks]. rewrite <- !app_assoc. cbn [read] in H.
  pose proof (B o min (read None a) rest r W Wb Gb L F H) as H'.
  destruct (parenthesised o a) eqn:Hp; [exact (paren_reads d o a min _ r A Wa Hp H')|]. unfold group at 1. rewrite Hp.
  assert (Hl : level o <= expr_level a /\ (expr_level a = 5 -> level o < 5)).
  { destruct (operand_cases true o a Ga) as [C|[Hl|[(_ & E & N)|(x & o' & y & -> & C)]]]; [congruence|lia|lia|].
    destruct (logic_not_paren o x o' y C) as (_ & -> & [-> | ->]); cbn; lia. }
  apply A; [exact Wa|lia| |exact H']. exists (level o). rewrite (op_next d o _ W). split; [reflexivity|]. exact Hl.
Qed.
Lemma pl_list d l rest : l <> [] -> Forall (reads_alone d) l -> forallb (well_grouped d) l = true ->
  PL d (commas (map (toks d) l) ++ RP :: rest) (LParsed (map (read None) l) (RP :: rest)).
Proof.
  assert (Lv : forall e, 1 <= expr_level e) by (intros e; destruct e; cbn [expr_level]; unfold not_level, is_level, in_level, sign_level; try lia; apply level_ge).
  induction l as [|x l IH]; intros N F W; [congruence|]. inversion F as [|? ? Fx Fl]; subst. cbn [forallb] in W. apply andb_true_iff in W as [Wx Wl].
  destruct l as [|y l].
  - cbn [map commas]. apply pl_one. apply Fx; [exact Wx|apply Lv|apply fits_close|apply pr_close].
  - change (commas (map (toks d) (x :: y :: l))) with (toks d x ++ Comma :: commas (map (toks d) (y :: l))). rewrite <- app_assoc. cbn [app].
    change (map (read None) (x :: y :: l)) with (read None x :: map (read None) (y :: l)).
    apply (pl_cons d _ _ (commas (map (toks d) (y :: l)) ++ RP :: rest)); [|apply IH; [discriminate|exact Fl|exact Wl]].
    apply Fx; [exact Wx|apply Lv|apply fits_comma|apply pr_comma].
Qed.

Lemma reads_post d e f (mk : list token -> list token) : reads_alone d e -> 
  (forall rest, next_operator d (mk rest) = FPost f rest) ->
  forall min rest r, well_grouped d e = true -> is_level <? expr_level e = true -> min <= is_level -> PR d min (f (read None e)) rest r -> PE d min (toks d e ++ mk rest) r.
Proof.
  intros A E min rest r W Hl L H. apply Nat.ltb_lt in Hl. apply A; [exact W|unfold is_level in *; lia| |].
  - exists is_level. rewrite E. split; [reflexivity|]. unfold is_level in *. lia.
  - apply (pr_post d min _ _ f rest r (E rest) L H).
Qed.

Lemma reads_all d e : reads_alone d e /\ reads_after d e.
Proof.
  induction e using expr_ind'.
  all: try (match goal with |- reads_alone ?dd ?x /\ _ => assert (A : reads_alone dd x) end;
    [|split; [exact A|intros o' min' lhs' rest' r' K' W' G' L' F' H'; apply after_single; [exact A|exact K'|exact W'|exact G'|reflexivity|exact L'|exact F'|exact H']]]).
  - intros min rest r W L F H. exact (pe_atom d min (TId n) (Col n) rest r eq_refl H).
  - intros min rest r W L F H. cbn [read wrap] in H. cbn [toks]. cbn [well_grouped] in W. destruct v; cbn [plain_literal] in W; try discriminate; cbn [literal lit_toks app] in *.
    + exact (pe_word d min "NULL" SNull rest r ltac:(left; reflexivity) H).
    + destruct b; [exact (pe_word d min "true" (SBool true) rest r ltac:(right; left; reflexivity) H)|exact (pe_word d min "false" (SBool false) rest r ltac:(right; right; left; reflexivity) H)].
    + destruct neg.
      * cbn [app]. apply (pe_minus d min _ (Lit (SNum false digits)) rest r); [|exact H]. apply (pe_atom d _ (TNum digits) _ _ _ eq_refl).
        destruct F as (k & E & Fl & _). cbn [expr_level] in Fl. apply (pr_stop d sign_level _ 8). 2: { unfold sign_level. lia. }
        exists k. split; [exact E|]. split; [|lia]. destruct (next_operator d rest); cbn [follow_level] in E; try discriminate; injection E as <-; unfold is_level, in_level; try lia. apply level_le.
      * exact (pe_atom d min (TNum digits) (Lit (SNum false digits)) rest r eq_refl H).
    + exact (pe_atom d min (TStr s) (Lit (SText s)) rest r eq_refl H).
    + destruct t as [t|]; [|discriminate]. exact (pe_atom d min (TStr t) (Lit (SText t)) rest r eq_refl H).
  - destruct IHe as [IH _]. intros min rest r W L F H. cbn [well_grouped] in W. bools. apply Nat.leb_le in B. cbn [expr_level] in *. cbn [toks app].
    apply (pe_not d min _ (read None e) rest r L); [|exact H]. apply IH; [exact W|exact B| |].
    + destruct F as (k & E & Fl & _). exists k. unfold not_level in *. split; [exact E|]. split; lia.
    + destruct F as (k & E & Fl & Ff). apply (pr_stop d not_level _ 2); [|unfold not_level; lia]. exists k. split; [exact E|].
      unfold not_level in Fl. assert (k <> 3) by (intros ->; destruct (next_operator d rest); cbn in E; try discriminate; destruct o; discriminate). lia.
  - destruct IHe as [IH _]. intros min rest r W L F H. cbn [well_grouped] in W. bools. apply Nat.eqb_eq in B. cbn [toks app].
    apply (pe_paren d min _ (Neg (read None e)) rest r); [|exact H]. rewrite <- app_assoc. cbn [app].
    apply (pe_minus d 1 _ (read None e) (RP :: rest)); [|apply pr_close]. apply IH; [exact W|rewrite B; lia|apply fits_close|apply pr_close].
  - destruct IHe as [IH _]. intros min rest r W L F H. cbn [well_grouped] in W. bools. cbn [toks]. rewrite <- app_assoc.
    exact (reads_post d e IsNull (fun rest => [TWord "IS"; TWord "NULL"] ++ rest) IH (fun _ => eq_refl) min rest r W B L H).
  - destruct IHe as [IH _]. intros min rest r W L F H. cbn [well_grouped] in W. bools. cbn [toks]. rewrite <- app_assoc.
    exact (reads_post d e IsNotNull (fun rest => [TWord "IS"; TWord "NOT"; TWord "NULL"] ++ rest) IH (fun _ => eq_refl) min rest r W B L H).
  - destruct IHe as [IH _]. intros min rest r W L F H. cbn [well_grouped] in W. bools. cbn [toks]. rewrite <- app_assoc.
    exact (reads_post d e IsTrue (fun rest => [TWord "IS"; TWord "TRUE"] ++ rest) IH (fun _ => eq_refl) min rest r W B L H).
  - destruct IHe as [IH _]. intros min rest r W L F H. cbn [well_grouped] in W. bools. cbn [toks]. rewrite <- app_assoc.
    exact (reads_post d e IsFalse (fun rest => [TWord "IS"; TWord "FALSE"] ++ rest) IH (fun _ => eq_refl) min rest r W B L H).
  - destruct IHe as [IH _]. intros min rest r W L F H. cbn [well_grouped] in W. bools. cbn [toks]. rewrite <- app_assoc.
    exact (reads_post d e IsNotTrue (fun rest => [TWord "IS"; TWord "NOT"; TWord "TRUE"] ++ rest) IH (fun _ => eq_refl) min rest r W B L H).
  - destruct IHe as [IH _]. intros min rest r W L F H. cbn [well_grouped] in W. bools. cbn [toks]. rewrite <- app_assoc.
    exact (reads_post d e IsNotFalse (fun rest => [TWord "IS"; TWord "NOT"; TWord "FALSE"] ++ rest) IH (fun _ => eq_refl) min rest r W B L H).
  - destruct IHe as [IH _]. intros min rest r W L F HR. cbn [well_grouped] in W. bools. cbn [expr_level] in *. apply Nat.ltb_lt in B1.
    cbn [toks]. rewrite <- !app_assoc. cbn [app]. rewrite <- app_assoc. cbn [app].
    assert (E : next_operator d ((if b then [TWord "NOT"; TWord "IN"] else [TWord "IN"]) ++ LP :: commas (map (toks d) l) ++ RP :: rest) = FIn b (LP :: commas (map (toks d) l) ++ RP :: rest))
      by (destruct b, d; reflexivity).
    apply IH; [exact W|unfold in_level in L; lia| |].
    + exists in_level. rewrite E. split; [reflexivity|]. unfold in_level. lia.
    + apply (pr_in d min _ _ b _ (map (read None) l) rest r E L); [| |exact HR].
      * apply pl_list; [destruct l; [discriminate|congruence]| |exact B]. clear -H. induction H as [|y q Hy Hq I]; constructor; [exact (proj1 Hy)|exact I].
      * exact (not_chained d Eq 5 rest F eq_refl).
  - destruct IHe1 as [A1 R1], IHe2 as [A2 R2]. assert (A : reads_alone d (Bin e1 o e2)) by (apply reads_bin; assumption). split; [exact A|].
    intros o' min lhs rest r K W G L F H. destruct (logic_pair o' o) eqn:LP'.
    + destruct (logic_not_paren o' e1 o e2 LP') as (Hp & -> & Ho'). cbn [read] in H. rewrite LP' in H. cbn [well_grouped] in W. bools.
      unfold group at 1. rewrite Hp. cbn [toks]. rewrite <- !app_assoc.
      apply R1; [exact K|exact B2|exact (good_logic o' e1 Ho' B0)|exact L| |].
      * exists (level o'). rewrite (op_next d o' _ K). split; [reflexivity|]. destruct Ho' as [-> | ->]; cbn; lia.
      * apply R2; [exact K|exact B1|exact B|exact L|exact F|exact H].
    + apply after_single; [exact A|exact K|exact W|exact G|exact LP'|exact L|exact F|exact H].
  - intros min rest r W. discriminate.
Qed.

(* ---- Values ---- *)
Definition bin_value (m : meaning) (o : op) (a b : value) : value := match o with And => and3 a b | Or => or3 a b | _ => m_bin m o a b end.
Lemma eval_bin m r a o b : eval m r (Bin a o b) = bin_value m o (eval m r a) (eval m r b).
Proof. destruct o; reflexivity. Qed.
Lemma and3_assoc a b c : and3 (and3 a b) c = and3 a (and3 b c).
Proof. unfold and3. destruct (truth a) as [[]|], (truth b) as [[]|], (truth c) as [[]|]; reflexivity. Qed.
Lemma or3_assoc a b c : or3 (or3 a b) c = or3 a (or3 b c).
Proof. unfold or3. destruct (truth a) as [[]|], (truth b) as [[]|], (truth c) as [[]|]; reflexivity. Qed.
Lemma literal_value m r v : proper m -> eval m r (literal v) = value_of v.
Proof. intros (P & _). destruct v; try reflexivity. - destruct neg; [exact (P digits)|reflexivity]. - destruct t; reflexivity.
Qed.
Lemma read_value m r e : proper m -> forall k, eval m r (read k e) = match k with Some (o, l) => bin_value m o (eval m r l) (eval m r e) | None => eval m r e end.
Proof.
  intros P. induction e using expr_ind'; intros k.
  all: lazymatch goal with |- eval _ _ (read _ (Bin _ _ _)) = _ => idtac | _ => destruct k as [[o' l']|]; cbn [read wrap]; rewrite ?eval_bin; cbn [eval]; rewrite ?(IHe None); try reflexivity end.
  - rewrite (literal_value m r v P). reflexivity.
  - rewrite (literal_value m r v P). reflexivity.
  - rewrite map_map. f_equal. f_equal. apply map_ext_in. intros y I. exact (proj1 (Forall_forall _ _) H y I None).
  - rewrite map_map. f_equal. apply map_ext_in. intros y I. exact (proj1 (Forall_forall _ _) H y I None).
  - destruct k as [[o' l']|]; cbn [read].
    + destruct (logic_pair o' o) eqn:LP'.
      * rewrite IHe2, IHe1, eval_bin. destruct (logic_not_paren o' e1 o e2 LP') as (_ & -> & [-> | ->]); cbn [bin_value]; [apply and3_assoc|apply or3_assoc].
      * cbn [wrap]. rewrite !eval_bin, IHe2, IHe1. reflexivity.
    + rewrite IHe2, IHe1, <- eval_bin. reflexivity.
Qed.
