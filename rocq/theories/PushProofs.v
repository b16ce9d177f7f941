(* Lemmas about the texts sent to remote databases: the visitor, the lexer on them, the parser on their tokens. *)
From Coq Require Import Ascii String List Arith Bool Lia.
Import ListNotations.
From Verif Require Import PushModel PushSpec.
Open Scope string_scope.

(* ---- Strings ---- *)
Lemma app_assoc_s (a b c : string) : (a ++ b) ++ c = a ++ b ++ c.
Proof. induction a as [|x a IH]; cbn; [reflexivity|]. rewrite IH. reflexivity. Qed.
Lemma app_nil_s (a : string) : a ++ "" = a.
Proof. induction a as [|x a IH]; cbn; [reflexivity|]. rewrite IH. reflexivity. Qed.
Lemma snoc_app (a s : string) c : snoc a c ++ s = a ++ String c s.
Proof. unfold snoc. rewrite app_assoc_s. reflexivity. Qed.

(* ---- Induction on expressions ---- *)
Section Ind.
Variable P : expr -> Prop.
Hypothesis (hcol : forall n, P (Col n)) (hlit : forall v, P (Lit v)) (hnot : forall e, P e -> P (Not e)) (hneg : forall e, P e -> P (Neg e))
  (h1 : forall e, P e -> P (IsNull e)) (h2 : forall e, P e -> P (IsNotNull e)) (h3 : forall e, P e -> P (IsTrue e)) (h4 : forall e, P e -> P (IsFalse e))
  (h5 : forall e, P e -> P (IsNotTrue e)) (h6 : forall e, P e -> P (IsNotFalse e))
  (hin : forall e l b, P e -> Forall P l -> P (InList e l b)) (hbin : forall a o b, P a -> P b -> P (Bin a o b)) (hother : P OtherExpr).
Fixpoint expr_ind' (e : expr) : P e :=
  match e with
  | Col n => hcol n | Lit v => hlit v | Not x => hnot x (expr_ind' x) | Neg x => hneg x (expr_ind' x)
  | IsNull x => h1 x (expr_ind' x) | IsNotNull x => h2 x (expr_ind' x) | IsTrue x => h3 x (expr_ind' x) | IsFalse x => h4 x (expr_ind' x)
  | IsNotTrue x => h5 x (expr_ind' x) | IsNotFalse x => h6 x (expr_ind' x)
  | InList x l b => hin x l b (expr_ind' x) ((fix go l := match l return Forall P l with [] => Forall_nil _ | y :: r => Forall_cons _ (expr_ind' y) (go r) end) l)
  | Bin a o b => hbin a o b (expr_ind' a) (expr_ind' b)
  | OtherExpr => hother
  end.
End Ind.

(* ---- The visitor builds one text ---- *)
Definition lit_sql (v : scalar) : string := match scalar_value_to_sql v with Some t => t | None => "" end.
Definition op_sql (d : dialect) (o : op) : string := match op_to_sql d o with Some t => t | None => "" end.
Fixpoint sql (d : dialect) (e : expr) : string :=
  match e with
  | Col n => col_to_sql d n
  | Lit v => lit_sql v
  | Not x => "NOT " ++ sql d x
  | Neg x => "(- " ++ sql d x ++ ")"
  | IsNull x => sql d x ++ " IS NULL" | IsNotNull x => sql d x ++ " IS NOT NULL" | IsTrue x => sql d x ++ " IS TRUE" | IsFalse x => sql d x ++ " IS FALSE"
  | IsNotTrue x => sql d x ++ " IS NOT TRUE" | IsNotFalse x => sql d x ++ " IS NOT FALSE"
  | InList x l b => sql d x ++ (if b then " NOT IN (" else " IN (") ++ join ", " (map (sql d) l) ++ ")"
  | Bin a o b => operand o a (sql d a) ++ " " ++ op_sql d o ++ " " ++ operand o b (sql d b)
  | OtherExpr => ""
  end.
(* every operator and literal has a text *)
Fixpoint shippable (d : dialect) (e : expr) : bool :=
  match e with
  | Col _ => true
  | Lit v => match scalar_value_to_sql v with Some _ => true | None => false end
  | Not x | Neg x | IsNull x | IsNotNull x | IsTrue x | IsFalse x | IsNotTrue x | IsNotFalse x => shippable d x
  | InList x l _ => (shippable d x && forallb (shippable d) l)%bool
  | Bin a o b => ((match op_to_sql d o with Some _ => true | None => false end) && shippable d a && shippable d b)%bool
  | OtherExpr => false
  end.
Fixpoint visits (d : dialect) (l : list expr) (st : list string) : option (list string) :=
  match l with [] => Some st | y :: l' => match visit d y st with Some st' => visits d l' st' | None => None end end.
Lemma visit_in d x l b st : visit d (InList x l b) st =
  match visit d x st with Some st' => match visits d l st' with Some s => f_up d (InList x l b) s | None => None end | None => None end.
Proof.
  cbn [visit f_down]. destruct (visit d x st) as [st'|]; [|reflexivity].
  assert (H : forall l st, (fix go (l : list expr) (st : list string) := match l with [] => Some st | y :: l' => match visit d y st with Some st' => go l' st' | None => None end end) l st = visits d l st).
  { induction l0 as [|y r IH]; intros s; cbn; [reflexivity|]. destruct (visit d y s); [apply IH|reflexivity]. }
  rewrite H. reflexivity.
Qed.
Lemma visits_ok d l st : Forall (fun e => forall st, visit d e st = if shippable d e then Some (sql d e :: st) else None) l ->
  visits d l st = if forallb (shippable d) l then Some (rev (map (sql d) l) ++ st)%list else None.
Proof.
  intros H. revert st. induction H as [|y r Hy Hr IH]; intros st; cbn; [reflexivity|]. rewrite Hy. destruct (shippable d y); cbn; [|reflexivity].
  rewrite IH. destruct (forallb (shippable d) r); [|reflexivity]. rewrite <- app_assoc. reflexivity.
Qed.
Lemma visit_ok d e : forall st, visit d e st = if shippable d e then Some (sql d e :: st) else None.
Proof.
  induction e using expr_ind'; intros st.
  all: try (cbn [visit f_down shippable f_up sql]; rewrite ?IHe; destruct (shippable d e); reflexivity).
  - reflexivity.
  - cbn [visit f_down shippable f_up sql]. unfold lit_sql. destruct (scalar_value_to_sql v); reflexivity.
  - rewrite visit_in, IHe. cbn [shippable]. destruct (shippable d e); cbn [andb]; [|reflexivity]. rewrite (visits_ok _ _ _ H).
    destruct (forallb (shippable d) l); [|reflexivity]. cbn [f_up sql].
    assert (L : List.length (rev (map (sql d) l)) = List.length l) by (rewrite rev_length, map_length; reflexivity).
    replace (List.length (rev (map (sql d) l) ++ sql d e :: st) <? List.length l)%nat with false by (symmetry; apply Nat.ltb_ge; rewrite app_length, L; lia).
    rewrite <- L at 1. rewrite <- L. rewrite firstn_app, firstn_all, Nat.sub_diag. cbn [firstn]. rewrite app_nil_r, rev_involutive.
    rewrite skipn_app, skipn_all, Nat.sub_diag. reflexivity.
  - cbn [visit f_down shippable]. unfold op_sql. destruct (op_to_sql d o) as [t|] eqn:E; cbn [andb]; [|reflexivity]. rewrite IHe1.
    destruct (shippable d e1); cbn [andb]; [|reflexivity]. rewrite IHe2. destruct (shippable d e2); [|reflexivity].
    cbn [f_up]. rewrite E. cbn [sql]. unfold op_sql. rewrite E. reflexivity.
  - reflexivity.
Qed.
Lemma filter_sql_ok d e : filter_expr_to_sql d e = match d with OtherSource => None | _ => if shippable d e then Some (sql d e) else None end.
Proof. unfold filter_expr_to_sql. rewrite visit_ok. destruct (shippable d e), d; reflexivity. Qed.

(* ---- The lexer on texts ---- *)
Lemma run_app d s1 : forall m s2, run d m (s1 ++ s2) =
  match run d m s1 with Some (ts, m') => match run d m' s2 with Some (ts', m'') => Some (ts ++ ts', m'')%list | None => None end | None => None end.
Proof.
  induction s1 as [|c s1 IH]; intros m s2; cbn.
  - destruct (run d m s2) as [[? ?]|]; reflexivity.
  - destruct (step d m c) as [[ts m']|]; [|reflexivity]. rewrite IH. destruct (run d m' s1) as [[ts1 m1]|]; [|reflexivity].
    destruct (run d m1 s2) as [[ts2 m2]|]; [|reflexivity]. rewrite app_assoc. reflexivity.
Qed.
(* the text is cut into these tokens and a separator can follow *)
Definition says (d : dialect) (s : string) (ts : list token) : Prop :=
  exists ts0 m t, run d Base s = Some (ts0, m) /\ finish m = Some t /\ m <> Comment /\ ts = (ts0 ++ t)%list.
Lemma says_lex d s ts : says d s ts -> lex d s = Some ts.
Proof. intros (ts0 & m & t & R & F & _ & ->). unfold lex. rewrite R, F. reflexivity. Qed.
Definition emit (c : ascii) : list token := if Ascii.eqb c ")" then [RP] else if Ascii.eqb c "," then [Comma] else [].
Definition separator (c : ascii) : bool := (Ascii.eqb c " " || Ascii.eqb c ")" || Ascii.eqb c ",")%bool.
Lemma separator_cases c : separator c = true -> c = " "%char \/ c = ")"%char \/ c = ","%char.
Proof. unfold separator. rewrite !orb_true_iff, !Ascii.eqb_eq. tauto. Qed.
Lemma step_sep d m c t : separator c = true -> finish m = Some t -> m <> Comment -> step d m c = Some ((t ++ emit c)%list, Base).
Proof.
  intros H F N. destruct (separator_cases c H) as [-> | [-> | ->]]; destruct m; cbn [finish] in F; try discriminate; try (exfalso; apply N; reflexivity);
    injection F as <-; destruct d; reflexivity.
Qed.
Lemma says_sep d s1 ts1 c s2 ts2 : separator c = true -> says d s1 ts1 -> says d s2 ts2 -> says d (s1 ++ String c s2) (ts1 ++ emit c ++ ts2)%list.
Proof.
  intros S (a & m & t & R & F & N & ->) (a2 & m2 & t2 & R2 & F2 & N2 & ->).
  exists ((a ++ t ++ emit c) ++ a2)%list, m2, t2. split; [|split; [exact F2|split; [exact N2|]]].
  - rewrite run_app, R. cbn [run]. rewrite (step_sep d m c t S F N), R2. f_equal. f_equal. rewrite <- !app_assoc. reflexivity.
  - rewrite <- !app_assoc. reflexivity.
Qed.
Lemma says_nil d : says d "" [].
Proof. exists [], Base, []. repeat split. discriminate. Qed.
Lemma says_lp d s ts : says d s ts -> says d ("(" ++ s) (LP :: ts).
Proof.
  intros (a & m & t & R & F & N & ->). exists (LP :: a), m, t. split; [|split; [exact F|split; [exact N|reflexivity]]].
  cbn [append run]. destruct d; cbn; rewrite R; reflexivity.
Qed.
Lemma says_rp d s ts : says d s ts -> says d (s ++ ")") (ts ++ [RP])%list.
Proof. intros H. exact (says_sep d s ts ")" "" [] eq_refl H (says_nil d)). Qed.
Lemma says_space d s1 ts1 s2 ts2 : says d s1 ts1 -> says d s2 ts2 -> says d (s1 ++ " " ++ s2) (ts1 ++ ts2)%list.
Proof. intros H1 H2. exact (says_sep d s1 ts1 " " s2 ts2 eq_refl H1 H2). Qed.
(* by computation *)
Definition says_b (d : dialect) (s : string) : option (list token) :=
  match run d Base s with Some (_, Comment) => None | Some (ts, m) => match finish m with Some t => Some (ts ++ t)%list | None => None end | None => None end.
Lemma says_comp d s ts : says_b d s = Some ts -> says d s ts.
Proof.
  unfold says_b. destruct (run d Base s) as [[a m]|] eqn:R; [|discriminate]. intros H.
  destruct (finish m) as [t|] eqn:F; [|destruct m; discriminate]. exists a, m, t. split; [exact R|]. split; [exact F|]. destruct m; try discriminate; injection H as <-; split; congruence.
Qed.
Lemma eqb_false_sym a b : a <> b -> Ascii.eqb a b = false.
Proof. intros H. apply Ascii.eqb_neq. exact H. Qed.

(* identifiers *)
Lemma run_id d s : forall acc, run d (InId acc) (double (ident_quote d) s) = Some ([], InId (acc ++ s)).
Proof.
  induction s as [|c s IH]; intros acc; cbn [double run].
  - rewrite app_nil_s. reflexivity.
  - destruct (Ascii.eqb c (ident_quote d)) eqn:E; cbn [run step]; rewrite !E; cbn [run step]; rewrite ?E, IH, snoc_app; reflexivity.
Qed.
Lemma start_id d : start d (ident_quote d) = Some ([], InId "").
Proof. destruct d; reflexivity. Qed.
Lemma col_quote d n : col_to_sql d n = quote_identifier (ident_quote d) n.
Proof. destruct d; reflexivity. Qed.
Lemma run_col d n : run d Base (col_to_sql d n) = Some ([], IdQuote n).
Proof.
  rewrite col_quote. unfold quote_identifier. cbn [run step]. rewrite start_id, run_app, run_id. cbn [run step]. rewrite Ascii.eqb_refl. reflexivity.
Qed.
Lemma says_col d n : says d (col_to_sql d n) [TId n].
Proof. exists [], (IdQuote n), [TId n]. split; [apply run_col|]. split; [reflexivity|]. split; [discriminate|reflexivity]. Qed.

(* string literals *)
Lemma run_str d s : no_backslash d s = true -> forall acc, run d (InStr acc) (double squote s) = Some ([], InStr (acc ++ s)).
Proof.
  unfold no_backslash. induction s as [|c s IH]; intros H acc; cbn [double run].
  - rewrite app_nil_s. reflexivity.
  - assert (Hs : (negb (backslash_escapes d) || all_chars (fun c => negb (Ascii.eqb c "\")) s)%bool = true)
      by (cbn [all_chars] in H; destruct (negb (backslash_escapes d)); [reflexivity|]; cbn in *; apply andb_true_iff in H; tauto).
    unfold squote. destruct (Ascii.eqb c "'") eqn:E; cbn [run step]; rewrite !E; cbn [run step]; rewrite ?E.
    + fold squote. rewrite (IH Hs), snoc_app. reflexivity.
    + assert (B : (backslash_escapes d && Ascii.eqb c "\")%bool = false).
      { cbn [all_chars] in H. destruct (backslash_escapes d); [|reflexivity]. cbn in *. destruct (Ascii.eqb c "\"); [discriminate|reflexivity]. }
      rewrite B. cbn [run step]. fold squote. rewrite (IH Hs), snoc_app. reflexivity.
Qed.
Lemma run_text d s : no_backslash d s = true -> run d Base (String squote (double squote s ++ String squote "")) = Some ([], StrQuote s).
Proof.
  intros H. cbn [run step]. replace (start d squote) with (Some (@nil token, InStr "")) by (destruct d; reflexivity).
  rewrite run_app, (run_str d s H). cbn [run step]. reflexivity.
Qed.
Lemma says_text d s : no_backslash d s = true -> says d (String squote (double squote s ++ String squote "")) [TStr s].
Proof. intros H. exists [], (StrQuote s), [TStr s]. split; [exact (run_text d s H)|]. split; [reflexivity|]. split; [discriminate|reflexivity]. Qed.
Lemma double_none c t : all_chars (fun x => negb (Ascii.eqb x c)) t = true -> double c t = t.
Proof.
  induction t as [|a t IH]; cbn; [reflexivity|]. intros H. apply andb_true_iff in H as [Ha Ht]. destruct (Ascii.eqb a c); [discriminate|]. rewrite (IH Ht). reflexivity.
Qed.

(* numbers *)
Lemma run_num d t : all_chars num_char t = true -> forall acc, run d (InNum acc) t = Some ([], InNum (acc ++ t)).
Proof.
  induction t as [|c t IH]; intros H acc; cbn [run step].
  - rewrite app_nil_s. reflexivity.
  - cbn [all_chars] in H. apply andb_true_iff in H as [Hc Ht]. rewrite Hc, (IH Ht), snoc_app. reflexivity.
Qed.
Lemma digit_start d c : digit c = true -> start d c = Some ([], InNum (String c "")).
Proof.
  intros H. unfold start. assert (N : forall x, digit x = false -> Ascii.eqb c x = false) by (intros x Hx; apply Ascii.eqb_neq; intros ->; congruence).
  rewrite !N by (try destruct d; reflexivity). rewrite H. reflexivity.
Qed.
Lemma run_number d t : numeric t = true -> run d Base t = Some ([], InNum t).
Proof.
  destruct t as [|c t]; [discriminate|]. cbn [numeric]. intros H. apply andb_true_iff in H as [Hc Ht]. cbn [run step]. rewrite (digit_start d c Hc), (run_num d t Ht). reflexivity.
Qed.
Lemma says_number d t : numeric t = true -> says d t [TNum t].
Proof. intros H. exists [], (InNum t), [TNum t]. split; [exact (run_number d t H)|]. split; [reflexivity|]. split; [discriminate|reflexivity]. Qed.
Lemma digit_not_sym c : digit c = true -> sym_char c = false.
Proof.
  intros H. unfold sym_char. assert (N : forall x, digit x = false -> Ascii.eqb c x = false) by (intros x Hx; apply Ascii.eqb_neq; intros ->; congruence).
  cbn [existsb]. rewrite !N by reflexivity. reflexivity.
Qed.
Lemma says_minus d t : numeric t = true -> says d ("-" ++ t) [TSym "-"; TNum t].
Proof.
  intros H. exists [TSym "-"], (InNum t), [TNum t]. split; [|split; [reflexivity|split; [discriminate|reflexivity]]].
  destruct t as [|c t]; [discriminate|]. cbn [numeric] in H. apply andb_true_iff in H as [Hc Ht]. cbn [append run].
  replace (step d Base "-") with (Some (@nil token, InSym "-")) by (destruct d; reflexivity).
  cbn [step]. rewrite (digit_not_sym c Hc). unfold after. rewrite (digit_start d c Hc), (run_num d t Ht). reflexivity.
Qed.

(* ---- The tokens of a filter ---- *)
Definition lit_toks (v : scalar) : list token :=
  match v with
  | SNull => [TWord "NULL"] | SBool b => [TWord (if b then "true" else "false")]
  | SNum neg t => if neg then [TSym "-"; TNum t] else [TNum t]
  | SText s => [TStr s] | STemporal (Some t) => [TStr t]
  | _ => []
  end.
Lemma says_lit d v : plain_literal d v = true -> says d (lit_sql v) (lit_toks v).
Proof.
  destruct v; cbn [plain_literal]; intros H; try discriminate; unfold lit_sql; cbn [scalar_value_to_sql lit_toks].
  - apply says_comp. destruct d; reflexivity.
  - apply says_comp. destruct d, b; reflexivity.
  - destruct neg; cbn [signed]; [exact (says_minus d digits H)|exact (says_number d digits H)].
  - exact (says_text d s H).
  - destruct t as [t|]; [|discriminate]. apply andb_true_iff in H as [Hb Hq]. rewrite <- (double_none squote t Hq) at 1. exact (says_text d t Hb).
Qed.
Definition op_toks (d : dialect) (o : op) : list token := match says_b d (op_sql d o) with Some ts => ts | None => [] end.
Lemma says_op d o : known d o = true -> says d (op_sql d o) (op_toks d o).
Proof. intros H. apply says_comp. unfold op_toks. destruct d, o; try discriminate; reflexivity. Qed.
Lemma op_next d o rest : known d o = true -> next_operator d (op_toks d o ++ rest) = FBin o rest.
Proof. intros H. destruct d, o; try discriminate; reflexivity. Qed.
Definition group (o : op) (c : expr) (ts : list token) : list token := if parenthesised o c then LP :: ts ++ [RP] else ts.
Fixpoint commas (l : list (list token)) : list token := match l with [] => [] | [x] => x | x :: r => (x ++ Comma :: commas r)%list end.
Fixpoint toks (d : dialect) (e : expr) : list token :=
  match e with
  | Col n => [TId n]
  | Lit v => lit_toks v
  | Not x => TWord "NOT" :: toks d x
  | Neg x => LP :: TSym "-" :: toks d x ++ [RP]
  | IsNull x => toks d x ++ [TWord "IS"; TWord "NULL"] | IsNotNull x => toks d x ++ [TWord "IS"; TWord "NOT"; TWord "NULL"]
  | IsTrue x => toks d x ++ [TWord "IS"; TWord "TRUE"] | IsFalse x => toks d x ++ [TWord "IS"; TWord "FALSE"]
  | IsNotTrue x => toks d x ++ [TWord "IS"; TWord "NOT"; TWord "TRUE"] | IsNotFalse x => toks d x ++ [TWord "IS"; TWord "NOT"; TWord "FALSE"]
  | InList x l b => toks d x ++ (if b then [TWord "NOT"; TWord "IN"] else [TWord "IN"]) ++ LP :: commas (map (toks d) l) ++ [RP]
  | Bin a o b => group o a (toks d a) ++ op_toks d o ++ group o b (toks d b)
  | OtherExpr => []
  end%list.
Lemma says_operand d o c s ts : says d s ts -> says d (operand o c s) (group o c ts).
Proof. intros H. unfold operand, group. destruct (parenthesised o c); [|exact H]. unfold parens. apply says_lp, says_rp, H. Qed.
Lemma says_join d l : l <> [] -> Forall (fun e => says d (sql d e) (toks d e)) l -> says d (join ", " (map (sql d) l)) (commas (map (toks d) l)).
Proof.
  induction l as [|x l IH]; intros N H; [congruence|]. inversion H as [|? ? Hx Hl]; subst. destruct l as [|y l]; [exact Hx|].
  change (join ", " (map (sql d) (x :: y :: l))) with (sql d x ++ String "," (String " " (join ", " (map (sql d) (y :: l))))).
  change (commas (map (toks d) (x :: y :: l))) with (toks d x ++ emit "," ++ commas (map (toks d) (y :: l)))%list.
  apply says_sep; [reflexivity|exact Hx|]. exact (says_sep d "" [] " " _ _ eq_refl (says_nil d) (IH ltac:(discriminate) Hl)).
Qed.
(* only operators and literals matter for the tokens *)
Fixpoint lexable (d : dialect) (e : expr) : bool :=
  match e with
  | Col _ => true
  | Lit v => plain_literal d v
  | Not x | Neg x | IsNull x | IsNotNull x | IsTrue x | IsFalse x | IsNotTrue x | IsNotFalse x => lexable d x
  | InList x l _ => (lexable d x && negb (match l with [] => true | _ => false end) && forallb (lexable d) l)%bool
  | Bin a o b => (known d o && lexable d a && lexable d b)%bool
  | OtherExpr => false
  end.
Lemma says_sql d e : lexable d e = true -> says d (sql d e) (toks d e).
Proof.
  induction e using expr_ind'; cbn [lexable sql toks]; intros W.
  - apply says_col.
  - exact (says_lit d v W).
  - change ("NOT " ++ sql d e) with ("NOT" ++ " " ++ sql d e). change (TWord "NOT" :: toks d e) with ([TWord "NOT"] ++ toks d e)%list.
    apply says_space; [|exact (IHe W)]. apply says_comp. destruct d; reflexivity.
  - change ("(- " ++ sql d e ++ ")") with ("(" ++ ("-" ++ " " ++ sql d e ++ ")")). apply says_lp.
    change (TSym "-" :: toks d e ++ [RP])%list with ([TSym "-"] ++ (toks d e ++ [RP]))%list. apply says_space; [apply says_comp; destruct d; reflexivity|]. apply says_rp, IHe, W.
  - apply (says_space d _ _ "IS NULL" _ (IHe W)). apply says_comp. destruct d; reflexivity.
  - apply (says_space d _ _ "IS NOT NULL" _ (IHe W)). apply says_comp. destruct d; reflexivity.
  - apply (says_space d _ _ "IS TRUE" _ (IHe W)). apply says_comp. destruct d; reflexivity.
  - apply (says_space d _ _ "IS FALSE" _ (IHe W)). apply says_comp. destruct d; reflexivity.
  - apply (says_space d _ _ "IS NOT TRUE" _ (IHe W)). apply says_comp. destruct d; reflexivity.
  - apply (says_space d _ _ "IS NOT FALSE" _ (IHe W)). apply says_comp. destruct d; reflexivity.
  - apply andb_true_iff in W as [W Hl]. apply andb_true_iff in W as [He Hn].
    assert (J : says d (join ", " (map (sql d) l)) (commas (map (toks d) l))).
    { apply says_join; [destruct l; [discriminate|congruence]|]. rename H into F. clear Hn. induction F as [|y r Hy Hr IH]; [constructor|].
      cbn [forallb] in Hl. apply andb_true_iff in Hl as [H1 H2]. constructor; [exact (Hy H1)|exact (IH H2)]. }
    destruct b.
    + change (sql d e ++ " NOT IN (" ++ join ", " (map (sql d) l) ++ ")") with (sql d e ++ " " ++ ("NOT" ++ " " ++ ("IN" ++ " " ++ ("(" ++ (join ", " (map (sql d) l) ++ ")"))))).
      apply says_space; [exact (IHe He)|]. change ([TWord "NOT"; TWord "IN"] ++ LP :: commas (map (toks d) l) ++ [RP])%list with ([TWord "NOT"] ++ ([TWord "IN"] ++ LP :: commas (map (toks d) l) ++ [RP]))%list.
      apply says_space; [apply says_comp; destruct d; reflexivity|]. apply says_space; [apply says_comp; destruct d; reflexivity|]. apply says_lp, says_rp, J.
    + change (sql d e ++ " IN (" ++ join ", " (map (sql d) l) ++ ")") with (sql d e ++ " " ++ ("IN" ++ " " ++ ("(" ++ (join ", " (map (sql d) l) ++ ")")))).
      apply says_space; [exact (IHe He)|]. apply says_space; [apply says_comp; destruct d; reflexivity|]. apply says_lp, says_rp, J.
  - apply andb_true_iff in W as [W H2]. apply andb_true_iff in W as [Ho H1].
    apply says_space; [apply says_operand, IHe1, H1|]. apply says_space; [exact (says_op d o Ho)|]. apply says_operand, IHe2, H2.
  - discriminate.
Qed.
Lemma lexable_shippable d e : d <> OtherSource -> lexable d e = true -> shippable d e = true.
Proof.
  intros D. induction e using expr_ind'; cbn [lexable shippable]; intros W; try exact (IHe W); try reflexivity; try discriminate.
  - destruct v; try discriminate; try reflexivity. destruct t; [reflexivity|discriminate].
  - apply andb_true_iff in W as [W Hl]. apply andb_true_iff in W as [He _]. rewrite (IHe He). cbn [andb].
    rename H into F. induction F as [|y r Hy Hr IH]; [reflexivity|]. cbn [forallb] in *. apply andb_true_iff in Hl as [H1 H2]. rewrite (Hy H1). exact (IH H2).
  - apply andb_true_iff in W as [W H2]. apply andb_true_iff in W as [Ho H1]. rewrite (IHe1 H1), (IHe2 H2), !andb_true_r. destruct d, o; try discriminate; try reflexivity; congruence.
Qed.
Lemma grouped_lexable d e : well_grouped d e = true -> lexable d e = true.
Proof.
  induction e using expr_ind'; cbn [well_grouped lexable]; intros W; try exact W; try discriminate;
    try (apply andb_true_iff in W as [W _]; exact (IHe W)).
  - apply andb_true_iff in W as [W Hl]. apply andb_true_iff in W as [W Hn]. apply andb_true_iff in W as [He _]. rewrite (IHe He), Hn. cbn [andb]. clear Hn.
    rename H into F. induction F as [|y r Hy Hr IH]; [reflexivity|]. cbn [forallb] in *. apply andb_true_iff in Hl as [H1 H2]. rewrite (Hy H1). exact (IH H2).
  - apply andb_true_iff in W as [W _]. apply andb_true_iff in W as [W _]. apply andb_true_iff in W as [W H2]. apply andb_true_iff in W as [Ho H1].
    rewrite Ho, (IHe1 H1), (IHe2 H2). reflexivity.
Qed.
