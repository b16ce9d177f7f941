(* Filters and queries sent to remote databases. How a database reads a text, and the class of filters that it reads as meant, is in PushSpec.v;
   the texts that Seafowl sends are in PushModel.v. *)
From Coq Require Import Ascii String List Arith Bool ZArith Lia.
Import ListNotations.
From Verif Require Import PushModel PushSpec PushProofs PushParse.
Open Scope nat_scope.
Open Scope string_scope.
Open Scope list_scope.

(* A text is read in at most one way. *)
Theorem c56_reading_unique d sql e e' : understood d sql e -> understood d sql e' -> e = e'.
Proof.
  intros (ts & n & L & P) (ts' & n' & L' & P'). rewrite L in L'. injection L' as <-.
  pose proof (expr_unique d n n' 1 ts _ _ P P' ltac:(discriminate) ltac:(discriminate)) as E. congruence.
Qed.
Theorem c56_not_rejected d sql e : understood d sql e -> ~ rejected d sql.
Proof.
  intros (ts & n & L & P) [N|(ts' & n' & L' & R)]; [congruence|]. rewrite L in L'. injection L' as <-.
  destruct R as [R|(e' & t & r & R)]; pose proof (expr_unique d n n' 1 ts _ _ P R ltac:(discriminate) ltac:(discriminate)) as E; congruence.
Qed.

Lemma understood_toks d e e' n : lexable d e = true -> expr_at d n 1 (toks d e) = Parsed e' [] -> understood d (sql d e) e'.
Proof. intros W P. exists (toks d e), n. split; [apply says_lex, says_sql, W|exact P]. Qed.
Lemma accepted d e : d <> OtherSource -> shippable d e = true -> supports_filter_pushdown d e = true /\ filter_expr_to_sql d e = Some (sql d e).
Proof. intros D S. unfold supports_filter_pushdown. rewrite filter_sql_ok, S. destruct d; try (split; reflexivity); congruence. Qed.
Lemma rejected_toks d e n : lexable d e = true -> (expr_at d n 1 (toks d e) = Reject \/ exists e' t r, expr_at d n 1 (toks d e) = Parsed e' (t :: r)) -> rejected d (sql d e).
Proof. intros W R. right. exists (toks d e), n. split; [apply says_lex, says_sql, W|exact R]. Qed.

(* C56. A filter of the class is pushed down and read as a filter with the same value on every row. Missing: filters outside the class, see below. *)
Theorem c56_partial d e : d <> OtherSource -> well_grouped d e = true ->
  exists sql e', supports_filter_pushdown d e = true /\ filter_expr_to_sql d e = Some sql /\ understood d sql e' /\ same_value e e'.
Proof.
  intros D W. pose proof (grouped_lexable d e W) as X. exists (sql d e), (read None e).
  destruct (accepted d e D (lexable_shippable d e D X)) as [S F]. split; [exact S|]. split; [exact F|]. split.
  - destruct (proj1 (reads_all d e) 1 [] (Parsed (read None e) [])) as [_ [n P]]; [exact W| |apply fits_end| |].
    + destruct e; cbn [expr_level]; unfold not_level, is_level, in_level, sign_level; try lia. apply level_ge.
    + split; [discriminate|]. exists 1. reflexivity.
    + rewrite app_nil_r in P. exact (understood_toks d e (read None e) n X P).
  - intros m r P. symmetry. exact (read_value m r e P None).
Qed.

(* ---- What goes wrong ---- *)
(* a meaning of the operators for the refutations; [f] is the meaning of those that [proper] leaves open *)
Definition sample (f : op -> value -> value -> value) : meaning := {|
  m_bin := fun o a b =>
    match o, a, b with
    | Plus, VInt x, VInt y => VInt (x + y) | Minus, VInt x, VInt y => VInt (x - y) | Gt, VInt x, VInt y => VBool (x >? y)%Z
    | Eq, VBool x, VBool y => VBool (Bool.eqb x y) | Eq, _, VNull => VNull
    | IsDistinctFrom, VBool x, VBool y => VBool (negb (Bool.eqb x y))
    | _, _, _ => f o a b end;
  m_neg := fun v => match v with VNum false t => VNum true t | VInt z => VInt (- z) | _ => VNull end;
  m_in := fun _ _ _ => VNull |}.
Lemma sample_proper f : proper (sample f).
Proof. unfold proper, sample; cbn [m_bin m_neg]. repeat apply conj; try reflexivity. intros x. destruct x; reflexivity. Qed.
Definition nothing (o : op) (a b : value) : value := VNull.


Lemma misread_toks d e e' n m r : d <> OtherSource -> lexable d e = true -> expr_at d n 1 (toks d e) = Parsed e' [] -> proper m -> ~ (keeps m r e <-> keeps m r e') -> misread d e.
Proof.
  intros D X P M N. destruct (accepted d e D (lexable_shippable d e D X)) as [S F]. split; [exact S|].
  exists (sql d e), e', m, r. split; [exact F|]. split; [exact (understood_toks d e e' n X P)|]. split; [exact M|exact N].
Qed.
Lemma refused_toks d e n : d <> OtherSource -> lexable d e = true -> (expr_at d n 1 (toks d e) = Reject \/ exists e' t r, expr_at d n 1 (toks d e) = Parsed e' (t :: r)) -> refused d e.
Proof.
  intros D X R. destruct (accepted d e D (lexable_shippable d e D X)) as [S F]. split; [exact S|]. exists (sql d e). split; [exact F|exact (rejected_toks d e n X R)].
Qed.

(* a - (b - c) > x is sent as a - b - c > x *)
Theorem c56_right_operand_refuted d a b c x : d <> OtherSource -> misread d (Bin (Bin (Col a) Minus (Bin (Col b) Minus (Col c))) Gt (Col x)).
Proof.
  intros D. apply (misread_toks d _ (Bin (Bin (Bin (Col a) Minus (Col b)) Minus (Col c)) Gt (Col x)) 10 (sample nothing) (fun _ => VInt (-1)) D);
    [reflexivity|destruct d; reflexivity|apply sample_proper|].
  unfold keeps. cbn. intros [_ H]. discriminate (H eq_refl).
Qed.
(* NOT (a AND b) and NOT (a OR b) are sent as NOT a AND b and NOT a OR b *)
Theorem c56_not_refuted d a b o : d <> OtherSource -> o = And \/ o = Or -> misread d (Not (Bin (Col a) o (Col b))).
Proof.
  intros D [-> | ->].
  - apply (misread_toks d _ (Bin (Not (Col a)) And (Col b)) 10 (sample nothing) (fun _ => VBool false) D); [reflexivity|destruct d; reflexivity|apply sample_proper|].
    unfold keeps. cbn. intros [H _]. discriminate (H eq_refl).
  - apply (misread_toks d _ (Bin (Not (Col a)) Or (Col b)) 10 (sample nothing) (fun _ => VBool true) D); [reflexivity|destruct d; reflexivity|apply sample_proper|].
    unfold keeps. cbn. intros [_ H]. discriminate (H eq_refl).
Qed.
(* a = (b IS NULL) is sent as a = b IS NULL, which is (a = b) IS NULL *)
Theorem c56_is_null_refuted d a b : d <> OtherSource -> misread d (Bin (Col a) Eq (IsNull (Col b))).
Proof.
  intros D. apply (misread_toks d _ (IsNull (Bin (Col a) Eq (Col b))) 10 (sample nothing) (fun _ => VBool false) D); [reflexivity|destruct d; reflexivity|apply sample_proper|].
  unfold keeps. cbn. intros [H _]. discriminate (H eq_refl).
Qed.
(* the operand of IS has no parentheses: (a AND b) IS NULL is sent as a AND b IS NULL, (a OR b) IS NOT TRUE as a OR b IS NOT TRUE, (NOT a) IS FALSE as NOT a IS FALSE *)
Theorem c56_is_refuted d a b : d <> OtherSource ->
  misread d (IsNull (Bin (Col a) And (Col b))) /\ misread d (IsNotTrue (Bin (Col a) Or (Col b))) /\ misread d (IsFalse (Not (Col a))).
Proof.
  intros D. split; [|split].
  - apply (misread_toks d _ (Bin (Col a) And (IsNull (Col b))) 10 (sample nothing) (fun _ => VNull) D); [reflexivity|destruct d; reflexivity|apply sample_proper|].
    unfold keeps. cbn. intros [H _]. discriminate (H eq_refl).
  - apply (misread_toks d _ (Bin (Col a) Or (IsNotTrue (Col b))) 10 (sample nothing) (fun _ => VBool true) D); [reflexivity|destruct d; reflexivity|apply sample_proper|].
    unfold keeps. cbn. intros [_ H]. discriminate (H eq_refl).
  - apply (misread_toks d _ (Not (IsFalse (Col a))) 10 (sample nothing) (fun _ => VNull) D); [reflexivity|destruct d; reflexivity|apply sample_proper|].
    unfold keeps. cbn. intros [_ H]. discriminate (H eq_refl).
Qed.
(* Postgres refuses chains of comparisons; (a < b) = c is sent as one *)
Theorem c56_comparison_refuted a b c : refused Postgres (Bin (Bin (Col a) Lt (Col b)) Eq (Col c)).
Proof. apply (refused_toks Postgres _ 10); [discriminate|reflexivity|]. left. reflexivity. Qed.
(* every operator that a database does not know under the name it is sent with *)
Theorem c56_operator_refuted d o a b : d <> OtherSource -> op_to_sql d o <> None -> known d o = false ->
  misread d (Bin (Col a) o (Col b)) \/ refused d (Bin (Col a) o (Col b)).
Proof.
  intros D S K.
  assert (T : forall ts, says_b d (op_sql d o) = Some ts -> says d (sql d (Bin (Col a) o (Col b))) ([TId a] ++ ts ++ [TId b])).
  { intros ts H. cbn [sql]. unfold operand. cbn [parenthesised]. apply says_space; [apply says_col|]. apply says_space; [apply says_comp, H|apply says_col]. }
  assert (A : supports_filter_pushdown d (Bin (Col a) o (Col b)) = true /\ filter_expr_to_sql d (Bin (Col a) o (Col b)) = Some (sql d (Bin (Col a) o (Col b)))).
  { apply accepted; [exact D|]. cbn [shippable]. destruct (op_to_sql d o); [reflexivity|congruence]. }
  destruct A as [A1 A2].
  assert (R : forall ts, says_b d (op_sql d o) = Some ts ->
    (expr_at d 10 1 ([TId a] ++ ts ++ [TId b]) = Reject \/ exists e' t r, expr_at d 10 1 ([TId a] ++ ts ++ [TId b]) = Parsed e' (t :: r)) -> refused d (Bin (Col a) o (Col b))).
  { intros ts H P. split; [exact A1|]. exists (sql d (Bin (Col a) o (Col b))). split; [exact A2|]. right. exists ([TId a] ++ ts ++ [TId b]), 10. split; [apply says_lex, T, H|exact P]. }
  destruct d, o; try discriminate K; try (exfalso; apply S; reflexivity); try congruence;
    try (right; eapply R; [reflexivity|]; left; reflexivity); try (right; eapply R; [reflexivity|]; right; eexists; eexists; eexists; reflexivity).
  left. split; [exact A1|]. exists (sql MySQL (Bin (Col a) StringConcat (Col b))), (Bin (Col a) Or (Col b)), (sample nothing), (fun _ => VBool true).
  split; [exact A2|]. split; [exists ([TId a] ++ [TSym "||"] ++ [TId b]), 10; split; [apply says_lex, T; reflexivity|reflexivity]|]. split; [apply sample_proper|].
  unfold keeps. cbn. intros [_ H]. discriminate (H eq_refl).
Qed.

Lemma says_prefix d s1 ts1 s2 ts2 : run d Base s1 = Some (ts1, Base) -> says d s2 ts2 -> says d (s1 ++ s2)%string (ts1 ++ ts2).
Proof.
  intros R (a & m & t & R2 & F & N & ->). exists (ts1 ++ a), m, t. split; [rewrite run_app, R, R2; reflexivity|]. split; [exact F|]. split; [exact N|]. rewrite <- app_assoc. reflexivity.
Qed.
Lemma letter_start d c : letter c = true -> start d c = Some ([], InWord (String c "")).
Proof.
  intros H. unfold start. assert (N : forall x, letter x = false -> Ascii.eqb c x = false) by (intros x Hx; apply Ascii.eqb_neq; intros ->; congruence).
  rewrite !N by (try destruct d; reflexivity).
  assert (G : digit c = false). { unfold letter, digit in *. destruct (48 <=? nat_of_ascii c)%nat eqn:E1; [|reflexivity]. destruct (nat_of_ascii c <=? 57)%nat eqn:E2; [|reflexivity].
    apply Nat.leb_le in E1, E2. exfalso. rewrite !orb_true_iff, !andb_true_iff, !Nat.leb_le, Nat.eqb_eq in H. lia. }
  rewrite G, H. reflexivity.
Qed.
Lemma run_word d t : all_chars word_char t = true -> forall acc, run d (InWord acc) t = Some ([], InWord (acc ++ t)%string).
Proof.
  induction t as [|c t IH]; intros H acc; cbn [run step].
  - rewrite app_nil_s. reflexivity.
  - cbn [all_chars] in H. apply andb_true_iff in H as [Hc Ht]. rewrite Hc, (IH Ht), snoc_app. reflexivity.
Qed.
Lemma says_word d w : (match w with String c r => letter c && all_chars word_char r | EmptyString => false end)%bool = true -> says d w [TWord w].
Proof.
  intros H. exists [], (InWord w), [TWord w]. split; [|split; [reflexivity|split; [discriminate|reflexivity]]].
  destruct w as [|c w]; [discriminate|]. apply andb_true_iff in H as [Hc Hw]. cbn [run step]. rewrite (letter_start d c Hc), (run_word d w Hw). reflexivity.
Qed.
Lemma pe_name d min w ts r : plain_word w = true -> PR d min (Col (lower w)) ts r -> PE d min (TWord w :: ts) r.
Proof.
  intros M [N [n H]]. split; [exact N|]. exists (S n). cbn [expr_at]. unfold plain_word in M. apply andb_true_iff in M as [_ M]. apply negb_true_iff in M.
  cbn [existsb] in M |- *. repeat (apply orb_false_iff in M as [? M]; match goal with E : (upper w =? _)%string = false |- _ => rewrite E; clear E end). exact H.
Qed.
(* literals whose text is not a literal: decimals, times, floats that are not finite, and texts of the type Utf8View *)
Theorem c56_literal_refuted d a v : d <> OtherSource -> misprinted v = true -> misread d (Bin (Col a) Eq (Lit v)) \/ refused d (Bin (Col a) Eq (Lit v)).
Proof.
  intros D M. set (e := Bin (Col a) Eq (Lit v)).
  assert (A : supports_filter_pushdown d e = true /\ filter_expr_to_sql d e = Some (sql d e)).
  { apply accepted; [exact D|]. unfold e. destruct v; try discriminate; destruct d; try reflexivity; congruence. }
  destruct A as [A1 A2].
  assert (T : forall ts, says d (lit_sql v) ts -> says d (sql d e) (TId a :: TSym "=" :: ts)).
  { intros ts H. change (sql d e) with (col_to_sql d a ++ " " ++ (op_sql d Eq ++ " " ++ lit_sql v))%string. change (TId a :: TSym "=" :: ts) with ([TId a] ++ ([TSym "="] ++ ts)).
    apply says_space; [apply says_col|]. apply says_space; [|exact H]. apply says_comp. destruct d; reflexivity. }
  assert (G' : forall ts e' m r, says d (lit_sql v) ts -> PE d 1 (TId a :: TSym "=" :: ts) (Parsed e' []) -> proper m -> ~ (keeps m r e <-> keeps m r e') -> misread d e).
  { intros ts e' m r S [_ [n P]] Hm N. split; [exact A1|]. exists (sql d e), e', m, r. split; [exact A2|]. split; [|split; [exact Hm|exact N]].
    exists (TId a :: TSym "=" :: ts), n. split; [apply says_lex, T, S|exact P]. }
  assert (G : forall ts e' m r, says d (lit_sql v) ts -> expr_at d 10 1 (TId a :: TSym "=" :: ts) = Parsed e' [] -> proper m -> ~ (keeps m r e <-> keeps m r e') -> misread d e).
  { intros ts e' m r S P Hm N. split; [exact A1|]. exists (sql d e), e', m, r. split; [exact A2|]. split; [|split; [exact Hm|exact N]].
    exists (TId a :: TSym "=" :: ts), 10. split; [apply says_lex, T, S|exact P]. }
  set (f := fun (o : op) a b => match a, b with VInt _, VInt _ => VBool true | _, VTime _ => VBool true | _, _ => VNull end).
  destruct v; try discriminate; cbn [misprinted] in M.
  - left. apply (G [TWord "NaN"] (Bin (Col a) Eq (Col "nan")) (sample f) (fun _ => VInt 1)); [apply says_comp; destruct d; reflexivity|destruct d; reflexivity|apply sample_proper|].
    unfold keeps. cbn. intros [_ H]. discriminate (H eq_refl).
  - left. destruct neg.
    + apply (G [TSym "-"; TWord "inf"] (Bin (Col a) Eq (Neg (Col "inf"))) (sample f) (fun _ => VInt 1)); [apply says_comp; destruct d; reflexivity|destruct d; reflexivity|apply sample_proper|].
      unfold keeps. cbn. intros [_ H]. discriminate (H eq_refl).
    + apply (G [TWord "inf"] (Bin (Col a) Eq (Col "inf")) (sample f) (fun _ => VInt 1)); [apply says_comp; destruct d; reflexivity|destruct d; reflexivity|apply sample_proper|].
      unfold keeps. cbn. intros [_ H]. discriminate (H eq_refl).
  - right. apply andb_true_iff in M as [M Ms]. apply andb_true_iff in M as [Mt Mp]. split; [exact A1|]. exists (sql d e). split; [exact A2|]. right.
    set (num := if neg then [TSym "-"; TNum digits] else [TNum digits]).
    exists (TId a :: TSym "=" :: ([TWord "Some"; LP] ++ num ++ [RP] ++ [] ++ [Comma] ++ [TNum p] ++ [Comma] ++ [TNum s])), 10. split.
    + apply says_lex, T. unfold lit_sql. cbn [scalar_value_to_sql]. apply says_prefix; [destruct d; reflexivity|].
      apply (says_sep d (signed neg digits) num ")" ("," ++ p ++ "," ++ s)%string); [reflexivity| |].
      * unfold num. destruct neg; cbn [signed]; [exact (says_minus d digits Mt)|exact (says_number d digits Mt)].
      * apply (says_sep d "" [] "," (p ++ "," ++ s)%string); [reflexivity|apply says_nil|]. apply (says_sep d p [TNum p] "," s [TNum s]); [reflexivity|exact (says_number d p Mp)|exact (says_number d s Ms)].
    + right. eexists. eexists. eexists. destruct d; reflexivity.
  - left. change (lit_sql (SView s)) with s in *.
    apply (G' [TWord s] (Bin (Col a) Eq (Col (lower s))) (sample f) (fun _ => VInt 1)); [apply says_word; unfold plain_word in M; apply andb_true_iff in M as [M _]; exact M| |apply sample_proper|].
    + apply (pe_atom d 1 (TId a) (Col a)); [reflexivity|]. apply (pr_bin d 1 _ _ Eq [TWord s] (Col (lower s)) []); [destruct d; reflexivity|cbn; lia| |destruct d; reflexivity|apply (pr_stop d 1 _ 0); [apply fits_end|lia]].
      apply (pe_name d _ s _ _ M). apply (pr_stop d _ _ 0); [apply fits_end|lia].
    + unfold keeps. cbn. intros [_ H]. discriminate (H eq_refl).
  - left. change (lit_sql (STime units)) with units in *.
    apply (G [TNum units] (Bin (Col a) Eq (Lit (SNum false units))) (sample f) (fun _ => VInt 1)); [exact (says_number d units M)|destruct d; reflexivity|apply sample_proper|].
    unfold keeps. cbn. intros [H _]. discriminate (H eq_refl).
Qed.

(* C57. A quoted name is read as that name, and a quoted text as that text, whatever follows. *)
Lemma lex_after d s m t rest ts : run d Base s = Some ([], m) -> finish m = Some [t] -> m <> Comment -> lex d rest = Some ts -> lex d (s ++ " " ++ rest)%string = Some (t :: ts).
Proof.
  intros R F N L. unfold lex in *. rewrite run_app, R. cbn [append run]. rewrite (step_sep d m " " [t] eq_refl F N).
  destruct (run d Base rest) as [[ts' m']|]; [|discriminate]. cbn [app emit Ascii.eqb Bool.eqb]. destruct (finish m') as [t'|]; [|discriminate]. cbn [app]. injection L as <-. reflexivity.
Qed.
Theorem c57_identifier d name rest ts : lex d rest = Some ts ->
  exists sql, filter_expr_to_sql d (Col name) = match d with OtherSource => None | _ => Some sql end /\ lex d (sql ++ " " ++ rest)%string = Some (TId name :: ts).
Proof.
  intros L. exists (col_to_sql d name). split; [rewrite filter_sql_ok; destruct d; reflexivity|].
  apply (lex_after d _ (IdQuote name)); [apply run_col|reflexivity|discriminate|exact L].
Qed.
Theorem c57_text d s rest ts : d = Postgres \/ d = SQLite -> lex d rest = Some ts ->
  exists sql, filter_expr_to_sql d (Lit (SText s)) = Some sql /\ lex d (sql ++ " " ++ rest)%string = Some (TStr s :: ts).
Proof.
  intros D L. eexists. split; [rewrite filter_sql_ok; destruct D as [-> | ->]; reflexivity|].
  apply (lex_after d _ (StrQuote s)); [apply run_text; destruct D as [-> | ->]; reflexivity|reflexivity|discriminate|exact L].
Qed.
(* MySQL: for texts without a backslash. Missing: the others, see below. *)
Theorem c57_text_mysql_partial s rest ts : all_chars (fun c => negb (Ascii.eqb c "\")) s = true -> lex MySQL rest = Some ts ->
  exists sql, filter_expr_to_sql MySQL (Lit (SText s)) = Some sql /\ lex MySQL (sql ++ " " ++ rest)%string = Some (TStr s :: ts).
Proof.
  intros B L. eexists. split; [rewrite filter_sql_ok; reflexivity|].
  apply (lex_after MySQL _ (StrQuote s)); [exact (run_text MySQL s B)|reflexivity|discriminate|exact L].
Qed.

Lemma start_no_comment d c ts m : start d c = Some (ts, m) -> m <> Comment.
Proof.
  unfold start. repeat match goal with |- (if ?b then _ else _) = _ -> _ => destruct b end; intros H; try discriminate; injection H as <- <-; discriminate.
Qed.
Lemma step_no_comment d m c ts m' : m <> Comment -> Ascii.eqb c "-" = false -> step d m c = Some (ts, m') -> m' <> Comment.
Proof.
  intros N C. destruct m; cbn [step]; rewrite ?C; cbn [andb]; unfold after;
    repeat match goal with |- (if ?b then _ else _) = _ -> _ => destruct b end;
    try (intros H; injection H as <- <-; discriminate); try apply start_no_comment; try congruence;
    destruct (start d c) as [[a b]|] eqn:E; try discriminate; intros H; injection H as <- <-; exact (start_no_comment d c a b E).
Qed.
Lemma run_no_comment d s : all_chars (fun c => negb (Ascii.eqb c "-")) s = true -> forall m ts m', m <> Comment -> run d m s = Some (ts, m') -> m' <> Comment.
Proof.
  induction s as [|c s IH]; intros H m ts m' N R; cbn [run] in R.
  - injection R as <- <-. exact N.
  - cbn [all_chars] in H. apply andb_true_iff in H as [Hc Hs]. apply negb_true_iff in Hc. destruct (step d m c) as [[a m1]|] eqn:S; [|discriminate].
    destruct (run d m1 s) as [[a2 m2]|] eqn:R2; [|discriminate]. injection R as <- <-. exact (IH Hs m1 a2 m2 (step_no_comment d m c a m1 N Hc S) R2).
Qed.
Lemma says_no_dash d s ts : all_chars (fun c => negb (Ascii.eqb c "-")) s = true -> lex d s = Some ts -> says d s ts.
Proof.
  intros H L. unfold lex in L. destruct (run d Base s) as [[a m]|] eqn:R; [|discriminate]. destruct (finish m) as [t|] eqn:F; [|discriminate]. injection L as <-.
  exists a, m, t. split; [exact R|]. split; [exact F|]. split; [|reflexivity]. apply (run_no_comment d s H Base a m); [discriminate|exact R].
Qed.
Lemma run_comment d s : all_chars (fun c => negb (Ascii.eqb c "010")) s = true -> run d Comment s = Some ([], Comment).
Proof. induction s as [|c s IH]; cbn; [reflexivity|]. intros H. apply andb_true_iff in H as [Hc Hs]. apply negb_true_iff in Hc. rewrite Hc, (IH Hs). reflexivity. Qed.
(* In MySQL any text without quotes and dashes can be put in the place of the rest of the query: what is in the literal after a backslash and a quote. *)
Theorem c57_mysql_refuted injected rest ts :
  all_chars (fun c => negb (Ascii.eqb c "'")) injected = true -> all_chars (fun c => negb (Ascii.eqb c "-")) injected = true ->
  all_chars (fun c => negb (Ascii.eqb c "010")) rest = true -> lex MySQL injected = Some ts ->
  exists sql, filter_expr_to_sql MySQL (Lit (SText ("\' " ++ injected ++ " -- ")%string)) = Some sql /\ lex MySQL (sql ++ rest)%string = Some (TStr "'" :: ts).
Proof.
  intros Q N R L. eexists. split; [rewrite filter_sql_ok; reflexivity|].
  assert (Db : forall s t, double squote (s ++ t)%string = (double squote s ++ double squote t)%string).
  { induction s as [|c s IH]; intros t; cbn; [reflexivity|]. destruct (Ascii.eqb c squote); cbn; rewrite IH; reflexivity. }
  cbn [sql]. unfold lit_sql. cbn [scalar_value_to_sql]. rewrite !Db, (double_none squote injected Q), !app_assoc_s.
  destruct (says_no_dash MySQL injected ts N L) as (a & m & t & Ra & F & C & ->).
  match goal with |- lex MySQL ?x = _ => replace x with ("'\'' " ++ (injected ++ (String " " ("-- '" ++ rest))))%string by (cbn [append double Ascii.eqb Bool.eqb squote]; rewrite !app_assoc_s; reflexivity) end.
  unfold lex.
  rewrite run_app. change (run MySQL Base "'\'' ") with (Some ([TStr "'"], Base)). cbv iota beta. rewrite run_app, Ra. cbv iota beta.
  change (run MySQL m (String " " ("-- '" ++ rest))) with (match step MySQL m " " with Some (ts, m') => match run MySQL m' ("-- '" ++ rest) with Some (ts', m'') => Some (ts ++ ts', m'') | None => None end | None => None end).
  rewrite (step_sep MySQL m " " t eq_refl F C). cbv iota beta. rewrite run_app. change (run MySQL Base "-- '") with (Some (@nil token, Comment)). cbv iota beta.
  rewrite (run_comment MySQL rest R). cbn [app finish]. change (emit " ") with (@nil token). rewrite !app_nil_r. reflexivity.
Qed.
(* so that a = '...' becomes true for every row *)
Theorem c57_mysql_injection_refuted a : misread MySQL (Bin (Col a) Eq (Lit (SText "\' OR true -- "))).
Proof.
  set (e := Bin (Col a) Eq (Lit (SText "\' OR true -- "))).
  destruct (accepted MySQL e ltac:(discriminate) eq_refl) as [A1 A2]. split; [exact A1|].
  exists (sql MySQL e), (Bin (Bin (Col a) Eq (Lit (SText "'"))) Or (Lit (SBool true))), (sample nothing), (fun _ => VNull).
  split; [exact A2|]. split; [|split; [apply sample_proper|]].
  - exists [TId a; TSym "="; TStr "'"; TWord "OR"; TWord "true"], 10. split; [|reflexivity].
    change (sql MySQL e) with (col_to_sql MySQL a ++ (" = '\'' OR true -- '"))%string. unfold lex. rewrite run_app, run_col. reflexivity.
  - unfold keeps. cbn. intros [_ H]. discriminate (H eq_refl).
Qed.
(* Texts of the type Utf8View are not quoted at all, in no dialect. *)
Theorem c57_view_refuted d a injected : d <> OtherSource ->
  exists sql, filter_expr_to_sql d (Bin (Col a) Eq (Lit (SView injected))) = Some (sql ++ injected)%string /\ lex d sql = Some [TId a; TSym "="].
Proof.
  intros D. exists (col_to_sql d a ++ " = ")%string. split.
  - rewrite filter_sql_ok. cbn [sql]. unfold operand. cbn [parenthesised]. unfold lit_sql, op_sql. cbn [scalar_value_to_sql]. rewrite app_assoc_s. destruct d; try congruence; reflexivity.
  - unfold lex. rewrite run_app, run_col. destruct d; reflexivity.
Qed.

(* ---- The query of a scan ---- *)
(* Filters that are accepted one by one are accepted together. *)
Theorem c56_together d table projected filters limit : Forall (fun f => supports_filter_pushdown d f = true) filters ->
  exists sql, scan_sql d table projected filters limit = Some sql.
Proof.
  intros H. unfold scan_sql. destruct (conjunction filters) as [f|] eqn:C; [|eexists; reflexivity].
  assert (S : supports_filter_pushdown d f = true).
  { destruct filters as [|g fs]; [discriminate|]. injection C as <-. inversion H as [|? ? Hg Hfs]; subst. clear H. revert g Hg. induction Hfs as [|x fs Hx Hfs IH]; intros g Hg; [exact Hg|].
    cbn [fold_left]. apply IH. unfold supports_filter_pushdown in *. rewrite filter_sql_ok in *. cbn [shippable].
    destruct d; try discriminate; destruct (shippable _ x); try discriminate; destruct (shippable _ g); try discriminate; reflexivity. }
  unfold supports_filter_pushdown in S. destruct (filter_expr_to_sql d f) as [t|]; [|discriminate]. eexists. reflexivity.
Qed.
Lemma good_and left d f : well_grouped d f = true -> good_operand left And f = true.
Proof. intros _. destruct f; try reflexivity. cbn [good_operand]. destruct o; cbn; rewrite ?orb_true_r; reflexivity. Qed.
Lemma grouped_conjunction d g fs : Forall (fun f => well_grouped d f = true) (g :: fs) -> well_grouped d (fold_left (fun acc x => Bin acc And x) fs g) = true.
Proof.
  revert g. induction fs as [|x fs IH]; intros g H; inversion H as [|? ? Hg Hfs]; subst; [exact Hg|]. cbn [fold_left]. inversion Hfs as [|? ? Hx Hfs']; subst.
  apply IH. constructor; [|exact Hfs']. cbn [well_grouped]. rewrite Hg, Hx, (good_and true d g Hg), (good_and false d x Hx). destruct d; reflexivity.
Qed.
Lemma and3_true a b : and3 a b = VBool true <-> a = VBool true /\ b = VBool true.
Proof. unfold and3. destruct a as [| [] | | | | |], b as [| [] | | | | |]; cbn; intuition (try discriminate; auto). Qed.
Lemma keeps_conjunction m r g fs : keeps m r (fold_left (fun acc x => Bin acc And x) fs g) <-> Forall (keeps m r) (g :: fs).
Proof.
  revert g. induction fs as [|x fs IH]; intros g; cbn [fold_left].
  - split; [intros H; constructor; [exact H|constructor]|intros H; inversion H; assumption].
  - rewrite IH. split; intros H; inversion H as [|? ? H1 H2]; subst.
    + apply and3_true in H1 as [Ha Hb]. constructor; [exact Ha|]. constructor; [exact Hb|exact H2].
    + inversion H2 as [|? ? H3 H4]; subst. constructor; [|exact H4]. apply and3_true. split; assumption.
Qed.
Lemma says_columns d names : names <> [] -> exists ts, says d (join ", " (map (col_to_sql d) names)) ts /\ forall rest, columns_of (ts ++ TWord "FROM" :: rest) = Some (names, TWord "FROM" :: rest) /\
  (match ts ++ TWord "FROM" :: rest with TId _ :: _ => True | _ => False end).
Proof.
  induction names as [|x names IH]; intros N; [congruence|]. destruct names as [|y names].
  - exists [TId x]. split; [apply says_col|]. intros rest. split; [reflexivity|exact Logic.I].
  - destruct (IH ltac:(discriminate)) as (ts & S & R). exists ([TId x] ++ [Comma] ++ ([] ++ [] ++ ts)). split.
    + change (join ", " (map (col_to_sql d) (x :: y :: names))) with (col_to_sql d x ++ String "," ("" ++ String " " (join ", " (map (col_to_sql d) (y :: names)))))%string.
      apply (says_sep d _ [TId x] "," _ ([] ++ [] ++ ts)); [reflexivity|apply says_col|]. apply (says_sep d "" [] " " _ ts); [reflexivity|apply says_nil|exact S].
    + intros rest. destruct (R rest) as [E _]. cbn [app columns_of]. rewrite E. split; [reflexivity|exact Logic.I].
Qed.
(* The query selects the projected columns of the rows that all filters keep. Missing: filters outside the class of c56_partial, and a projection to no columns. *)
Theorem c88_scan_partial d table projected filters limit : d <> OtherSource -> table_text d table -> projected <> Some [] ->
  Forall (fun f => well_grouped d f = true) filters -> match limit with Some n => numeric n = true | None => True end ->
  exists sql filter, scan_sql d table projected filters limit = Some sql /\
    is_query d sql (match projected with Some names => Columns names | None => AllColumns end) table filter limit /\
    forall m r, proper m -> (kept_by m r filter <-> Forall (keeps m r) filters).
Proof.
  intros D [T N] Pr W Lim. destruct (lex d table) as [name|] eqn:LT; [|congruence]. pose proof (says_no_dash d table name N LT) as ST.
  (* the limit *)
  assert (HL : exists tl, tail_of d tl None limit /\ (forall s ts, says d s ts -> says d (s ++ match limit with Some n => " LIMIT " ++ n | None => "" end)%string (ts ++ tl)) /\ forall l, fits d l tl).
  { destruct limit as [n|].
    - exists [TWord "LIMIT"; TNum n]. split; [constructor|]. split.
      + intros s ts H. apply (says_space d s ts ("LIMIT" ++ " " ++ n)%string [TWord "LIMIT"; TNum n] H). change [TWord "LIMIT"; TNum n] with ([TWord "LIMIT"] ++ [TNum n]).
        apply says_space; [apply says_comp; destruct d; reflexivity|exact (says_number d n Lim)].
      + intros l. exists 0. split; [destruct d; reflexivity|]. split; lia.
    - exists []. split; [constructor|]. split; [intros s ts H; rewrite app_nil_s, app_nil_r; exact H|intros l; apply fits_end]. }
  destruct HL as (tl & TL & SL & FL).
  (* the columns *)
  assert (HC : exists tc, says d (columns_sql d projected) tc /\ forall rest, read_columns (tc ++ TWord "FROM" :: rest) = Some (match projected with Some names => Columns names | None => AllColumns end, TWord "FROM" :: rest)).
  { destruct projected as [names|]; cbn [columns_sql].
    - destruct (says_columns d names ltac:(congruence)) as (ts & S & R). exists ts. split; [exact S|]. intros rest. destruct (R rest) as [E M]. unfold read_columns.
      destruct (ts ++ TWord "FROM" :: rest) as [|[]]; try contradiction. rewrite E. reflexivity.
    - exists [TSym "*"]. split; [apply says_comp; destruct d; reflexivity|]. reflexivity. }
  destruct HC as (tc & SC & RC).
  (* the start of the query *)
  assert (HS : forall w tw, (forall s ts, says d s ts -> says d (s ++ w)%string (ts ++ tw)) ->
    lex d ("SELECT " ++ columns_sql d projected ++ " FROM " ++ table ++ w ++ match limit with Some n => " LIMIT " ++ n | None => "" end)%string = Some (TWord "SELECT" :: tc ++ TWord "FROM" :: name ++ tw ++ tl)).
  { intros w tw Hw. apply says_lex. change (TWord "SELECT" :: tc ++ TWord "FROM" :: name ++ tw ++ tl) with ([TWord "SELECT"] ++ tc ++ [TWord "FROM"] ++ name ++ tw ++ tl).
    apply (says_space d "SELECT"); [apply says_comp; destruct d; reflexivity|]. apply (says_space d _ tc ("FROM" ++ " " ++ _)%string); [exact SC|].
    apply says_space; [apply says_comp; destruct d; reflexivity|]. rewrite <- app_assoc_s, app_assoc. apply SL, Hw, ST. }
  unfold scan_sql. destruct filters as [|g fs]; cbn [conjunction].
  - eexists. exists None. split; [reflexivity|]. split.
    + exists (tc ++ TWord "FROM" :: name ++ tl), (name ++ tl), name, tl. split; [exact (HS "" [] (fun s ts H => eq_ind_r (fun x => says d x _) (eq_ind_r (fun y => says d s y) H (app_nil_r ts)) (app_nil_s s)))|].
      split; [apply RC|]. split; [exact LT|]. split; [reflexivity|exact TL].
    + intros m r _. split; intros _; [constructor|exact Logic.I].
  - set (f := fold_left (fun acc x => Bin acc And x) fs g). pose proof (grouped_conjunction d g fs W) as Wf. fold f in Wf.
    pose proof (grouped_lexable d f Wf) as X. destruct (accepted d f D (lexable_shippable d f D X)) as [_ F]. rewrite F.
    eexists. exists (Some (read None f)). split; [reflexivity|]. split.
    + exists (tc ++ TWord "FROM" :: name ++ (TWord "WHERE" :: toks d f) ++ tl), (name ++ (TWord "WHERE" :: toks d f) ++ tl), name, ((TWord "WHERE" :: toks d f) ++ tl).
      split; [|split; [apply RC|split; [exact LT|split; [reflexivity|]]]].
      * apply HS. intros s ts H. apply (says_space d s ts ("WHERE" ++ " " ++ sql d f)%string (TWord "WHERE" :: toks d f) H).
        change (TWord "WHERE" :: toks d f) with ([TWord "WHERE"] ++ toks d f). apply says_space; [apply says_comp; destruct d; reflexivity|exact (says_sql d f X)].
      * cbn [app]. destruct (proj1 (reads_all d f) 1 tl (Parsed (read None f) tl)) as [_ [n P]]; [exact Wf| |apply FL| |].
        -- clearbody f. destruct f; cbn [expr_level]; unfold not_level, is_level, in_level, sign_level; try lia. apply level_ge.
        -- apply (pr_stop d 1 _ 0); [apply FL|lia].
        -- exact (T_where d _ n (read None f) tl limit P TL).
    + intros m r Hm. cbn [kept_by]. unfold keeps at 1. rewrite (read_value m r f Hm None). exact (keeps_conjunction m r g fs).
Qed.
(* A scan without columns, as for COUNT of all rows, is not a query that SQLite or MySQL can read. *)
Theorem c88_no_columns_refuted d table filters limit sql : d = SQLite \/ d = MySQL -> table_text d table ->
  scan_sql d table (Some []) filters limit = Some sql -> forall cs filter limit', ~ is_query d sql cs table filter limit'.
Proof.
  intros D _ H cs filter limit' (ts & rest & name & tail & L & R & _). unfold scan_sql in H.
  destruct (match conjunction filters with None => Some ""%string | Some f => match filter_expr_to_sql d f with Some t => Some (" WHERE " ++ t)%string | None => None end end) as [w|]; [|discriminate].
  injection H as <-. cbn [columns_sql map join] in L.
  set (y := (table ++ w ++ match limit with Some n => " LIMIT " ++ n | None => "" end)%string) in *. change (lex d ("SELECT  FROM " ++ y)%string = Some (TWord "SELECT" :: ts)) in L.
  unfold lex in L. rewrite run_app in L. replace (run d Base "SELECT  FROM ") with (Some ([TWord "SELECT"; TWord "FROM"], Base)) in L by (destruct D as [-> | ->]; reflexivity).
  destruct (run d Base y) as [[a m]|]; [|discriminate]. destruct (finish m) as [t|]; [|discriminate]. injection L as <-. discriminate.
Qed.

(* A filter that cannot be written in SQL is never left out: the scan fails *)
Lemma conjunction_shippable d r : forall f, shippable d (fold_left (fun acc x => Bin acc And x) r f) = true -> shippable d f = true /\ Forall (fun x => shippable d x = true) r.
Proof.
  induction r as [|x r IH]; intros f H; cbn [fold_left] in H; [split; [exact H|constructor]|].
  destruct (IH _ H) as [B F]. cbn [shippable] in B. apply andb_true_iff in B. destruct B as [B Bx]. apply andb_true_iff in B. destruct B as [_ Bf].
  split; [assumption|]. constructor; assumption.
Qed.
Theorem c88_no_filter_dropped d table projected filters limit sql : scan_sql d table projected filters limit = Some sql ->
  Forall (fun f => supports_filter_pushdown d f = true) filters.
Proof.
  unfold scan_sql. destruct filters as [|f r]; [constructor|]. cbn [conjunction]. rewrite filter_sql_ok. intros H.
  assert (D : d <> OtherSource) by (intros ->; discriminate).
  assert (S : shippable d (fold_left (fun acc x => Bin acc And x) r f) = true) by (destruct (shippable d (fold_left _ r f)); [reflexivity|destruct d; discriminate]).
  destruct (conjunction_shippable d r f S) as [F R]. constructor; [exact (proj1 (accepted d f D F))|].
  revert R. apply Forall_impl. intros x X. exact (proj1 (accepted d x D X)).
Qed.
Example c88_example_unsupported : supports_filter_pushdown Postgres OtherExpr = false /\ scan_sql Postgres "t" None [Col "p"; OtherExpr] None = None.
Proof. split; reflexivity. Qed.

(* ---- The hypotheses are met ---- *)
(* (a < 5 OR NOT b IS NULL) AND c + -2 * e >= 'it''s' AND f NOT IN (1, NULL, true) *)
Definition sample_filter : expr :=
  Bin (Bin (Bin (Bin (Col "a") Lt (Lit (SNum false "5"))) Or (Not (IsNull (Col "b")))) And
           (Bin (Bin (Col "c") Plus (Bin (Lit (SNum true "2")) Multiply (Col "e"))) GtEq (Lit (SText "it's"))))
      And (InList (Col "f") [Lit (SNum false "1"); Lit SNull; Lit (SBool true)] true).
Example c56_example : well_grouped Postgres sample_filter = true /\ well_grouped SQLite sample_filter = true /\ well_grouped MySQL sample_filter = true /\
  filter_expr_to_sql MySQL sample_filter = Some "(`a` < 5 OR NOT `b` IS NULL) AND `c` + -2 * `e` >= 'it''s' AND `f` NOT IN (1, NULL, true)"%string.
Proof. repeat split. Qed.
(* a AND (b AND c) is read as (a AND b) AND c *)
Example c56_example_chain : well_grouped SQLite (Bin (Col "a") And (Bin (Col "b") And (Col "c"))) = true.
Proof. reflexivity. Qed.
Example c56_example_proper : exists m, proper m.
Proof. exists (sample nothing). apply sample_proper. Qed.
Example c56_example_operators : known Postgres BitwiseXor = false /\ op_to_sql Postgres BitwiseXor = Some "BIT_XOR"%string /\ known MySQL StringConcat = false /\ op_to_sql MySQL StringConcat = Some "||"%string.
Proof. repeat split. Qed.
Example c56_example_literals : misprinted (SDecimal false "12345" "10" "2") = true /\ misprinted (STime "3600") = true /\ misprinted (SView "name") = true.
Proof. repeat split. Qed.
Example c57_example : lex MySQL "OR true" = Some [TWord "OR"; TWord "true"].
Proof. reflexivity. Qed.
Example c88_example : table_text Postgres "public.t" /\ Forall (fun f => well_grouped Postgres f = true) [sample_filter; Bin (Col "x") Or (Col "y")] /\
  scan_sql Postgres "public.t" (Some ["a"; "b"])%string [Col "p"; Bin (Col "x") Or (Col "y")] (Some "10"%string) =
    Some (String "S" "ELECT ""a"", ""b"" FROM public.t WHERE ""p"" AND (""x"" OR ""y"") LIMIT 10").
Proof. split; [split; [discriminate|reflexivity]|]. split; [constructor; [reflexivity|constructor; [reflexivity|constructor]]|]. reflexivity. Qed.

Print Assumptions c56_reading_unique.
Print Assumptions c56_not_rejected.
Print Assumptions c56_partial.
Print Assumptions c56_right_operand_refuted.
Print Assumptions c56_not_refuted.
Print Assumptions c56_is_null_refuted.
Print Assumptions c56_is_refuted.
Print Assumptions c56_comparison_refuted.
Print Assumptions c56_operator_refuted.
Print Assumptions c56_literal_refuted.
Print Assumptions c57_identifier.
Print Assumptions c57_text.
Print Assumptions c57_text_mysql_partial.
Print Assumptions c57_mysql_refuted.
Print Assumptions c57_mysql_injection_refuted.
Print Assumptions c57_view_refuted.
Print Assumptions c56_together.
Print Assumptions c88_scan_partial.
Print Assumptions c88_no_filter_dropped.
Print Assumptions c88_no_columns_refuted.
