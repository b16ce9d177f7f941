(* From what is parsed back to what was written, for the statements that Seafowl plans itself. *)
From Coq Require Import String List Arith Bool Lia.
Import ListNotations.
From Verif Require Import SqlModel SqlSpec SqlProofs SqlClauses.
Open Scope list_scope.

Lemma bind_inv {A B} (p : P A) (f : A -> P B) ts y r : bind p f ts = Some (y, r) -> exists x r1, p ts = Some (x, r1) /\ f x r1 = Some (y, r).
Proof. unfold bind. destruct (p ts) as [[x r1]|]; [|discriminate]. intros H. exists x, r1. auto. Qed.
Lemma loop_inv {A} (body : A -> P (A + A)) (I Q : A -> Prop) :
  (forall x ts y r, I x -> body x ts = Some (inl y, r) -> I y) -> (forall x ts y r, I x -> body x ts = Some (inr y, r) -> Q y) ->
  forall n x ts y r, I x -> loop n body x ts = Some (y, r) -> Q y.
Proof.
  intros Hl Hr. induction n as [|n IH]; intros x ts y r Hx E; [discriminate|]. cbn [loop] in E. apply bind_inv in E as ([z|z] & r1 & E1 & E2).
  - exact (IH z r1 y r (Hl _ _ _ _ Hx E1) E2).
  - injection E2 as <- <-. exact (Hr _ _ _ _ Hx E1).
Qed.
Lemma expect_kw_inv k ts x r : expect_keyword k ts = Some (x, r) -> exists t, ts = t :: r /\ kw k t.
Proof.
  unfold expect_keyword, next. destruct ts as [|t ts]; [discriminate|]. destruct t; cbn; try discriminate. destruct (String.eqb_spec kw k); [|discriminate]. intros H. injection H as _ <-.
  subst. eexists. split; [reflexivity|]. eexists _, _. reflexivity.
Qed.
Lemma keyword_true k ts r : keyword k ts = Some (true, r) -> exists t, ts = t :: r /\ kw k t.
Proof.
  unfold keyword, bind, optional, ret. destruct ts as [|t ts]; [discriminate|]. destruct t; cbn; try discriminate. destruct (String.eqb_spec kw k); [|discriminate]. intros H. injection H as <-.
  subst. eexists. split; [reflexivity|]. eexists _, _. reflexivity.
Qed.
Lemma one_of_inv ks ts k r : one_of ks ts = Some (Some k, r) -> exists t, ts = t :: r /\ kw k t /\ In k ks.
Proof.
  unfold one_of, optional. destruct ts as [|t ts]; [discriminate|]. destruct (find (fun k0 => is_kw k0 t) ks) as [k0|] eqn:E; [|discriminate]. intros H. injection H as <- <-.
  apply find_some in E as [E1 E2]. exists t. split; [reflexivity|]. split; [|exact E1]. destruct t; try discriminate. cbn in E2. apply String.eqb_eq in E2. subst. eexists _, _. reflexivity.
Qed.
Lemma literal_inv ts s r : literal_string ts = Some (s, r) -> exists t, ts = t :: r /\ writes_literal s t.
Proof.
  unfold literal_string, next. destruct ts as [|t ts]; [discriminate|]. unfold writes_literal. destruct t; cbn; try discriminate.
  - destruct (String.eqb_spec kw ""); [|discriminate]. intros H. injection H as <- <-. subst. eexists. split; [reflexivity|]. eauto.
  - intros H. injection H as <- <-. eauto 6.
  - intros H. injection H as <- <-. eauto 6.
  - intros H. injection H as <- <-. eauto 8.
Qed.
Lemma identifier_inv ts i r : identifier ts = Some (i, r) -> exists t, ts = t :: r /\ writes_ident i t.
Proof.
  unfold identifier, next. destruct ts as [|t ts]; [discriminate|]. unfold writes_ident. destruct t; cbn; try discriminate; intros H; injection H as <- <-; (eexists; split; [reflexivity|]); cbn; eauto.
Qed.
Lemma consume_true ts r : consume Period ts = Some (true, r) -> ts = Period :: r.
Proof. unfold consume, bind, optional, ret. destruct ts as [|t ts]; [discriminate|]. destruct t; cbn; try discriminate. intros H. injection H as <-. reflexivity. Qed.
Lemma consume_false ts r p : consume p ts = Some (false, r) -> ts = r.
Proof. unfold consume, bind, optional, ret. destruct ts as [|t ts]; [intros H; injection H as <-; reflexivity|]. destruct (is_punct p t); [discriminate|]. intros H. injection H as <-. reflexivity. Qed.
Lemma object_name_inv ts name r : object_name ts = Some (name, r) -> exists ns, ts = ns ++ r /\ writes_name name ns.
Proof.
  unfold object_name. intros E. apply bind_inv in E as (i & r1 & E1 & E2). apply identifier_inv in E1 as (t & -> & Wi).
  assert (G : forall n acc ts y r, loop n (fun l => do c <- consume Period; if c : bool then do j <- identifier; ret (inl (l ++ [j])) else ret (inr l)) acc ts = Some (y, r) ->
    (y = acc /\ ts = r) \/ exists l ns, y = acc ++ l /\ ts = Period :: ns ++ r /\ writes_name l ns).
  { clear. induction n as [|n IH]; intros acc ts y r E; [discriminate|]. cbn [loop] in E. apply bind_inv in E as (z & r1 & E1 & E2). apply bind_inv in E1 as ([] & r2 & E3 & E4).
    - apply consume_true in E3. subst ts. apply bind_inv in E4 as (j & r3 & E4 & E5). apply identifier_inv in E4 as (t & -> & Wj). injection E5 as <- <-.
      destruct (IH _ _ _ _ E2) as [[-> ->]|(l & ns & -> & -> & W)]; right.
      + exists [j], [t]. split; [reflexivity|]. split; [reflexivity|]. constructor. exact Wj.
      + exists (j :: l), (t :: Period :: ns). split; [rewrite <- app_assoc; reflexivity|]. split; [reflexivity|]. constructor; assumption.
    - apply consume_false in E3. subst r2. injection E4 as <- <-. injection E2 as <- <-. left. auto. }
  destruct (G _ _ _ _ _ E2) as [[-> ->]|(l & ns & -> & -> & W)].
  - exists [t]. split; [reflexivity|]. constructor. exact Wi.
  - exists (t :: Period :: ns). split; [reflexivity|]. constructor; assumption.
Qed.
(* no option is a boolean *)
Definition no_boolean (o : string * value) : Prop := match snd o with VBoolean _ => False | _ => True end.
Lemma no_boolean_convert l : Forall no_boolean l -> existsb is_convert l = false.
Proof. intros F. induction F as [|[k v] l H F IH]; [reflexivity|]. cbn [existsb]. rewrite IH. destruct v as [| | | |[]]; try reflexivity; destruct H. Qed.
Lemma value_options_inv ts l r : value_options ts = Some (l, r) -> Forall no_boolean l.
Proof.
  unfold value_options. intros E. apply bind_inv in E as (u & r1 & _ & E). unfold looped in E. revert E.
  match goal with |- loop ?n ?body ?x ?ts = _ -> _ => refine (fun E0 => loop_inv body (Forall no_boolean) (Forall no_boolean) _ _ n x ts l r (Forall_nil _) E0) end; clear;
    intros x ts0 y r0 Hx E; apply bind_inv in E as (k & r2 & _ & E); apply bind_inv in E as (v & r3 & Ev & E); apply bind_inv in E as (c & r4 & _ & E); apply bind_inv in E as (e & r5 & _ & E);
    (assert (Hv : no_boolean (k, v)) by (unfold option_value, next in Ev; destruct r2 as [|t r2]; [discriminate|]; destruct t; try discriminate; injection Ev as <- <-; exact Logic.I));
    (destruct e; [|destruct c]); try discriminate; injection E as <- <-; apply Forall_app; (split; [exact Hx|constructor; [exact Hv|constructor]]).
Qed.

Section Parser.
Variable native_statement native_create native_query native_expr native_type : P nat.
Variable native_constraint native_option : P (option nat).
Variable upper : string -> string.
Notation pstmt := (parse_statement native_statement native_create native_query native_expr native_type native_constraint native_option upper).
Lemma copy_plan ts s r : parse_copy native_query upper ts = Some (s, r) -> exists src t p st o, plan_of s = Some (PCopy src t p st o).
Proof.
  unfold parse_copy. intros E. apply bind_inv in E as (src & r1 & _ & E). apply bind_inv in E as (b & r2 & El & E).
  assert (H : Forall no_boolean (list_of (cb_options b))).
  { unfold looped in El. refine (loop_inv _ (fun b => Forall no_boolean (list_of (cb_options b))) (fun b => Forall no_boolean (list_of (cb_options b))) _ _ _ _ _ b r2 _ El); [| |exact (Forall_nil _)].
    - intros x ts0 y r0 Hx E0. unfold copy_clause in E0. apply bind_inv in E0 as ([k|] & r3 & _ & E0); [|apply bind_inv in E0 as (u & r4 & _ & E0); discriminate].
      unfold copy_clause_of in E0.
      destruct (String.eqb k "STORED"); [repeat (apply bind_inv in E0 as (? & ? & _ & E0)); injection E0 as <- <-; exact Hx|].
      destruct (String.eqb k "TO"); [repeat (apply bind_inv in E0 as (? & ? & _ & E0)); injection E0 as <- <-; exact Hx|].
      destruct (String.eqb k "PARTITIONED"); [repeat (apply bind_inv in E0 as (? & ? & _ & E0)); injection E0 as <- <-; exact Hx|].
      destruct (String.eqb k "OPTIONS"); [|discriminate]. apply bind_inv in E0 as (? & ? & _ & E0). apply bind_inv in E0 as (l & r4 & Eo & E0). injection E0 as <- <-.
      exact (value_options_inv _ _ _ Eo).
    - intros x ts0 y r0 Hx E0. unfold copy_clause in E0. apply bind_inv in E0 as ([k|] & r3 & _ & E0).
      + exfalso. exact (copy_of_inl _ _ _ _ _ _ E0).
      + apply bind_inv in E0 as (u & r4 & _ & E0). injection E0 as <- <-. exact Hx. }
  destruct (cb_target b) as [t|]; [|discriminate]. injection E as <- <-. cbn [plan_of]. rewrite (no_boolean_convert _ H). eexists _, _, _, _, _. reflexivity.
Qed.
Lemma create_plan ts s r : parse_create native_create native_expr native_type native_constraint native_option upper ts = Some (s, r) ->
  match plan_of s with Some (PNative _) | Some (PCreateFunction _ _ _) | Some (PExternal _) | None => True | _ => False end.
Proof.
  assert (X : forall u ts s r, parse_create_external_table native_expr native_type native_constraint native_option upper u ts = Some (s, r) -> exists e, s = CreateExternalTable e).
  { intros u ts0 s0 r0 E. unfold parse_create_external_table in E. do 6 (apply bind_inv in E as (? & ? & _ & E)).
    destruct (b_file_type x9); [|discriminate]. destruct (b_location x9); [|discriminate]. injection E as <- <-. eexists. reflexivity. }
  unfold parse_create. intros E. apply bind_inv in E as (orr & r1 & _ & E). apply bind_inv in E as ([] & r2 & _ & E); [apply X in E as [e ->]; exact Logic.I|].
  apply bind_inv in E as ([] & r3 & _ & E); [apply bind_inv in E as (? & ? & _ & E); apply X in E as [e ->]; exact Logic.I|].
  apply bind_inv in E as ([] & r4 & _ & E).
  - unfold parse_create_function in E. apply bind_inv in E as (? & ? & _ & E). apply bind_inv in E as (? & ? & _ & E). apply bind_inv in E as (b & ? & _ & E). injection E as <- <-. destruct b; exact Logic.I.
  - apply bind_inv in E as (n & ? & _ & E). injection E as <- <-. exact Logic.I.
Qed.
Lemma plan_written ts s p : pstmt ts = Some (s, []) -> plan_of s = Some p -> written_as p ts.
Proof.
  unfold parse_statement. intros E Ep. apply bind_inv in E as ([k|] & r1 & E1 & E).
  2:{ cbn [statement_of] in E. apply bind_inv in E as (n & ? & _ & E). injection E as <- _. injection Ep as <-. exact Logic.I. }
  apply one_of_inv in E1 as (t & -> & K & I). cbn [In] in I. destruct I as [<-|[<-|[<-|[<-|[<-|[]]]]]]; cbn [statement_of String.eqb Ascii.eqb Bool.eqb] in E.
  - pose proof (create_plan _ _ _ E) as H. rewrite Ep in H. destruct p; try contradiction; cbn; [eauto|eauto|exact Logic.I].
  - unfold parse_convert in E. apply bind_inv in E as (l & r2 & E2 & E). apply literal_inv in E2 as (t2 & -> & W2). apply bind_inv in E as (? & r3 & E3 & E). apply expect_kw_inv in E3 as (t3 & -> & K3).
    apply bind_inv in E as (? & r4 & E4 & E). apply expect_kw_inv in E4 as (t4 & -> & K4). apply bind_inv in E as (n & r5 & E5 & E). apply object_name_inv in E5 as (ns & -> & Wn).
    injection E as <- ->. injection Ep as <-. rewrite app_nil_r. cbn. exists t, t2, t3, t4, ns. auto 8.
  - destruct (copy_plan _ _ _ E) as (a & b & c & d & e & Ec). rewrite Ec in Ep. injection Ep as <-. cbn. eauto.
  - unfold parse_vacuum in E. apply bind_inv in E as ([] & r2 & E2 & E).
    + apply keyword_true in E2 as (t2 & -> & K2). apply bind_inv in E as (n & r3 & E3 & E). apply object_name_inv in E3 as (ns & -> & Wn). injection E as <- ->. injection Ep as <-.
      rewrite app_nil_r. cbn. exists t, t2, ns, n. auto 8.
    + apply keyword_false in E2. subst r2. apply bind_inv in E as ([] & r3 & E3 & E); [|discriminate]. apply keyword_true in E3 as (t2 & -> & K2).
      apply bind_inv in E as (n & r4 & E4 & E). apply object_name_inv in E4 as (ns & -> & Wn). destruct n as [|i n]; [discriminate|]. injection E as <- ->. injection Ep as <-.
      rewrite app_nil_r. cbn. exists t, t2, ns, (i :: n). auto 8.
  - unfold parse_truncate in E. apply bind_inv in E as (? & r2 & E2 & E). apply expect_kw_inv in E2 as (t2 & -> & K2). apply bind_inv in E as (n & r3 & E3 & E).
    apply object_name_inv in E3 as (ns & -> & Wn). injection E as <- ->. injection Ep as <-. rewrite app_nil_r. cbn. exists t, t2, ns. auto.
Qed.
Definition five := ["CREATE"; "CONVERT"; "COPY"; "VACUUM"; "TRUNCATE"]%string.
Lemma name_end n ns : writes_name n ns -> object_name ns = Some (n, []).
Proof. intros W. pose proof (object_name_written n ns [] W Logic.I) as H. rewrite app_nil_r in H. exact H. Qed.
Lemma truncate_written n ts : written_as (PTruncate n) ts -> pstmt ts = Some (TruncateStatement true n None, []).
Proof.
  cbn [written_as]. intros (t1 & t2 & ns & -> & K1 & K2 & W). unfold parse_statement. fold five. rewrite (bind_some _ _ _ _ _ (one_of_kw five "TRUNCATE" t1 _ K1 eq_refl)).
  cbn [statement_of String.eqb Ascii.eqb Bool.eqb]. unfold parse_truncate. rewrite (bind_some _ _ _ _ _ (expect_kw "TABLE" t2 _ K2)). rewrite (bind_some _ _ _ _ _ (name_end n ns W)). reflexivity.
Qed.
Lemma vacuum_written d tb ts : written_as (PVacuum d tb) ts -> exists s, pstmt ts = Some (s, []) /\ plan_of s = Some (PVacuum d tb).
Proof.
  cbn [written_as]. intros (t1 & t2 & ns & n & -> & K1 & W & H). unfold parse_statement. fold five. rewrite (bind_some _ _ _ _ _ (one_of_kw five "VACUUM" t1 _ K1 eq_refl)).
  cbn [statement_of String.eqb Ascii.eqb Bool.eqb]. unfold parse_vacuum. destruct H as [(K2 & -> & ->)|(K2 & -> & ->)].
  - rewrite (bind_some _ _ _ _ _ (keyword_kw "TABLE" t2 _ K2)). rewrite (bind_some _ _ _ _ _ (name_end n ns W)). eexists. split; [reflexivity|]. reflexivity.
  - rewrite (bind_some _ _ _ _ _ (keyword_no "TABLE" (t2 :: ns) (kw_is _ _ _ K2))). rewrite (bind_some _ _ _ _ _ (keyword_kw "DATABASE" t2 _ K2)).
    rewrite (bind_some _ _ _ _ _ (name_end n ns W)). destruct n as [|i n]; [inversion W|]. eexists. split; reflexivity.
Qed.
Lemma convert_written l n ts : written_as (PConvert l n) ts -> exists s, pstmt ts = Some (s, []) /\ plan_of s = Some (PConvert l n).
Proof.
  cbn [written_as]. intros (t1 & t2 & t3 & t4 & ns & -> & K1 & W2 & K3 & K4 & W). unfold parse_statement. fold five. rewrite (bind_some _ _ _ _ _ (one_of_kw five "CONVERT" t1 _ K1 eq_refl)).
  cbn [statement_of String.eqb Ascii.eqb Bool.eqb]. unfold parse_convert. rewrite (bind_some _ _ _ _ _ (literal_written l t2 _ W2)).
  rewrite (bind_some _ _ _ _ _ (expect_kw "TO" t3 _ K3)). rewrite (bind_some _ _ _ _ _ (expect_kw "DELTA" t4 _ K4)). rewrite (bind_some _ _ _ _ _ (name_end n ns W)).
  eexists. split; reflexivity.
Qed.
Lemma function_written orr t os f name ns a b d : kw "CREATE" t -> writes_flag ["OR"; "REPLACE"]%string orr os -> kw "FUNCTION" f -> writes_name name ns -> kw "AS" a -> writes_literal d b ->
  pstmt (t :: os ++ f :: ns ++ [a; b]) = Some (CreateFunction orr name (BSingle d), []).
Proof.
  intros K Ho Kf Wn Ka Wb. unfold parse_statement. fold five. rewrite (bind_some _ _ _ _ _ (one_of_kw five "CREATE" t _ K eq_refl)).
  cbn [statement_of String.eqb Ascii.eqb Bool.eqb]. unfold parse_create. rewrite (bind_some _ _ _ orr (f :: ns ++ [a; b])).
  - rewrite (bind_some _ _ _ _ _ (keyword_no "EXTERNAL" (f :: _) (kw_is _ _ _ Kf))). rewrite (bind_some _ _ _ _ _ (keyword_no "UNBOUNDED" (f :: _) (kw_is _ _ _ Kf))).
    rewrite (bind_some _ _ _ _ _ (keyword_kw "FUNCTION" f _ Kf)). unfold parse_create_function.
    assert (Np : no_period [a; b]) by (destruct Ka as (v & q & ->); exact Logic.I).
    rewrite (bind_some _ _ _ _ _ (object_name_written name ns [a; b] Wn Np)). rewrite (bind_some _ _ _ _ _ (expect_kw "AS" a _ Ka)).
    assert (Eb : function_body [b] = Some (BSingle d, [])).
    { pose proof (literal_written d b [] Wb) as El. unfold function_body. destruct Wb as [->|[->|[->|[q ->]]]]; reflexivity. }
    rewrite (bind_some _ _ _ _ _ Eb). reflexivity.
  - destruct orr; cbn [writes_flag] in Ho.
    + inversion Ho as [|? t1 ? ? K1 H1]; subst. inversion H1 as [|? t2 ? ? K2 H2]; subst. inversion H2; subst. exact (keywords_two "OR" "REPLACE" t1 t2 _ K1 K2).
    + subst. exact (keywords_no1 "OR" ["REPLACE"]%string f _ (kw_is _ _ _ Kf)).
Qed.
End Parser.
