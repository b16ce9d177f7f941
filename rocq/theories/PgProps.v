(* C157: catalogs in one PostgreSQL database.
   Specification: PgSpec.v. Model: PgModel.v. *)
From Coq Require Import Ascii String List Arith Bool Lia.
From Verif Require Import CatalogModel PgModel PgSpec.
Import ListNotations.
Local Open Scope list_scope.

Section P.
Variable reserved : list ascii -> bool.
Variable other : list ascii -> option (list ascii * bool).
Variable lim : nat.
Notation named := (named reserved other).
Notation search_path := (search_path reserved other).
Notation create_schema := (create_schema reserved other).
Notation step := (step reserved other lim).
Notation run_from := (run_from reserved other lim).
Notation run := (run reserved other lim).
Notation ran_from := (ran_from reserved other lim).
Notation ran := (ran reserved other lim).
Notation alone := (alone lim).
Notation answers := (answers lim).

Lemma teqb_iff : forall a b, teqb a b = true <-> a = b.
Proof.
  induction a as [|x a IH]; destruct b as [|y b]; cbn; split; intros H; try discriminate; auto.
  - apply andb_true_iff in H. destruct H as [H1 H2]. apply Ascii.eqb_eq in H1. apply IH in H2. congruence.
  - injection H as -> ->. rewrite Ascii.eqb_refl. apply IH. reflexivity.
Qed.
Lemma teqb_refl : forall a, teqb a a = true. Proof. intros. apply teqb_iff. reflexivity. Qed.
Lemma teqb_neq : forall a b, a <> b -> teqb a b = false.
Proof. intros a b H. destruct (teqb a b) eqn:E; auto. apply teqb_iff in E. contradiction. Qed.
Lemma put_same : forall m x d, put m x d m = Some x. Proof. intros. unfold put. rewrite teqb_refl. reflexivity. Qed.
Lemma put_other : forall m x d k, k <> m -> put m x d k = d k. Proof. intros. unfold put. rewrite teqb_neq; auto. Qed.

(* servers whose name stands for the schema m *)
Definition for_schema (m : list ascii) (t : list ascii) : bool := match named t with Some (m', _) => teqb m' m | None => false end.
Lemma for_schema_iff : forall m t, for_schema m t = true <-> exists b, named t = Some (m, b).
Proof.
  intros m t. unfold for_schema. destruct (named t) as [[m' b]|]; split; intros H.
  - apply teqb_iff in H. subst. eauto.
  - destruct H as [b' H]. injection H as -> _. apply teqb_refl.
  - discriminate.
  - destruct H. discriminate.
Qed.

Lemma of_app : forall f a b, of f (a ++ b) = of f a ++ of f b.
Proof. intros. unfold of. rewrite filter_app, map_app. reflexivity. Qed.
Lemma answers_of_app : forall f a b, answers_of f (a ++ b) = answers_of f a ++ answers_of f b.
Proof. intros. unfold answers_of. rewrite filter_app, map_app. reflexivity. Qed.
Lemma alone_snoc : forall os o, alone (os ++ [o]) = fst (cstep lim Postgres o (alone os)).
Proof. intros. unfold PgSpec.alone. rewrite fold_left_app. reflexivity. Qed.
Lemma answers_state : forall os c l,
  fold_left (fun '(c, l) o => (fst (cstep lim Postgres o c), l ++ [snd (cstep lim Postgres o c)])) os (c, l)
  = (fold_left (fun c o => fst (cstep lim Postgres o c)) os c,
     snd (fold_left (fun '(c, l) o => (fst (cstep lim Postgres o c), l ++ [snd (cstep lim Postgres o c)])) os (c, l))).
Proof. induction os as [|o os IH]; intros; cbn [fold_left]; [reflexivity|]. apply IH. Qed.
Lemma answers_snoc : forall os o, answers (os ++ [o]) = answers os ++ [snd (cstep lim Postgres o (alone os))].
Proof. intros. unfold PgSpec.answers. rewrite fold_left_app. rewrite answers_state. reflexivity. Qed.

Lemma run_from_app : forall a b st, run_from st (a ++ b) = run_from (run_from st a) b.
Proof. induction a as [|e a IH]; intros; cbn [app PgModel.run_from]; auto. Qed.
Lemma ran_from_app : forall a b st, ran_from st (a ++ b) = ran_from st a ++ ran_from (run_from st a) b.
Proof. induction a as [|e a IH]; intros; cbn [app PgModel.run_from PgModel.ran_from]; auto. rewrite IH, app_assoc. reflexivity. Qed.
Lemma run_snoc : forall es e, run (es ++ [e]) = fst (step (run es) e).
Proof. intros. unfold PgModel.run. rewrite run_from_app. reflexivity. Qed.
Definition ran1 (st : state) (e : event) : list (list ascii * cop * bool) :=
  match e, snd (step st e) with
  | Do i _ o, Some b => match servers st i with Some s => [(configured s, o, b)] | None => [] end
  | _, _ => []
  end.
Lemma ran_snoc : forall es e, ran (es ++ [e]) = ran es ++ ran1 (run es) e.
Proof. intros. unfold PgModel.ran. rewrite ran_from_app. cbn [PgModel.ran_from]. rewrite app_nil_r. reflexivity. Qed.

Record good (st : state) (l : list (list ascii * cop * bool)) : Prop := {
  g_db : forall m c, db st m = Some (Some c) -> c = alone (of (for_schema m) l);
  g_none : forall m, (forall c, db st m <> Some (Some c)) -> of (for_schema m) l = [];
  g_ans : forall m, answers_of (for_schema m) l = answers (of (for_schema m) l);
  g_srv : forall i s, servers st i = Some s ->
    exists m b c, named (configured s) = Some (m, b) /\ db st m = Some (Some c) /\
                  forall path, In path (conns s) -> path = if b then [m; public] else [m] }.

Lemma step_boot : forall st l i t p, good st l -> good (fst (step st (Boot i t p))) l.
Proof.
  intros st l i t p G. cbn [PgModel.step]. destruct (servers st i) eqn:SI; [exact G|].
  unfold PgModel.search_path, PgModel.create_schema. destruct (named t) as [[m b]|] eqn:N; [|exact G].
  set (d' := match db st m with Some _ => db st | None => put m None (db st) end).
  assert (DN : d' m <> None). { subst d'. destruct (db st m) eqn:DM; [congruence|]. rewrite put_same. discriminate. }
  assert (DK : forall k c, d' k = Some (Some c) <-> db st k = Some (Some c)).
  { subst d'. intros k c. destruct (db st m) eqn:DM; [tauto|]. destruct (list_eq_dec Ascii.ascii_dec k m) as [->|NE].
    - rewrite put_same, DM. split; discriminate.
    - rewrite put_other by auto. tauto. }
  clearbody d'.
  assert (G1 : good (set_db st d') l).
  { destruct G as [g1 g2 g3 g4]. split; cbn [db servers set_db].
    - intros k c Hk. apply g1. apply DK, Hk.
    - intros k Hk. apply g2. intros c Hc. apply (Hk c). apply DK, Hc.
    - exact g3.
    - intros j s Hj. destruct (g4 j s Hj) as (m0 & b0 & c0 & A & B & C). exists m0, b0, c0. split; [exact A|]. split; [apply DK, B|exact C]. }
  destruct p; [exact G|exact G1|]. cbn [fst].
  assert (T : target (if b then [m; public] else [m]) d' = Some m).
  { destruct b; cbn [target]; destruct (d' m); congruence. }
  unfold setup. rewrite T.
  destruct (d' m) as [[c|]|] eqn:DM; [| |congruence].
  - (* the tables exist *)
    destruct G1 as [g1 g2 g3 g4]. split; cbn [db servers set_db set_server].
    + exact g1.
    + exact g2.
    + exact g3.
    + intros j s. destruct (Nat.eqb j i) eqn:JI.
      * intros Hs. injection Hs as <-. exists m, b, c. cbn [configured conns]. split; [exact N|]. split; [exact DM|].
        intros path [H|[]]. congruence.
      * apply g4.
  - (* they are made *)
    destruct G1 as [g1 g2 g3 g4]. cbn [db set_db] in *.
    assert (EM : of (for_schema m) l = []). { apply g2. intros c Hc. congruence. }
    split; cbn [db servers set_db set_server].
    + intros k c. destruct (list_eq_dec Ascii.ascii_dec k m) as [->|NE].
      * rewrite put_same. intros H. injection H as <-. rewrite EM. reflexivity.
      * rewrite put_other by auto. apply g1.
    + intros k Hk. destruct (list_eq_dec Ascii.ascii_dec k m) as [->|NE].
      * exact EM.
      * apply g2. intros c Hc. apply (Hk c). rewrite put_other by auto. exact Hc.
    + exact g3.
    + intros j s. destruct (Nat.eqb j i) eqn:JI.
      * intros Hs. injection Hs as <-. exists m, b, empty. cbn [configured conns]. split; [exact N|]. split; [apply put_same|].
        intros path [H|[]]. congruence.
      * intros Hs. destruct (g4 j s Hs) as (m0 & b0 & c0 & A & B & C).
        exists m0, b0. destruct (list_eq_dec Ascii.ascii_dec m0 m) as [->|NE].
        -- congruence.
        -- exists c0. rewrite put_other by auto. auto.
Qed.

Lemma In_without : forall (A : Type) k (l : list A) x, In x (without k l) -> In x l.
Proof.
  induction k as [|k IH]; destruct l as [|y l]; cbn; intros x H; auto.
  destruct H as [H|H]; auto.
Qed.

Lemma lookup_own : forall m b path d c, path = (if b : bool then [m; public] else [m]) -> d m = Some (Some c) -> lookup path d = Some (m, c).
Proof. intros m b path d c -> H. destruct b; cbn [lookup]; rewrite H; reflexivity. Qed.

Lemma step_good : forall st l e, good st l -> good (fst (step st e)) (l ++ ran1 st e).
Proof.
  intros st l e G. destruct e as [i t p|i|i k|i k o|i].
  - unfold ran1. rewrite app_nil_r. apply step_boot. exact G.
  - unfold ran1. rewrite app_nil_r. cbn [PgModel.step]. destruct (servers st i) as [s|] eqn:SI; [|exact G].
    destruct (search_path (configured s)) as [path|] eqn:SP; [|exact G].
    destruct G as [g1 g2 g3 g4]. cbn [fst]. split; cbn [db servers set_server]; auto.
    intros j s'. destruct (Nat.eqb j i) eqn:JI; [|apply g4].
    intros H. injection H as <-. cbn [configured conns]. destruct (g4 i s SI) as (m & b & c & A & B & C).
    exists m, b, c. split; [exact A|]. split; [exact B|]. intros q Hq. apply in_app_or in Hq. destruct Hq as [Hq|[Hq|[]]]; [auto|].
    subst q. unfold PgModel.search_path in SP. rewrite A in SP. congruence.
  - unfold ran1. rewrite app_nil_r. cbn [PgModel.step]. destruct (servers st i) as [s|] eqn:SI; [|exact G].
    destruct G as [g1 g2 g3 g4]. cbn [fst]. split; cbn [db servers set_server]; auto.
    intros j s'. destruct (Nat.eqb j i) eqn:JI; [|apply g4].
    intros H. injection H as <-. cbn [configured conns]. destruct (g4 i s SI) as (m & b & c & A & B & C).
    exists m, b, c. split; [exact A|]. split; [exact B|]. intros q Hq. apply C. eapply In_without. exact Hq.
  - unfold ran1. cbn [PgModel.step]. destruct (servers st i) as [s|] eqn:SI; [|cbn [fst snd]; rewrite app_nil_r; exact G].
    destruct (nth_error (conns s) k) as [path|] eqn:NK; [|cbn [fst snd]; rewrite app_nil_r; exact G].
    destruct G as [g1 g2 g3 g4].
    destruct (g4 i s SI) as (m & b & c & A & B & C).
    assert (P := C path (nth_error_In _ _ NK)).
    rewrite (lookup_own m b path (db st) c P B). cbn [fst snd].
    assert (CE := g1 m c B).
    assert (FM : for_schema m (configured s) = true). { apply for_schema_iff. eauto. }
    assert (FK : forall k0, k0 <> m -> for_schema k0 (configured s) = false).
    { intros k0 NE. destruct (for_schema k0 (configured s)) eqn:E; auto. apply for_schema_iff in E. destruct E as [b' E]. congruence. }
    assert (OM : of (for_schema m) (l ++ [(configured s, o, snd (cstep lim Postgres o c))]) = of (for_schema m) l ++ [o]).
    { rewrite of_app. unfold of at 2. cbn [filter fst]. rewrite FM. reflexivity. }
    assert (OK : forall k0, k0 <> m -> of (for_schema k0) (l ++ [(configured s, o, snd (cstep lim Postgres o c))]) = of (for_schema k0) l).
    { intros k0 NE. rewrite of_app. unfold of at 2. cbn [filter fst]. rewrite FK by auto. apply app_nil_r. }
    assert (AM : answers_of (for_schema m) (l ++ [(configured s, o, snd (cstep lim Postgres o c))])
                 = answers_of (for_schema m) l ++ [snd (cstep lim Postgres o c)]).
    { rewrite answers_of_app. unfold answers_of at 2. cbn [filter fst]. rewrite FM. reflexivity. }
    assert (AK : forall k0, k0 <> m -> answers_of (for_schema k0) (l ++ [(configured s, o, snd (cstep lim Postgres o c))]) = answers_of (for_schema k0) l).
    { intros k0 NE. rewrite answers_of_app. unfold answers_of at 2. cbn [filter fst]. rewrite FK by auto. apply app_nil_r. }
    split; cbn [db servers set_db].
    + intros k0 c0. destruct (list_eq_dec Ascii.ascii_dec k0 m) as [->|NE].
      * rewrite put_same, OM, alone_snoc, <- CE. congruence.
      * rewrite put_other, OK by auto. apply g1.
    + intros k0 Hk. destruct (list_eq_dec Ascii.ascii_dec k0 m) as [->|NE].
      * exfalso. eapply Hk. apply put_same.
      * rewrite OK by auto. apply g2. intros c0 Hc. apply (Hk c0). rewrite put_other by auto. exact Hc.
    + intros k0. destruct (list_eq_dec Ascii.ascii_dec k0 m) as [->|NE].
      * rewrite AM, OM, answers_snoc, <- CE, g3. reflexivity.
      * rewrite AK, OK by auto. apply g3.
    + intros j s' Hj. destruct (g4 j s' Hj) as (m0 & b0 & c0 & A0 & B0 & C0).
      destruct (list_eq_dec Ascii.ascii_dec m0 m) as [->|NE].
      * exists m, b0, (fst (cstep lim Postgres o c)). split; [exact A0|]. split; [apply put_same|exact C0].
      * exists m0, b0, c0. rewrite put_other by auto. auto.
  - unfold ran1. rewrite app_nil_r. cbn [PgModel.step]. destruct G as [g1 g2 g3 g4]. cbn [fst]. split; cbn [db servers set_server]; auto.
    intros j s'. destruct (Nat.eqb j i) eqn:JI; [discriminate|apply g4].
Qed.
Lemma good_init : good init [].
Proof.
  split; cbn [db servers init].
  - intros m c. destruct (teqb m public); discriminate.
  - reflexivity.
  - reflexivity.
  - discriminate.
Qed.
Lemma good_run : forall es, good (run es) (ran es).
Proof.
  induction es as [|e es IH] using rev_ind; [apply good_init|]. rewrite run_snoc, ran_snoc. apply step_good. exact IH.
Qed.

(* Whatever servers start, stop, crash while starting, open and close connections: every connection of a running server sees the
   catalog that the statements of all servers whose name stands for the same schema have made, and nothing else; they were answered accordingly. *)
Theorem c157_shared : forall es i s, servers (run es) i = Some s ->
  exists m b, named (configured s) = Some (m, b) /\
    (forall k, k < length (conns s) -> sees (run es) i k = Some (alone (of (for_schema m) (ran es)))) /\
    answers_of (for_schema m) (ran es) = answers (of (for_schema m) (ran es)).
Proof.
  intros es i s H. destruct (good_run es) as [g1 g2 g3 g4]. destruct (g4 i s H) as (m & b & c & A & B & C).
  exists m, b. split; [exact A|]. split; [|apply g3].
  intros k Hk. unfold sees. rewrite H. destruct (nth_error (conns s) k) as [path|] eqn:NK.
  - rewrite (lookup_own m b path _ c (C path (nth_error_In _ _ NK)) B). cbn [option_map snd]. f_equal. apply g1. exact B.
  - apply nth_error_None in NK. lia.
Qed.

Lemma lower_word : forall c, lower_char c = true -> start_char c = true /\ upper_char c = false /\ Ascii.eqb c "-" = false.
Proof.
  intros c H. destruct c as [[|] [|] [|] [|] [|] [|] [|] [|]]; vm_compute in H; try discriminate; vm_compute; auto.
Qed.
Lemma digit_word : forall c, digit c = true -> word_char c = true /\ upper_char c = false /\ Ascii.eqb c "-" = false.
Proof.
  intros c H. destruct c as [[|] [|] [|] [|] [|] [|] [|] [|]]; vm_compute in H; try discriminate; vm_compute; auto.
Qed.
Lemma uncomment_none : forall t, forallb (fun c => negb (Ascii.eqb c "-")) t = true -> uncomment t = (t, false).
Proof.
  induction t as [|c t IH]; cbn [forallb uncomment]; intros H; [reflexivity|]. apply andb_true_iff in H. destruct H as [H1 H2].
  destruct (Ascii.eqb c "-"); [discriminate|]. cbn [andb]. rewrite IH by exact H2. reflexivity.
Qed.
Lemma low_id : forall c, upper_char c = false -> low c = c. Proof. intros c H. unfold low. rewrite H. reflexivity. Qed.

Lemma named_word : forall t, word t = true -> reserved (map low t) = false -> system (map low t) = false ->
  named t = Some (firstn max_name (map low t), true).
Proof.
  intros t W R Y. destruct t as [|c r]; [discriminate|]. cbn [word] in W. apply andb_true_iff in W. destruct W as [W1 W2].
  assert (SW : forall x, word_char x = true -> Ascii.eqb x "-" = false).
  { intros x Hx. destruct (Ascii.eqb x "-") eqn:E; auto. apply Ascii.eqb_eq in E. subst. vm_compute in Hx. discriminate. }
  assert (WC : word_char c = true). { unfold word_char. rewrite W1. reflexivity. }
  unfold PgModel.named.
  assert (F : forallb (fun c0 => (word_char c0 || Ascii.eqb c0 "-")%bool) (c :: r) = true).
  { cbn [forallb]. rewrite WC. cbn [orb andb]. rewrite forallb_forall in *. intros x Hx. rewrite (W2 x Hx). reflexivity. }
  rewrite F. rewrite uncomment_none.
  - cbn [word]. rewrite W1, W2, R, Y. reflexivity.
  - cbn [forallb]. rewrite (SW c WC). cbn [negb andb]. rewrite forallb_forall in *. intros x Hx. rewrite (SW x (W2 x Hx)). reflexivity.
Qed.

Lemma system_iff : forall t, system t = true <-> firstn 3 t = list_ascii_of_string "pg_".
Proof.
  intros t. destruct t as [|a [|b [|c r]]]; cbn [system firstn list_ascii_of_string]; split; intros H; try discriminate.
  - apply andb_true_iff in H. destruct H as [H H3]. apply andb_true_iff in H. destruct H as [H1 H2].
    apply Ascii.eqb_eq in H1, H2, H3. subst. reflexivity.
  - injection H as -> -> ->. reflexivity.
Qed.

Lemma as_is_low : forall t, as_is reserved t -> word t = true /\ map low t = t.
Proof.
  intros t ((c & r & -> & H1 & H2) & _). destruct (lower_word c H1) as (S1 & U1 & _).
  rewrite forallb_forall in H2.
  assert (HX : forall x, In x r -> word_char x = true /\ upper_char x = false).
  { intros x Hx. specialize (H2 x Hx). apply orb_true_iff in H2. destruct H2 as [H2|H2].
    - destruct (lower_word x H2) as (A & B & _). split; [|exact B]. unfold word_char. rewrite A. reflexivity.
    - destruct (digit_word x H2) as (A & B & _). auto. }
  split.
  - cbn [word]. rewrite S1. cbn [andb]. rewrite forallb_forall. intros x Hx. apply HX, Hx.
  - cbn [map]. rewrite low_id by exact U1. f_equal. rewrite <- map_id. apply map_ext_in. intros x Hx. apply low_id, HX, Hx.
Qed.
Lemma named_as_is : forall t, as_is reserved t -> named t = Some (t, true).
Proof.
  intros t H. destruct (as_is_low t H) as (W & L). destruct H as (_ & LE & R & Y). rewrite named_word; rewrite ?L; auto.
  - rewrite firstn_all2 by (unfold max_name; lia). reflexivity.
  - destruct (system t) eqn:E; auto. apply system_iff in E. contradiction.
Qed.

Definition plain_names (es : list event) : Prop :=
  Forall (fun e => match e with Boot _ t _ => as_is reserved t | _ => True end) es.
Lemma configured_boot : forall es i s, servers (run es) i = Some s -> exists j p, In (Boot j (configured s) p) es.
Proof.
  intros es. induction es as [|e es IH] using rev_ind; intros i s H; [discriminate|].
  rewrite run_snoc in H.
  assert (K : (exists i', servers (run es) i' = Some s) \/
              (exists i' s', servers (run es) i' = Some s' /\ configured s = configured s') \/ (exists j p, e = Boot j (configured s) p)).
  { destruct e as [i' t p|i'|i' k|i' k o|i']; cbn [PgModel.step] in H.
    - destruct (servers (run es) i') eqn:SI; [eauto|].
      destruct (search_path t) as [path|]; [|eauto].
      destruct (create_schema t (db (run es))) as [d|]; destruct p; cbn [fst servers set_db set_server] in H; eauto.
      destruct (Nat.eqb i i'); [|eauto]. injection H as <-. right. right. eauto.
    - destruct (servers (run es) i') as [s0|] eqn:SI; [|eauto]. destruct (search_path (configured s0)); [|eauto].
      cbn [fst servers set_server] in H. destruct (Nat.eqb i i'); [|eauto]. injection H as <-. right. left. exists i', s0. auto.
    - destruct (servers (run es) i') as [s0|] eqn:SI; [|eauto].
      cbn [fst servers set_server] in H. destruct (Nat.eqb i i'); [|eauto]. injection H as <-. right. left. exists i', s0. auto.
    - destruct (servers (run es) i') as [s0|] eqn:SI; [|eauto]. destruct (nth_error (conns s0) k); [|eauto].
      destruct (lookup l (db (run es))) as [[m c]|]; cbn [fst servers set_db] in H; eauto.
    - cbn [fst servers set_server] in H. destruct (Nat.eqb i i'); [discriminate|eauto]. }
  destruct K as [[i' K]|[(i' & s' & K & E)|(j & p & K)]].
  - destruct (IH i' s K) as (j & p & I0). exists j, p. apply in_or_app. auto.
  - destruct (IH i' s' K) as (j & p & I0). exists j, p. rewrite E. apply in_or_app. auto.
  - exists j, p. subst e. apply in_or_app. right. left. reflexivity.
Qed.
Lemma ran_boot : forall es t o b, In (t, o, b) (ran es) -> exists j p, In (Boot j t p) es.
Proof.
  intros es. induction es as [|e es IH] using rev_ind; intros t o b H; [contradiction|].
  rewrite ran_snoc in H. apply in_app_or in H. destruct H as [H|H].
  - destruct (IH t o b H) as (j & p & I0). exists j, p. apply in_or_app. auto.
  - unfold ran1 in H. destruct e; try contradiction. destruct (snd (step (run es) (Do i k o0))); [|contradiction].
    destruct (servers (run es) i) as [s|] eqn:SI; [|contradiction]. destruct H as [H|[]]. injection H as <- _ _.
    destruct (configured_boot es i s SI) as (j & p & I0). exists j, p. apply in_or_app. auto.
Qed.

Lemma filter_same : forall (A : Type) (f g : A -> bool) l, (forall x, In x l -> f x = g x) -> filter f l = filter g l.
Proof.
  induction l as [|x l IH]; intros H; cbn; [reflexivity|]. rewrite (H x) by (left; reflexivity). rewrite IH; [reflexivity|].
  intros y Hy. apply H. right. exact Hy.
Qed.
(* C157 for names that PostgreSQL takes as they are: every server has the catalog of its own name, over restarts and
   crashes, and every statement is answered as if no server with another name existed. *)
Theorem c157_isolated_partial : forall es i s, plain_names es -> servers (run es) i = Some s ->
  (forall k, k < length (conns s) -> sees (run es) i k = Some (alone (of (teqb (configured s)) (ran es)))) /\
  answers_of (teqb (configured s)) (ran es) = answers (of (teqb (configured s)) (ran es)).
Proof.
  intros es i s P H. destruct (c157_shared es i s H) as (m & b & N & S1 & S2).
  unfold plain_names in P. rewrite Forall_forall in P.
  destruct (configured_boot es i s H) as (j & p & I0). assert (AI := P _ I0). cbn in AI.
  rewrite (named_as_is _ AI) in N. injection N as <- <-.
  assert (E : filter (fun x => for_schema (configured s) (fst (fst x))) (ran es) = filter (fun x => teqb (configured s) (fst (fst x))) (ran es)).
  { apply filter_same. intros [[t o] a] Hx. cbn [fst]. destruct (ran_boot es t o a Hx) as (j' & p' & I1). assert (AT := P _ I1). cbn in AT.
    unfold for_schema. rewrite (named_as_is _ AT). destruct (teqb t (configured s)) eqn:E1.
    - apply teqb_iff in E1. subst. symmetry. apply teqb_refl.
    - destruct (teqb (configured s) t) eqn:E2; auto. apply teqb_iff in E2. subst. rewrite teqb_refl in E1. discriminate. }
  unfold of, answers_of in *. rewrite E in S1, S2. auto.
Qed.

Lemma named_boot : forall es i t m b, named t = Some (m, b) -> servers (run es) i = None ->
  servers (run (es ++ [Boot i t Ready])) i
  = Some {| configured := t; conns := [if b then [m; public] else [m]]; ready := true |}.
Proof.
  intros es i t m b N H. rewrite run_snoc. cbn [PgModel.step]. rewrite H. unfold PgModel.search_path, PgModel.create_schema. rewrite N.
  cbn [fst servers set_server]. rewrite Nat.eqb_refl. reflexivity.
Qed.
(* A server whose name is taken as it is starts, in any state of the database, and with the catalog of its name. *)
Theorem c157_starts_partial : forall es i t, plain_names es -> as_is reserved t -> servers (run es) i = None ->
  sees (run (es ++ [Boot i t Ready])) i 0 = Some (alone (of (teqb t) (ran es))).
Proof.
  intros es i t P A H. assert (B := named_boot es i t t true (named_as_is t A) H).
  assert (P' : plain_names (es ++ [Boot i t Ready])).
  { apply Forall_app. split; [exact P|]. constructor; [exact A|constructor]. }
  destruct (c157_isolated_partial _ _ _ P' B) as [S1 _]. rewrite S1 by (cbn; lia). cbn [configured]. rewrite ran_snoc.
  unfold ran1. rewrite app_nil_r. reflexivity.
Qed.

(* Two names that stand for the same schema: what one server makes the other has. *)
Lemma share : forall t1 t2 m b1 b2 o, named t1 = Some (m, b1) -> named t2 = Some (m, b2) ->
  let es := [Boot 1 t1 Ready; Boot 2 t2 Ready; Do 1 0 o] in
  ran es = [(t1, o, snd (cstep lim Postgres o empty))] /\ option_map configured (servers (run es) 2) = Some t2 /\ sees (run es) 2 0 = Some (alone [o]).
Proof.
  intros t1 t2 m b1 b2 o N1 N2 es.
  assert (B1 := named_boot [] 1 t1 m b1 N1 eq_refl). cbn [app] in B1.
  assert (H2 : servers (run [Boot 1 t1 Ready]) 2 = None).
  { unfold PgModel.run. cbn [PgModel.run_from PgModel.step servers init]. unfold PgModel.search_path, PgModel.create_schema. rewrite N1. reflexivity. }
  assert (B2 := named_boot [Boot 1 t1 Ready] 2 t2 m b2 N2 H2). cbn [app] in B2.
  assert (B3 : servers (run [Boot 1 t1 Ready; Boot 2 t2 Ready]) 1 = servers (run [Boot 1 t1 Ready]) 1).
  { change [Boot 1 t1 Ready; Boot 2 t2 Ready] with ([Boot 1 t1 Ready] ++ [Boot 2 t2 Ready]). rewrite run_snoc.
    cbn [PgModel.step]. rewrite H2. unfold PgModel.search_path, PgModel.create_schema. rewrite N2. reflexivity. }
  assert (G2 := good_run [Boot 1 t1 Ready; Boot 2 t2 Ready]).
  assert (R2 : ran [Boot 1 t1 Ready; Boot 2 t2 Ready] = []) by reflexivity.
  rewrite R2 in G2. destruct G2 as [g1 _ _ g4].
  destruct (g4 1 _ (eq_trans B3 B1)) as (m' & b' & c & A & D & C). cbn [configured conns] in *. rewrite N1 in A. injection A as <- <-.
  assert (CE := g1 m c D). cbn in CE. subst c.
  assert (ES : es = [Boot 1 t1 Ready; Boot 2 t2 Ready] ++ [Do 1 0 o]) by reflexivity.
  assert (ST : step (run [Boot 1 t1 Ready; Boot 2 t2 Ready]) (Do 1 0 o)
               = (set_db (run [Boot 1 t1 Ready; Boot 2 t2 Ready])
                         (put m (Some (fst (cstep lim Postgres o empty))) (db (run [Boot 1 t1 Ready; Boot 2 t2 Ready]))),
                  Some (snd (cstep lim Postgres o empty)))).
  { cbn [PgModel.step]. rewrite B3, B1. cbn [conns nth_error]. rewrite (lookup_own m b1 _ _ _ eq_refl D). reflexivity. }
  rewrite ES, ran_snoc, R2, run_snoc. unfold ran1. rewrite ST, B3, B1. cbn [fst snd app configured].
  split; [reflexivity|]. cbn [servers set_db]. rewrite B2. split; [reflexivity|].
  unfold sees. cbn [servers set_db db]. rewrite B2. cbn [conns nth_error].
  rewrite (lookup_own m b2 _ _ (fst (cstep lim Postgres o empty)) eq_refl); [reflexivity|]. apply put_same.
Qed.

Lemma in_lower_case_low : forall t, in_lower_case t = map low t.
Proof. intros t. unfold in_lower_case. apply map_ext. intros c. destruct c as [[|] [|] [|] [|] [|] [|] [|] [|]]; vm_compute; reflexivity. Qed.
Lemma low_start : forall c, lower_char (low c) = true -> start_char c = true.
Proof. intros c H. destruct c as [[|] [|] [|] [|] [|] [|] [|] [|]]; vm_compute in H; try discriminate; vm_compute; reflexivity. Qed.
Lemma low_word : forall c, (lower_char (low c) || digit (low c))%bool = true -> word_char c = true.
Proof. intros c H. destruct c as [[|] [|] [|] [|] [|] [|] [|] [|]]; vm_compute in H; try discriminate; vm_compute; reflexivity. Qed.
Lemma as_is_word : forall t, as_is reserved (map low t) -> word t = true.
Proof.
  intros t ((c & r & E & C & F) & _). destruct t as [|x t]; [discriminate E|]. cbn [map] in E. injection E as <- <-. cbn [word]. rewrite (low_start x C). cbn [andb].
  clear C. induction t as [|y t IH]; [reflexivity|]. cbn [map forallb] in F |- *. apply andb_true_iff in F as [F1 F2]. rewrite (low_word y F1). exact (IH F2).
Qed.
(* C157 refuted: every name with a capital letter shares its catalog with the name in small letters *)
Theorem c157_case_refuted : forall t d, as_is reserved (in_lower_case t) -> t <> in_lower_case t ->
  exists es, of (teqb t) (ran es) = [] /\ option_map configured (servers (run es) 2) = Some t /\
             sees (run es) 2 0 = Some (alone [CreateDb d]) /\ alone [CreateDb d] <> alone [].
Proof.
  intros t d A0 NE0. assert (A := A0). assert (NE := NE0). rewrite in_lower_case_low in A, NE. assert (W := as_is_word t A). assert (N1 := named_as_is _ A). destruct (as_is_low _ A) as (_ & LL).
  destruct A as (_ & LE & R & Y).
  assert (N2 : named t = Some (map low t, true)).
  { rewrite named_word; auto.
    - rewrite firstn_all2 by (unfold max_name; lia). reflexivity.
    - destruct (system (map low t)) eqn:E; auto. apply system_iff in E. contradiction. }
  destruct (share (map low t) t (map low t) true true (CreateDb d) N1 N2) as (S1 & S2 & S3).
  exists [Boot 1 (map low t) Ready; Boot 2 t Ready; Do 1 0 (CreateDb d)].
  split; [|split; [exact S2|split; [exact S3|discriminate]]].
  rewrite S1. unfold of. cbn [filter fst]. rewrite teqb_neq by auto. reflexivity.
Qed.
(* and two names that differ only after 63 bytes share theirs *)
Theorem c157_long_refuted : forall t a b d, as_is reserved t -> length t = 63 ->
  as_is (fun _ => false) ("a"%char :: a) -> as_is (fun _ => false) ("a"%char :: b) -> reserved (t ++ a) = false -> reserved (t ++ b) = false -> a <> b ->
  exists es, of (teqb (t ++ b)) (ran es) = [] /\ option_map configured (servers (run es) 2) = Some (t ++ b) /\
             sees (run es) 2 0 = Some (alone [CreateDb d]) /\ alone [CreateDb d] <> alone [].
Proof.
  intros t a b d A L HA HB RA RB NE. destruct (as_is_low t A) as (W & LT). destruct A as (_ & _ & _ & Y).
  assert (K : forall x, as_is (fun _ => false) ("a"%char :: x) -> reserved (t ++ x) = false -> named (t ++ x) = Some (t, true)).
  { intros x ((c & r & E & _ & F) & _) RX. injection E as <- <-. 
    assert (LX : map low x = x /\ forallb word_char x = true).
    { rewrite forallb_forall in F. split.
      - rewrite <- map_id. apply map_ext_in. intros y Hy. specialize (F y Hy). apply orb_true_iff in F.
        apply low_id. destruct F as [F|F]; [destruct (lower_word y F) as (_ & B0 & _)|destruct (digit_word y F) as (_ & B0 & _)]; exact B0.
      - rewrite forallb_forall. intros y Hy. specialize (F y Hy). apply orb_true_iff in F.
        destruct F as [F|F]; [destruct (lower_word y F) as (A0 & _); unfold word_char; rewrite A0; reflexivity|destruct (digit_word y F) as (A0 & _); exact A0]. }
    destruct LX as [LX WX].
    assert (Y0 : system (t ++ x) = false).
    { destruct (system (t ++ x)) eqn:E0; auto. apply system_iff in E0. rewrite firstn_app in E0. replace (3 - length t) with 0 in E0 by lia.
      cbn [firstn] in E0. rewrite app_nil_r in E0. contradiction. }
    rewrite named_word.
    - rewrite map_app, LT, LX. unfold max_name. rewrite <- L. rewrite firstn_app, Nat.sub_diag, firstn_all. cbn [firstn]. rewrite app_nil_r. reflexivity.
    - destruct t as [|c r]; [discriminate|]. cbn [word app] in *. apply andb_true_iff in W. destruct W as [W1 W2]. rewrite W1, forallb_app, W2, WX. reflexivity.
    - rewrite map_app, LT, LX. exact RX.
    - rewrite map_app, LT, LX. exact Y0. }
  destruct (share (t ++ a) (t ++ b) t true true (CreateDb d) (K a HA RA) (K b HB RB)) as (S1 & S2 & S3).
  exists [Boot 1 (t ++ a) Ready; Boot 2 (t ++ b) Ready; Do 1 0 (CreateDb d)].
  split; [|split; [exact S2|split; [exact S3|discriminate]]].
  rewrite S1. unfold of. cbn [filter fst]. rewrite teqb_neq; [reflexivity|]. intros E. apply app_inv_head in E. congruence.
Qed.

Definition dashes : list ascii := list_ascii_of_string "--".
Lemma uncomment_cut : forall t r, forallb (fun c => negb (Ascii.eqb c "-")) t = true -> uncomment (t ++ dashes ++ r) = (t, true).
Proof.
  induction t as [|c t IH]; intros r H; [reflexivity|]. cbn [forallb] in H. apply andb_true_iff in H. destruct H as [H1 H2].
  cbn [app uncomment]. destruct (Ascii.eqb c "-"); [discriminate|]. cbn [andb]. rewrite IH by exact H2. reflexivity.
Qed.
Lemma as_is_no_dash : forall t, as_is reserved t -> forallb (fun c => negb (Ascii.eqb c "-")) t = true /\ forallb word_char t = true.
Proof.
  intros t ((c & r & -> & H1 & H2) & _). rewrite forallb_forall in H2. cbn [forallb]. destruct (lower_word c H1) as (A & _ & B).
  rewrite B. unfold word_char at 1. rewrite A. cbn [negb andb orb]. rewrite !forallb_forall.
  split; intros x Hx; specialize (H2 x Hx); apply orb_true_iff in H2; destruct H2 as [H2|H2].
  - destruct (lower_word x H2) as (_ & _ & E). rewrite E. reflexivity.
  - destruct (digit_word x H2) as (_ & _ & E). rewrite E. reflexivity.
  - destruct (lower_word x H2) as (E & _). unfold word_char. rewrite E. reflexivity.
  - destruct (digit_word x H2) as (E & _). exact E.
Qed.
(* and so do two names that differ only after two dashes: they begin a comment *)
Theorem c157_comment_refuted : forall t a b d, as_is reserved t -> forallb word_char a = true -> forallb word_char b = true -> a <> b ->
  exists es, of (teqb (t ++ dashes ++ b)) (ran es) = [] /\ option_map configured (servers (run es) 2) = Some (t ++ dashes ++ b) /\
             sees (run es) 2 0 = Some (alone [CreateDb d]) /\ alone [CreateDb d] <> alone [].
Proof.
  intros t a b d A HA HB NE. destruct (as_is_low t A) as (W & LT). destruct (as_is_no_dash t A) as (ND & WT). assert (A0 := A). destruct A0 as (_ & LE & R & Y).
  assert (K : forall x, forallb word_char x = true -> named (t ++ dashes ++ x) = Some (t, false)).
  { intros x HX. unfold PgModel.named.
    assert (F : forallb (fun c => (word_char c || Ascii.eqb c "-")%bool) (t ++ dashes ++ x) = true).
    { rewrite !forallb_app. rewrite !andb_true_iff. rewrite forallb_forall in WT, HX. repeat split; [|].
      - rewrite forallb_forall. intros y Hy. rewrite (WT y Hy). reflexivity.
      - rewrite forallb_forall. intros y Hy. rewrite (HX y Hy). reflexivity. }
    rewrite F, uncomment_cut by exact ND. rewrite W, LT, R. destruct (system t) eqn:E; [apply system_iff in E; contradiction|].
    cbn [andb negb]. rewrite firstn_all2 by (unfold max_name; lia). reflexivity. }
  destruct (share (t ++ dashes ++ a) (t ++ dashes ++ b) t false false (CreateDb d) (K a HA) (K b HB)) as (S1 & S2 & S3).
  exists [Boot 1 (t ++ dashes ++ a) Ready; Boot 2 (t ++ dashes ++ b) Ready; Do 1 0 (CreateDb d)].
  split; [|split; [exact S2|split; [exact S3|discriminate]]].
  rewrite S1. unfold of. cbn [filter fst]. rewrite teqb_neq; [reflexivity|]. intros E. apply app_inv_head in E. apply app_inv_head in E. congruence.
Qed.

Lemma refused : forall t es i s, named t = None -> servers (run es) i = Some s -> configured s <> t.
Proof. intros t es i s N H. destruct (c157_shared es i s H) as (m & b & N' & _). congruence. Qed.
(* A server whose schema has a single dash, or begins with a digit, never starts. *)
Theorem c157_dash_refuted : forall a b es i s, forallb word_char a = true -> forallb word_char b = true ->
  servers (run es) i = Some s -> configured s <> a ++ "-"%char :: b.
Proof.
  intros a b es i s HA HB. apply refused. unfold PgModel.named.
  assert (D : forall x, forallb word_char x = true -> forallb (fun c => negb (Ascii.eqb c "-")) x = true).
  { intros x H. rewrite forallb_forall in *. intros y Hy. specialize (H y Hy). destruct (Ascii.eqb y "-") eqn:E; auto.
    apply Ascii.eqb_eq in E. subst. vm_compute in H. discriminate. }
  assert (F : forallb (fun c => (word_char c || Ascii.eqb c "-")%bool) (a ++ "-"%char :: b) = true).
  { rewrite forallb_app. cbn [forallb]. rewrite forallb_forall in HA, HB. apply andb_true_iff. split.
    - rewrite forallb_forall. intros y Hy. rewrite (HA y Hy). reflexivity.
    - apply andb_true_iff. split; [reflexivity|]. rewrite forallb_forall. intros y Hy. rewrite (HB y Hy). reflexivity. }
  rewrite F.
  assert (UA : forall x r, forallb (fun c => negb (Ascii.eqb c "-")) x = true -> uncomment (x ++ r) = (x ++ fst (uncomment r), snd (uncomment r))).
  { induction x as [|c x IH]; intros r H; cbn [app].
    - destruct (uncomment r); reflexivity.
    - cbn [forallb] in H. apply andb_true_iff in H. destruct H as [H1 H2]. cbn [uncomment]. destruct (Ascii.eqb c "-"); [discriminate|].
      cbn [andb]. rewrite IH by exact H2. reflexivity. }
  assert (B0 : uncomment ("-"%char :: b) = ("-"%char :: b, false)).
  { assert (DB := D b HB). cbn [uncomment]. rewrite (uncomment_none b DB). cbn [fst snd]. destruct b as [|c b']; [reflexivity|]. cbn [forallb] in DB.
    destruct (Ascii.eqb c "-"); [discriminate|]. reflexivity. }
  assert (U : uncomment (a ++ "-"%char :: b) = (a ++ "-"%char :: b, false)).
  { rewrite UA by (apply D; exact HA). rewrite B0. reflexivity. }
  rewrite U.
  assert (W : word (a ++ "-"%char :: b) = false).
  { destruct a as [|c a]; [reflexivity|]. cbn [app word]. rewrite forallb_app. cbn [forallb].
    change (word_char "-") with false. cbn [andb]. rewrite !andb_false_r. reflexivity. }
  rewrite W. reflexivity.
Qed.
Theorem c157_digit_refuted : forall a b es i s, digit a = true -> forallb word_char b = true ->
  servers (run es) i = Some s -> configured s <> a :: b.
Proof.
  intros a b es i s HA HB. apply refused. unfold PgModel.named. destruct (digit_word a HA) as (WA & _ & DA).
  assert (F : forallb (fun c => (word_char c || Ascii.eqb c "-")%bool) (a :: b) = true).
  { cbn [forallb]. rewrite WA. cbn [orb andb]. rewrite forallb_forall in *. intros y Hy. rewrite (HB y Hy). reflexivity. }
  rewrite F, uncomment_none.
  - assert (S0 : start_char a = false). { destruct a as [[|] [|] [|] [|] [|] [|] [|] [|]]; vm_compute in HA; try discriminate; reflexivity. }
    cbn [word]. rewrite S0. reflexivity.
  - cbn [forallb]. rewrite DA. cbn [negb andb]. rewrite forallb_forall in *. intros y Hy. specialize (HB y Hy).
    destruct (Ascii.eqb y "-") eqn:E; auto. apply Ascii.eqb_eq in E. subst. vm_compute in HB. discriminate.
Qed.
End P.

(* Examples *)
Definition ex_t (s : string) : list ascii := list_ascii_of_string s.
Definition ex_reserved (t : list ascii) : bool := existsb (teqb t) (map ex_t ["table"; "user"; "default"]%string).
Definition ex_other (_ : list ascii) : option (list ascii * bool) := None.
Notation ex_run := (run ex_reserved ex_other 100).
Notation ex_ran := (ran ex_reserved ex_other 100).
Example ex_as_is : as_is ex_reserved (ex_t "tenant_1") /\ as_is ex_reserved (ex_t "public").
Proof.
  assert (H : forall s c r, ex_t s = c :: r -> lower_char c = true -> forallb (fun x => lower_char x || digit x)%bool r = true ->
              Nat.leb (length (ex_t s)) 63 = true -> ex_reserved (ex_t s) = false -> system (ex_t s) = false -> as_is ex_reserved (ex_t s)).
  { intros s c r E A B C D F. split; [exists c, r; auto|]. split; [apply Nat.leb_le; exact C|]. split; [exact D|].
    intros X. apply system_iff in X. congruence. }
  split; eapply H; reflexivity.
Qed.
(* three servers, a crash while starting, a restart: tenant_1 finds its database again, tenant_2 and public do not see it *)
Definition ex_history : list event :=
  [Boot 0 (ex_t "public") Ready; Boot 1 (ex_t "tenant_1") Created; Boot 1 (ex_t "tenant_1") Ready; Boot 2 (ex_t "tenant_2") Ready;
   Do 1 0 (CreateDb "x"); Connect 1; Do 1 1 (CreateSchema "x" "s"); Do 0 0 (CreateDb "y"); Stop 1; Boot 3 (ex_t "tenant_1") Ready].
Example ex_isolated :
  (option_map (fun c => map db_name (dbs c)) (sees (ex_run ex_history) 0 0),
   option_map (fun c => (map db_name (dbs c), map co_name (colls c))) (sees (ex_run ex_history) 3 0),
   option_map (fun c => map db_name (dbs c)) (sees (ex_run ex_history) 2 0), map snd (ex_ran ex_history))
  = (Some ["y"%string], Some (["x"%string], ["s"%string]), Some [], [true; true; true]).
Proof. vm_compute. reflexivity. Qed.
Example ex_history_plain : plain_names ex_reserved ex_history.
Proof.
  assert (A : as_is ex_reserved (ex_t "tenant_2")).
  { split; [exists "t"%char, (ex_t "enant_2"); auto|]. split; [cbn; repeat constructor|]. split; [reflexivity|discriminate]. }
  destruct ex_as_is as [B C]. unfold plain_names, ex_history. repeat (constructor; auto).
Qed.
(* Staging and staging, tenant--1 and tenant--2 share a catalog; tenant-1 and 1st do not start *)
Example ex_shared :
  map (fun t => named ex_reserved ex_other (ex_t t)) ["Staging"; "staging"; "tenant--1"; "tenant--2"; "tenant-1"; "1st"; "user"; "pg_x"]%string
  = [Some (ex_t "staging", true); Some (ex_t "staging", true); Some (ex_t "tenant", false); Some (ex_t "tenant", false); None; None; None; None].
Proof. vm_compute. reflexivity. Qed.
Example ex_case_hypotheses : as_is ex_reserved (in_lower_case (ex_t "Tenant_1")) /\ ex_t "Tenant_1" <> in_lower_case (ex_t "Tenant_1").
Proof. split; [exact (proj1 ex_as_is)|discriminate]. Qed.
Example ex_long_hypotheses :
  let t := repeat "a"%char 63 in
  as_is ex_reserved t /\ length t = 63 /\ as_is (fun _ => false) (ex_t "a_x") /\ as_is (fun _ => false) (ex_t "a_y") /\
  ex_reserved (t ++ ex_t "_x") = false /\ ex_reserved (t ++ ex_t "_y") = false /\ ex_t "_x" <> ex_t "_y".
Proof.
  cbv zeta. split; [|split; [reflexivity|split; [|split; [|split; [reflexivity|split; [reflexivity|discriminate]]]]]].
  - split; [exists "a"%char, (repeat "a"%char 62); auto|]. split; [apply Nat.leb_le; reflexivity|]. split; [reflexivity|discriminate].
  - split; [exists "a"%char, (ex_t "_x"); auto|]. split; [apply Nat.leb_le; reflexivity|]. split; [reflexivity|discriminate].
  - split; [exists "a"%char, (ex_t "_y"); auto|]. split; [apply Nat.leb_le; reflexivity|]. split; [reflexivity|discriminate].
Qed.

Print Assumptions c157_shared.
Print Assumptions c157_isolated_partial.
Print Assumptions c157_starts_partial.
Print Assumptions c157_case_refuted.
Print Assumptions c157_long_refuted.
Print Assumptions c157_comment_refuted.
Print Assumptions c157_dash_refuted.
Print Assumptions c157_digit_refuted.
