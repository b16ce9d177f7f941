(* C146, C147: DELETE and UPDATE, whatever the form of the statement. Specification: DmlSpec.v (with WriteSpec.v). Model:
   DmlModel.v (with WriteModel.v). *)
From Coq Require Import List Arith Bool Permutation Lia.
From Verif Require Import WriteModel WriteSpec WriteProps DmlModel DmlSpec.
Import ListNotations.

Section L.
Context {R : Type}.
Implicit Types p q : pred R.
Lemma value_means p r : means p r (value p r).
Proof.
  induction p as [b|f|f|p IHp q IHq|p IHp q IHq|p IHp]; cbn; try constructor.
  - destruct (value p r) as [[]|] eqn:A1, (value q r) as [[]|] eqn:A2; cbn;
      solve [constructor; auto | eapply m_and_null; eauto; discriminate].
  - destruct (value p r) as [[]|] eqn:A1, (value q r) as [[]|] eqn:A2; cbn;
      solve [constructor; auto | eapply m_or_null; eauto; discriminate].
  - destruct (value p r) as [[]|] eqn:A1; cbn; constructor; auto.
Qed.
Lemma means_value p r b : means p r b -> value p r = b.
Proof.
  revert b. induction p as [b0|f|f|p IHp q IHq|p IHp q IHq|p IHp]; intros b H; inversion H; subst; cbn; auto;
  repeat match goal with X : _ \/ _ |- _ => destruct X | X : means p r _ |- _ => apply IHp in X | X : means q r _ |- _ => apply IHq in X end;
  repeat match goal with X : value _ _ = _ |- _ => rewrite X; clear X end;
  repeat match goal with |- context [value ?x ?y] => destruct (value x y) as [[]|] end; try reflexivity;
  repeat match goal with X : option bool |- _ => destruct X as [[]|] end; cbn; congruence.
Qed.
Lemma means_iff p r b : means p r b <-> value p r = b.
Proof. split; [apply means_value|intros <-; apply value_means]. Qed.
Lemma simp_value p r : value (simp p) r = value p r.
Proof.
  induction p as [b|f|f|p IHp q IHq|p IHp q IHq|p IHp]; try reflexivity; cbn [simp value].
  - rewrite <- IHp, <- IHq. clear.
    destruct (simp p) as [[[]|]|f|f|p1 p2|p1 p2|p1]; destruct (simp q) as [[[]|]|g|g|q1 q2|q1 q2|q1]; cbn [value];
      repeat match goal with |- context [and3 ?x _] => is_var x; destruct x end;
      repeat match goal with |- context [value ?x ?y] => destruct (value x y) as [[]|] | |- context [f r] => destruct (f r) as [[]|] | |- context [g r] => destruct (g r) as [[]|] end; reflexivity.
  - rewrite <- IHp, <- IHq. clear.
    destruct (simp p) as [[[]|]|f|f|p1 p2|p1 p2|p1]; destruct (simp q) as [[[]|]|g|g|q1 q2|q1 q2|q1]; cbn [value];
      repeat match goal with |- context [value ?x ?y] => destruct (value x y) as [[]|] | |- context [f r] => destruct (f r) as [[]|] | |- context [g r] => destruct (g r) as [[]|] end; reflexivity.
  - rewrite <- IHp. destruct (simp p); reflexivity.
Qed.
Lemma plain_simp p : plain p -> plain (simp p).
Proof.
  induction p as [b|f|f|p IHp q IHq|p IHp q IHq|p IHp]; cbn; intros H; auto.
  - destruct H as [H1 H2]. specialize (IHp H1). specialize (IHq H2).
    destruct (simp p) as [[[]|]|f|f|p1 p2|p1 p2|p1]; destruct (simp q) as [[[]|]|g|g|q1 q2|q1 q2|q1]; cbn in *; auto.
  - destruct H as [H1 H2]. specialize (IHp H1). specialize (IHq H2).
    destruct (simp p) as [[[]|]|f|f|p1 p2|p1 p2|p1]; destruct (simp q) as [[[]|]|g|g|q1 q2|q1 q2|q1]; cbn in *; auto.
  - specialize (IHp H). destruct (simp p); cbn in *; auto.
Qed.
Lemma plain_sub p : plain p <-> has_sub p = false.
Proof.
  induction p as [b|f|f|p IHp q IHq|p IHp q IHq|p IHp]; cbn; try rewrite orb_false_iff; try tauto.
  split; [contradiction|discriminate].
Qed.
Lemma joins_sub p : joins p = true -> has_sub p = true.
Proof.
  induction p as [b|f|f|p IHp q IHq|p IHp q IHq|p IHp]; cbn; try discriminate; auto.
  - rewrite !orb_true_iff. tauto.
  - destruct p; try discriminate. reflexivity.
Qed.
Lemma no_const_simp p : no_const p -> simp p = p /\ forall b, p <> Const b.
Proof.
  induction p as [b|f|f|p IHp q IHq|p IHp q IHq|p IHp]; cbn; intros H; try contradiction; try (split; [reflexivity|discriminate]).
  - destruct H as [H1 H2]. destruct (IHp H1) as [E1 N1], (IHq H2) as [E2 N2]. rewrite E1, E2. split; [|discriminate].
    destruct p; try (exfalso; eapply N1; reflexivity); destruct q; try (exfalso; eapply N2; reflexivity); reflexivity.
  - destruct H as [H1 H2]. destruct (IHp H1) as [E1 N1], (IHq H2) as [E2 N2]. rewrite E1, E2. split; [|discriminate].
    destruct p; try (exfalso; eapply N1; reflexivity); destruct q; try (exfalso; eapply N2; reflexivity); reflexivity.
  - destruct (IHp H) as [E1 N1]. rewrite E1. split; [|discriminate]. destruct p; try (exfalso; eapply N1; reflexivity); reflexivity.
Qed.
Lemma remain_filter p rs : remain p rs (filter (survives (value p)) rs).
Proof.
  induction rs as [|r rs IH]; cbn; [constructor|]. unfold survives at 1. destruct (value p r) as [[]|] eqn:E.
  - apply rem_gone; [apply means_iff; exact E|exact IH].
  - apply rem_kept; [rewrite means_iff, E; discriminate|exact IH].
  - apply rem_kept; [rewrite means_iff, E; discriminate|exact IH].
Qed.
Lemma remain_fun p rs a b : remain p rs a -> remain p rs b -> a = b.
Proof.
  intros H. revert b. induction H as [|r rs l H1 H2 IH|r rs l H1 H2 IH]; intros b Hb; inversion Hb; subst; auto; try contradiction.
  f_equal. auto.
Qed.
Lemma remain_all p rs : (forall r, In r rs -> ~ means p r (Some true)) -> remain p rs rs.
Proof. induction rs as [|r rs IH]; intros H; constructor; [apply H; left; reflexivity|apply IH; intros; apply H; right; assumption]. Qed.
Lemma survives_ext (f g : R -> option bool) rs : (forall r, f r = g r) -> filter (survives f) rs = filter (survives g) rs.
Proof. intros E. induction rs as [|r rs IH]; cbn; [reflexivity|]. assert (X : survives f r = survives g r) by (unfold survives; rewrite (E r); reflexivity). rewrite X, IH. reflexivity. Qed.
End L.

(* C146. The specification of what remains is a function of the rows. *)
Theorem c146_remain_unique : forall (R : Type) (p : pred R) rs a b, remain p rs a -> remain p rs b -> a = b.
Proof. intros R p rs a b. apply remain_fun. Qed.
Print Assumptions c146_remain_unique.
(* DELETE WHERE p removes the rows for which p is true, and no others, if p is a condition on the row alone that some row (not
   necessarily of the table) satisfies, and that is not unknown for a row of the table (C29); for every layout of the rows over
   files, every sound pruning and every scan that yields the rows of the selected files. *)
Theorem c146_partial : forall (R : Type) embedded fuel max up uuid (t : list (file R)) p keep scan t',
  good_table t uuid -> plain p -> (exists r, means p r (Some true)) ->
  (forall r, In r (table_rows t) -> ~ means p r None) ->
  Forall2 (fun f k => k = false -> forall r, In r (rows f) -> ~ means p r (Some true)) t keep -> scans_all t keep scan ->
  delete_stmt embedded fuel max up uuid t (Some p) keep scan = Ok t' ->
  exists l, Permutation (table_rows t') l /\ remain p (table_rows t) l.
Proof.
  intros R embedded fuel max up uuid t p keep scan t' Hg Hp (r0 & Hr) Hn Hk Hs H.
  exists (filter (survives (value p)) (table_rows t)). split; [|apply remain_filter].
  rewrite means_iff in Hr. rewrite <- simp_value in Hr. unfold delete_stmt, delete_input in H.
  pose proof (proj1 (plain_sub _) (plain_simp p Hp)) as Hns.
  assert (Hnj : joins (simp p) = false).
  { destruct (joins (simp p)) eqn:E; [|reflexivity]. apply joins_sub in E. congruence. }
  assert (D : (forall r, value p r = Some true) /\ delete fuel max up uuid t None keep scan = Ok t' \/
              delete fuel max up uuid t (Some (value (simp p))) keep scan = Ok t').
  { destruct (simp p) as [[[]|]|f|f|p1 p2|p1 p2|p1] eqn:E; try discriminate Hr; try discriminate Hns.
    - left. split; [intros r; rewrite <- simp_value, E; reflexivity|exact H].
    - right. rewrite Hnj, Hns in H. rewrite Hns in H. exact H.
    - right. rewrite Hnj, Hns in H. rewrite Hns in H. exact H.
    - right. rewrite Hnj, Hns in H. rewrite Hns in H. exact H.
    - right. rewrite Hnj, Hns in H. rewrite Hns in H. exact H. }
  destruct D as [[D1 D2]|D].
  - destruct (c31_truncate_empties R t fuel max up uuid keep scan) as (_ & t2 & E1 & E2).
    rewrite D2 in E1. inversion E1; subst t2. rewrite E2.
    assert (F : forall rs, filter (survives (value p)) rs = []).
    { induction rs as [|r rs IH]; cbn; [reflexivity|]. unfold survives at 1. rewrite (D1 r). exact IH. }
    rewrite F. constructor.
  - rewrite (survives_ext (value p) (value (simp p))) by (intros; symmetry; apply simp_value).
    refine (c29_delete_partial _ _ _ _ _ _ _ _ _ _ Hg _ Hs _ D).
    + clear - Hk. induction Hk as [|f k t keep H1 H2 IH]; constructor; [|exact IH].
      intros Ek r Hr E. rewrite simp_value in E. apply (H1 Ek r Hr). apply means_iff. exact E.
    + intros r Hin E. rewrite simp_value in E. apply (Hn r Hin). apply means_iff. exact E.
Qed.
Print Assumptions c146_partial.
(* DELETE without WHERE *)
Theorem c146_no_where : forall (R : Type) embedded fuel max up uuid (t : list (file R)) keep scan,
  exists t', delete_stmt embedded fuel max up uuid t None keep scan = Ok t' /\ table_rows t' = [].
Proof.
  intros. destruct (c31_truncate_empties R t fuel max up uuid keep scan) as (_ & t2 & E1 & E2). exists t2. split; [exact E1|exact E2].
Qed.
Print Assumptions c146_no_where.
(* If the condition comes down to false or NULL, as in WHERE false, WHERE 1 = 2, WHERE NULL or WHERE q AND 1 = 2, no row is to
   be deleted, and all rows are, from every table. *)
Theorem c146_false_refuted : forall (R : Type) embedded fuel max up uuid (t : list (file R)) q p keep scan,
  p = Const (Some false) \/ p = Const None \/ p = And q (Const (Some false)) \/ p = And (Const (Some false)) q ->
  remain p (table_rows t) (table_rows t) /\
  exists t', delete_stmt embedded fuel max up uuid t (Some p) keep scan = Ok t' /\ table_rows t' = [].
Proof.
  intros R embedded fuel max up uuid t q p keep scan Hp. split.
  - apply remain_all. intros r _ M. apply means_value in M.
    destruct Hp as [-> | [-> | [-> | -> ] ] ]; cbn in M; try discriminate M. destruct (value q r) as [[]|]; discriminate M.
  - destruct (c31_truncate_empties R t fuel max up uuid keep scan) as (_ & t2 & E1 & E2). exists t2. split; [|exact E2].
    assert (E : delete_input embedded (Some p) = IEmpty).
    { unfold delete_input. destruct Hp as [-> | [-> | [-> | -> ] ] ]; cbn; try reflexivity. destruct (simp q) as [[[]|]|?|?|? ?|? ?|?]; reflexivity. }
    unfold delete_stmt. rewrite E. exact E1.
Qed.
Print Assumptions c146_false_refuted.
(* If a conjunct of the condition asks a subquery (IN, NOT IN, EXISTS, NOT EXISTS), all rows are deleted, whatever the answer. *)
Theorem c146_subquery_refuted : forall (R : Type) embedded fuel max up uuid (t : list (file R)) f q p keep scan,
  no_const q -> p = Sub f \/ p = Not (Sub f) \/ p = And q (Sub f) \/ p = And (Sub f) q ->
  exists t', delete_stmt embedded fuel max up uuid t (Some p) keep scan = Ok t' /\ table_rows t' = [].
Proof.
  intros R embedded fuel max up uuid t f q p keep scan Hq Hp.
  destruct (c31_truncate_empties R t fuel max up uuid keep scan) as (_ & t2 & E1 & E2). exists t2. split; [|exact E2].
  assert (E : delete_input embedded (Some p) = IJoin).
  { unfold delete_input. destruct (no_const_simp q Hq) as [Eq Nq].
    destruct Hp as [-> | [-> | [-> | -> ] ] ]; cbn [simp]; try reflexivity; rewrite Eq;
      destruct q as [b|g|g|q1 q2|q1 q2|q1]; try (exfalso; exact (Nq _ eq_refl)); cbn [joins]; rewrite ?orb_true_r; reflexivity. }
  unfold delete_stmt. rewrite E. exact E1.
Qed.
Print Assumptions c146_subquery_refuted.
(* for instance: no row of the table is in the answer of the subquery, and all are deleted *)
Definition t4 : list (file nat) := [{| path := (0, 0); rows := [1; 5] |}; {| path := (0, 1); rows := [7] |}].
Definition in_sub (l : list nat) (r : nat) : option bool := Some (existsb (Nat.eqb r) l).
Example c146_case_subquery : remain (Sub (in_sub [])) (table_rows t4) [1; 5; 7] /\
  delete_stmt (fun _ => IScan) 10 9 (fun _ => true) 5 t4 (Some (Sub (in_sub []))) [true; true] [[Some [1; 5; 7]]] = Ok [].
Proof. split; [|reflexivity]. apply remain_all. intros r _ M. apply means_value in M. discriminate M. Qed.
Definition less (n r : nat) : option bool := Some (Nat.ltb r n).
Example c146_case : good_table t4 5 /\ plain (And (Atom (less 6)) (Not (Atom (less 2)))) /\
  means (And (Atom (less 6)) (Not (Atom (less 2)))) 5 (Some true) /\
  Forall2 (fun f k => k = false -> forall r, In r (rows f) -> ~ means (And (Atom (less 6)) (Not (Atom (less 2)))) r (Some true)) t4 [true; false] /\
  scans_all t4 [true; false] [[Some [1; 5]]] /\
  exists t', delete_stmt (fun _ => IScan) 10 9 (fun _ => true) 5 t4 (Some (And (Atom (less 6)) (Not (Atom (less 2))))) [true; false] [[Some [1; 5]]] = Ok t' /\
    Permutation (table_rows t') [1; 7].
Proof.
  split; [split; [repeat constructor; cbn; intuition discriminate|repeat constructor; discriminate]|].
  split; [cbn; auto|]. split; [apply means_iff; reflexivity|].
  split; [constructor; [discriminate|constructor; [|constructor]]; intros _ r [<-|[]] M; apply means_value in M; discriminate M|].
  split; [apply Permutation_refl|]. eexists. split; [reflexivity|]. cbn. apply perm_swap.
Qed.

(* UPDATE WHERE p changes the rows for which p is true, and no others, for every condition on the row alone: a condition that
   comes down to a constant is no exception. *)
Theorem c146_update_partial : forall (V : Type) fuel max up uuid (t : list (file (list V))) p es keep scan t',
  good_table t uuid -> plain p ->
  Forall2 (fun f k => k = false -> forall r, In r (rows f) -> ~ means p r (Some true)) t keep -> scans_all t keep scan ->
  Forall (fun r => length r = length es) (table_rows t) ->
  update_stmt fuel max up uuid t (Some p) es keep scan = Ok t' ->
  exists l, Permutation (table_rows t') l /\
    Forall2 (fun r r' => (means p r (Some true) -> assigned es r r') /\ (~ means p r (Some true) -> r' = r)) (table_rows t) l.
Proof.
  intros V fuel max up uuid t p es keep scan t' Hg Hp Hk Hs Hl H. unfold update_stmt in H.
  rewrite (proj1 (plain_sub _) (plain_simp p Hp)) in H.
  destruct (c30_update_partial V fuel max up uuid t (Some (value (simp p))) es keep scan t' Hg) as [(l & L1 & L2) _]; auto.
  - clear - Hk. induction Hk as [|f k t keep H1 H2 IH]; constructor; [|exact IH].
    intros Ek r Hr E. rewrite simp_value in E. apply (H1 Ek r Hr). apply means_iff. exact E.
  - exists l. split; [exact L1|]. clear - L2. induction L2 as [|r r' rs l H1 H2 IH]; constructor; [|exact IH].
    destruct H1 as [r' W A|q Eq N].
    + rewrite simp_value in W. split; [intros _; exact A|intros M; exfalso; apply M; apply means_iff; exact W].
    + inversion Eq; subst q. rewrite simp_value in N. split; [intros M; exfalso; apply N; apply means_iff; exact M|reflexivity].
Qed.
Print Assumptions c146_update_partial.
(* UPDATE with a subquery in its condition is refused, and the table stays as it is. *)
Theorem c146_update_refused : forall (V : Type) fuel max up uuid (t : list (file (list V))) p es keep scan,
  no_const p -> ~ plain p -> update_stmt fuel max up uuid t (Some p) es keep scan = Fail.
Proof.
  intros V fuel max up uuid t p es keep scan Hc Hp. unfold update_stmt. rewrite (proj1 (no_const_simp p Hc)).
  destruct (has_sub p) eqn:E; [reflexivity|]. apply plain_sub in E. contradiction.
Qed.
Print Assumptions c146_update_refused.
Example c146_update_case : let p := Const (Some false) in good_table t3 5 /\ plain (R := list nat) p /\
  update_stmt 10 9 (fun _ => true) 5 t3 (Some p) es3 [false] [[]] = Ok t3 /\
  no_const (Sub (R := list nat) (fun _ => Some true)) /\ ~ plain (Sub (R := list nat) (fun _ => Some true)).
Proof.
  split; [split; [repeat constructor; cbn; intuition discriminate|repeat constructor; discriminate]|].
  split; [exact Logic.I|]. split; [reflexivity|]. split; [exact Logic.I|intros []].
Qed.

Section F.
Context {V : Type}.
Notation row := (list V) (only parsing).
Notation tref := (nat * nat)%type (only parsing).
Implicit Types e : expr V.
Implicit Types r : list V.
Inductive tonly (target : tref) (cs : list nat) : expr V -> Prop :=
| to_lit v : tonly target cs (Lit v)
| to_col c : In c cs -> tonly target cs (Col target c)
| to_app f a b : tonly target cs a -> tonly target cs b -> tonly target cs (App f a b).
Lemma in_existsb c cs : existsb (Nat.eqb c) cs = true <-> In c cs.
Proof.
  rewrite existsb_exists. split; [intros (x & H & E); apply Nat.eqb_eq in E; subst; exact H|].
  intros H. exists c. split; [exact H|apply Nat.eqb_refl].
Qed.
Lemma known_physical target cs (others : list (table V)) e :
  Forall (fun o => snd (name o) <> snd target) others ->
  known ((target, cs) :: map (fun o => (name o, cols o)) others) e = true -> physical target cs e = true -> tonly target cs e.
Proof.
  intros Ho. induction e as [v|q c|f a IHa b IHb]; cbn [known physical]; intros Hk Hp; try constructor.
  - unfold in_target in Hp. apply andb_true_iff in Hp as [P1 P2]. apply Nat.eqb_eq in P1.
    cbn [existsb] in Hk. apply orb_true_iff in Hk as [Hk|Hk].
    + cbn in Hk. apply andb_true_iff in Hk as [Hk Hc]. apply andb_true_iff in Hk as [K1 K2].
      apply Nat.eqb_eq in K1, K2. destruct q, target. cbn in K1, K2. subst. constructor. apply in_existsb. exact P2.
    + exfalso. apply existsb_exists in Hk as (x & Hx & Ex). apply in_map_iff in Hx as (o & <- & Ho').
      rewrite Forall_forall in Ho. apply (Ho o Ho'). cbn in Ex.
      apply andb_true_iff in Ex as [Ex _]. apply andb_true_iff in Ex as [_ Ex]. apply Nat.eqb_eq in Ex. congruence.
  - apply andb_true_iff in Hk as [K1 K2], Hp as [P1 P2]. auto.
  - apply andb_true_iff in Hk as [K1 K2], Hp as [P1 P2]. auto.
Qed.
Lemma find_col_nth cs r i c v : NoDup cs -> nth_error cs i = Some c -> nth_error r i = Some v -> find_col c cs r = Some v.
Proof.
  revert r i. induction cs as [|c' cs IH]; intros r i Hn H1 H2; [destruct i; discriminate|].
  inversion Hn as [|? ? N1 N2]; subst. destruct r as [|v' r]; [destruct i; discriminate|]. cbn.
  destruct i as [|i]; cbn in H1, H2.
  - inversion H1; inversion H2; subst. rewrite Nat.eqb_refl. reflexivity.
  - destruct (Nat.eqb_spec c c') as [->|N]; [exfalso; apply N1; eapply nth_error_In; exact H1|]. eapply IH; eauto.
Qed.
Lemma find_col_some cs r c v : find_col c cs r = Some v -> exists i, nth_error cs i = Some c /\ nth_error r i = Some v.
Proof.
  revert r. induction cs as [|c' cs IH]; intros [|v' r] H; try discriminate H. cbn in H.
  destruct (Nat.eqb_spec c c') as [->|N].
  - inversion H; subst. exists 0. split; reflexivity.
  - destruct (IH r H) as (i & H1 & H2). exists (S i). split; assumption.
Qed.
Lemma run_sound target cs r e v env : tonly target cs e -> In (target, cs, r) env -> run cs r e = Some v -> has_value env e v.
Proof.
  intros Ht Hin. revert v. induction Ht as [x|c Hc|f a b Ha IHa Hb IHb]; cbn; intros v H.
  - inversion H; subst. constructor.
  - destruct (find_col_some _ _ _ _ H) as (i & H1 & H2). eapply hv_col; eauto.
  - destruct (run cs r a) eqn:E1; [|discriminate]. destruct (run cs r b) eqn:E2; [|discriminate]. inversion H; subst. constructor; auto.
Qed.
Lemma run_complete target cs r e v env : tonly target cs e -> NoDup cs ->
  (forall cs' r', In (target, cs', r') env -> cs' = cs /\ r' = r) -> has_value env e v -> run cs r e = Some v.
Proof.
  intros Ht Hn Hu. revert v. induction Ht as [x|c Hc|f a b Ha IHa Hb IHb]; cbn; intros v H; inversion H; subst.
  - reflexivity.
  - match goal with X : In (target, ?cs', ?r') env |- _ => destruct (Hu cs' r' X); subst end. eapply find_col_nth; eauto.
  - match goal with X : has_value env a _, Y : has_value env b _ |- _ => rewrite (IHa _ X), (IHb _ Y) end. reflexivity.
Qed.
Lemma in_comb (others : list (table V)) (rs : list (list V)) x : In x (combine others rs) -> In (fst x) others.
Proof.
  revert rs. induction others as [|o os IH]; intros [|r rs] H; cbn in *; try contradiction.
  destruct H as [<-|H]; [left; reflexivity|right; eapply IH; exact H].
Qed.
Lemma env_unique target cs r (others : list (table V)) rs cs' r' : Forall (fun o => snd (name o) <> snd target) others ->
  In (target, cs', r') (env_of target cs r others rs) -> cs' = cs /\ r' = r.
Proof.
  intros Ho [H|H]; [inversion H; auto|]. exfalso. apply in_map_iff in H as (x & E & H). apply in_comb in H.
  rewrite Forall_forall in Ho. apply (Ho _ H). inversion E as [[E1 E2 E3]]. reflexivity.
Qed.
Lemma env_alone (target : tref) (cs : list nat) r (cs' : list nat) r' : In (target, cs', r') [(target, cs, r)] -> cs' = cs /\ r' = r.
Proof. intros [H|[]]. inversion H; auto. Qed.
Lemma commit_nil (t : list (file row)) : commit t [] [] = t.
Proof. unfold commit. rewrite app_nil_r. induction t as [|f t IH]; cbn; [reflexivity|]. f_equal. exact IH. Qed.
Lemma choose (others : list (table V)) : Forall (fun o => content o <> []) others -> exists rs, choice others rs.
Proof.
  induction 1 as [|o os H1 H2 (rs & IH)]; [exists []; constructor|].
  destruct (content o) as [|r l] eqn:E; [contradiction|]. exists (r :: rs). constructor; [rewrite E; left; reflexivity|exact IH].
Qed.
(* the condition as the program has it *)
Definition wtest (test : V -> option bool) (cs : list nat) e r : option bool := match run cs r e with Some v => test v | None => None end.
Lemma sat_iff test target cs e r env : tonly target cs e -> NoDup cs -> In (target, cs, r) env ->
  (forall cs' r', In (target, cs', r') env -> cs' = cs /\ r' = r) ->
  (satisfies test (Some e) env <-> wtest test cs e r = Some true).
Proof.
  intros Ht Hn Hi Hu. unfold satisfies, wtest. split.
  - intros (v & H1 & H2). rewrite (run_complete _ _ _ _ _ _ Ht Hn Hu H1). exact H2.
  - destruct (run cs r e) as [v|] eqn:E; [|discriminate]. intros H. exists v. split; [eapply run_sound; eauto|exact H].
Qed.
Lemma find_rev (sets : list (nat * expr V)) c :
  match find (fun s => Nat.eqb (fst s) c) (rev sets) with
  | Some s => fst s = c /\ last_set sets c (snd s)
  | None => ~ In c (map fst sets)
  end.
Proof.
  induction sets as [|[c' e'] sets IH] using rev_ind; [intros []|]. rewrite rev_app_distr. cbn.
  destruct (Nat.eqb_spec c' c) as [->|N].
  - split; [reflexivity|]. exists sets, []. split; [reflexivity|intros []].
  - destruct (find _ (rev sets)) as [s|].
    + destruct IH as (E & b & a & -> & H). split; [exact E|]. exists b, (a ++ [(c', e')]). split; [rewrite <- app_assoc; reflexivity|].
      rewrite map_app. intros X. apply in_app_or in X as [X|X]; [exact (H X)|]. destruct X as [X|[]]. exact (N X).
    + rewrite map_app. intros X. apply in_app_or in X as [X|X]; [exact (IH X)|]. destruct X as [X|[]]. exact (N X).
Qed.
Lemma last_assignment target (sets : list (nat * expr V)) c e : last_set sets c e -> assignment target sets c = e.
Proof.
  intros (b & a & -> & H). unfold assignment. rewrite rev_app_distr. cbn. rewrite <- app_assoc. cbn.
  induction a as [|[c' e'] a IH] using rev_ind; cbn.
  - rewrite Nat.eqb_refl. reflexivity.
  - rewrite rev_app_distr. cbn. rewrite map_app in H. destruct (Nat.eqb_spec c' c) as [->|N].
    + exfalso. apply H. apply in_or_app. right. left. reflexivity.
    + apply IH. intros X. apply H. apply in_or_app. left. exact X.
Qed.
Lemma assignment_new target cs sets r c v env :
  tonly target cs (assignment target sets c) -> In (target, cs, r) env -> run cs r (assignment target sets c) = Some v ->
  new_value env target sets c v.
Proof.
  unfold assignment. pose proof (find_rev sets c) as L. destruct (find (fun s => Nat.eqb (fst s) c) (rev sets)) as [[c' e]|]; intros Ht Hi H.
  - destruct L as [_ L]. eapply nv_set; [exact L|]. eapply run_sound; eauto.
  - apply nv_same; [exact L|eapply run_sound; eauto].
Qed.
Lemma foreign_physical target cs e : foreign target e -> physical target cs e = false.
Proof.
  induction 1 as [q c N|f a b H IH|f a b H IH]; cbn.
  - unfold in_target. apply Nat.eqb_neq in N. rewrite N. reflexivity.
  - rewrite IH. reflexivity.
  - rewrite IH. apply andb_false_r.
Qed.
Lemma selected_nil (t : list (file row)) keep : length t = length keep -> selected t keep = [] -> Forall (fun k => k = false) keep.
Proof.
  revert keep. induction t as [|f t IH]; intros [|k keep] Hl H; cbn in *; try discriminate; try constructor.
  - unfold selected in H. cbn in H. destruct k; [discriminate|reflexivity].
  - apply IH; [lia|]. unfold selected in *. cbn in H. destruct k; [discriminate|exact H].
Qed.
End F.

(* C147. UPDATE ... FROM. A condition that names a column of another table than the target (with another name) is refused, and
   the table stays as it is; *)
Theorem c147_refused : forall (V : Type) test fuel max up uuid target cs (t : list (file (list V))) others sets e keep scan,
  foreign target e -> update_from test fuel max up uuid target cs t others sets (Some e) keep scan = Fail.
Proof.
  intros V test fuel max up uuid target cs t others sets e keep scan H. unfold update_from. rewrite (foreign_physical target cs e H).
  destruct (negb _); reflexivity.
Qed.
Print Assumptions c147_refused.
(* so is such an assignment, unless there is nothing to update. *)
Theorem c147_refused_set : forall (V : Type) test fuel max up uuid target cs (t : list (file (list V))) others sets w keep scan c e,
  last_set sets c e -> In c cs -> foreign target e ->
  update_from test fuel max up uuid target cs t others sets w keep scan = Fail \/
  update_from test fuel max up uuid target cs t others sets w keep scan = Ok t.
Proof.
  intros V test fuel max up uuid target cs t others sets w keep scan c e Hn Hc Hf. unfold update_from.
  destruct (negb (forallb _ sets && _)); [left; reflexivity|].
  destruct (negb (match w with Some e => _ | None => _ end)); [left; reflexivity|].
  assert (F : forallb (physical target cs) (map (assignment target sets) cs) = false).
  { destruct (forallb _ _) eqn:E; [|reflexivity]. rewrite forallb_forall in E.
    pose proof (last_assignment target sets c e Hn) as A.
    specialize (E (assignment target sets c) (in_map _ _ _ Hc)). rewrite A, (foreign_physical target cs e Hf) in E. discriminate E. }
  rewrite F. cbn [negb].
  destruct w as [e'|]; [destruct (selected t keep)|destruct t]; try (left; reflexivity); right; rewrite commit_nil; reflexivity.
Qed.
Print Assumptions c147_refused_set.
(* If the statement succeeds, every table of FROM has a row, and none has the name of the target (in another schema), then every
   row becomes what SQL says. *)
Theorem c147_partial : forall (V : Type) test fuel max up uuid target cs (t : list (file (list V))) others sets w keep scan t',
  good_table t uuid -> NoDup cs -> Forall (fun r => length r = length cs) (table_rows t) ->
  Forall (fun o => content o <> [] /\ snd (name o) <> snd target) others ->
  match w with
  | Some _ => Forall2 (fun f k => k = false -> forall r, In r (rows f) -> ~ satisfies test w [(target, cs, r)]) t keep
  | None => keep = map (fun _ => true) t
  end ->
  scans_all t keep scan ->
  update_from test fuel max up uuid target cs t others sets w keep scan = Ok t' ->
  exists l, Permutation (table_rows t') l /\ Forall2 (updated_from test target cs others sets w) (table_rows t) l.
Proof.
  intros V test fuel max up uuid target cs t others sets w keep scan t' Hg Hn Hlen Ho Hk Hs H.
  assert (Ho1 : Forall (fun o => content o <> []) others) by (eapply Forall_impl; [|exact Ho]; cbn; tauto).
  assert (Ho2 : Forall (fun o => snd (name o) <> snd target) others) by (eapply Forall_impl; [|exact Ho]; cbn; tauto).
  destruct (choose others Ho1) as (rs0 & Hc0).
  unfold update_from in H. destruct (negb (forallb _ sets && _)) eqn:K; [discriminate|]. apply negb_false_iff in K.
  apply andb_true_iff in K as [K1 K2].
  destruct (negb (match w with Some e => physical target cs e | None => true end)) eqn:P; [discriminate|]. apply negb_false_iff in P.
  assert (Hw : forall e, w = Some e -> tonly target cs e) by (intros e ->; eapply known_physical; eauto).
  set (p := match w with Some e => Some (wtest test cs e) | None => None end).
  change (match w with Some e => Some (fun r => match run cs r e with Some v => test v | None => None end) | None => None end) with p in H.
  assert (Hsel : forall r rs, match p with Some q => q r = Some true | None => True end -> satisfies test w (env_of target cs r others rs)).
  { intros r rs. unfold p. destruct w as [e|]; [|intros _; exact Logic.I].
    intros E. eapply sat_iff; eauto; [left; reflexivity|]. intros cs' r'. apply env_unique. exact Ho2. }
  assert (Hnot : forall r rs q, p = Some q -> q r <> Some true -> ~ satisfies test w (env_of target cs r others rs)).
  { intros r rs q. unfold p. destruct w as [e|]; [|discriminate]. intros E N S. inversion E; subst q. apply N.
    eapply sat_iff in S; eauto; [left; reflexivity|]. intros cs' r'. apply env_unique. exact Ho2. }
  assert (Hpr : match p with Some q => prune_ok q t keep | None => keep = map (fun _ => true) t end).
  { unfold p. destruct w as [e|]; [|exact Hk]. clear - Hk Hw Hn. unfold prune_ok.
    induction Hk as [|f k t keep H1 H2 IH]; constructor; [|exact IH]. intros Ek r Hr E. apply (H1 Ek r Hr).
    eapply sat_iff; eauto; [left; reflexivity|]. intros cs' r'. apply env_alone. }
  destruct (match p with Some _ => selected t keep | None => t end) as [|f0 fs] eqn:R.
  - inversion H; subst t'. rewrite commit_nil. exists (table_rows t). split; [apply Permutation_refl|].
    unfold p in R. destruct w as [e|]; [|rewrite R; constructor].
    assert (A : forall r, In r (table_rows t) -> updated_from test target cs others sets (Some e) r r).
    { intros r Hr. apply uf_not. intros rs Hrs. apply (Hnot r rs (wtest test cs e) eq_refl). intros E.
      assert (L : length t = length keep) by (clear - Hk; induction Hk; cbn; congruence).
      pose proof (selected_nil t keep L R) as F. clear - F Hpr Hr E. unfold p, prune_ok in Hpr. cbn in Hpr.
      induction Hpr as [|f k t keep H1 H2 IH]; [contradiction|]. inversion F as [|? ? F1 F2]; subst. cbn in Hr.
      apply in_app_iff in Hr as [Hr|Hr]; [exact (H1 eq_refl r Hr E)|exact (IH Hr F2)]. }
    clear - A. induction (table_rows t) as [|r l IH]; constructor; [apply A; left; reflexivity|apply IH; intros; apply A; right; assumption].
  - destruct (negb (forallb (physical target cs) (map (assignment target sets) cs))) eqn:E; [discriminate|]. apply negb_false_iff in E.
    destruct (c30_update_partial V fuel max up uuid t p (map (fun e r => run cs r e) (map (assignment target sets) cs)) keep scan t') as [(l & L1 & L2) _]; auto.
    { rewrite !map_length. exact Hlen. }
    exists l. split; [exact L1|].
    assert (T : forall c, In c cs -> tonly target cs (assignment target sets c)).
    { intros c Hc. rewrite forallb_forall in E. eapply known_physical; [exact Ho2| |apply E; apply in_map; exact Hc].
      unfold assignment. destruct (find _ (rev sets)) as [s|] eqn:Fs.
      - apply find_some in Fs as [F1 _]. apply in_rev in F1. rewrite forallb_forall in K1. exact (K1 s F1).
      - cbn. rewrite !Nat.eqb_refl. cbn. rewrite (proj2 (in_existsb c cs) Hc). reflexivity. }
    clear - L2 T Hsel Hnot Hc0. induction L2 as [|r r' ls l H1 H2 IH]; constructor; [|exact IH].
    destruct H1 as [r' W [r'' A]|q Eq N].
    + apply (uf_sel test target cs others sets w r rs0 r'' Hc0 (Hsel r rs0 W)).
      assert (G : forall cs0 l0, (forall c, In c cs0 -> tonly target cs (assignment target sets c)) ->
        Forall2 (fun (e : list V -> option V) v => e r = Some v) (map (fun e r => run cs r e) (map (assignment target sets) cs0)) l0 ->
        Forall2 (new_value (env_of target cs r others rs0) target sets) cs0 l0).
      { induction cs0 as [|c cs0 IHc]; intros l0 T0 A0; inversion A0; subst; constructor.
        - eapply assignment_new; [apply T0; left; reflexivity|left; reflexivity|eassumption].
        - apply IHc; [intros; apply T0; right; assumption|assumption]. }
      apply G; assumption.
    + apply uf_not. intros rs Hrs. exact (Hnot r rs q Eq N).
Qed.
Print Assumptions c147_partial.
(* FROM is ignored: a statement that mentions columns of the target only does the same with and without it. *)
Theorem c147_ignored : forall (V : Type) test fuel max up uuid target cs (t : list (file (list V))) others sets w keep scan,
  match w with Some e => known [(target, cs)] e = true | None => True end ->
  Forall (fun s => known [(target, cs)] (snd s) = true) sets ->
  update_from test fuel max up uuid target cs t others sets w keep scan = update_from test fuel max up uuid target cs t [] sets w keep scan.
Proof.
  assert (M : forall V target cs (others : list (table V)) (e : expr V), known [(target, cs)] e = true ->
    known ((target, cs) :: map (fun o => (name o, cols o)) others) e = true).
  { intros V target cs others. induction e as [v|q c|f a IHa b IHb]; cbn; auto.
    - rewrite orb_false_r. intros ->. reflexivity.
    - rewrite !andb_true_iff. tauto. }
  intros V test fuel max up uuid target cs t others sets w keep scan Hw Hs. unfold update_from.
  assert (A : forall os : list (table V), forallb (fun s => known ((target, cs) :: map (fun o => (name o, cols o)) os) (snd s)) sets = true).
  { intros os. apply forallb_forall. intros s Hin. rewrite Forall_forall in Hs. apply M. apply Hs. exact Hin. }
  assert (B : forall os : list (table V), match w with Some e => known ((target, cs) :: map (fun o => (name o, cols o)) os) e | None => true end = true).
  { intros os. destruct w as [e|]; [|reflexivity]. apply M. exact Hw. }
  rewrite !A, !B. reflexivity.
Qed.
Print Assumptions c147_ignored.
(* With an empty table in FROM no row is to be updated, *)
Theorem c147_empty : forall (V : Type) test target cs others sets w (r r' : list V) o,
  In o others -> content o = [] -> updated_from test target cs others sets w r r' -> r' = r.
Proof.
  intros V test target cs others sets w r r' o Hin He H. destruct H as [rs r' C _ _|_]; [|reflexivity]. exfalso.
  induction C as [|x y xs ys H1 H2 IH]; [contradiction|]. destruct Hin as [->|Hin]; [rewrite He in H1; exact H1|exact (IH Hin)].
Qed.
Print Assumptions c147_empty.
(* and rows are updated: UPDATE t SET v = 7 FROM u WHERE id = 1, and UPDATE t SET v = 7 FROM u, with u empty. *)
Definition tgt : nat * nat := (0, 7).
Definition is1 (v : nat) : option bool := Some (Nat.eqb v 1).
Definition empty_u : table nat := {| name := (0, 8); cols := [0]; content := [] |}.
Definition t5 : list (file (list nat)) := [{| path := (0, 0); rows := [[1; 10]; [5; 50]] |}].
Theorem c147_empty_refuted :
  (exists t', update_from is1 10 9 (fun _ => true) 5 tgt [0; 1] t5 [empty_u] [(1, Lit 7)] (Some (Col tgt 0)) [true] [[Some [[1; 10]; [5; 50]]]] = Ok t' /\
     table_rows t' = [[1; 7]; [5; 50]]) /\
  (exists t', update_from is1 10 9 (fun _ => true) 5 tgt [0; 1] t5 [empty_u] [(1, Lit 7)] None [true] [[Some [[1; 10]; [5; 50]]]] = Ok t' /\
     table_rows t' = [[1; 7]; [5; 7]]) /\
  (forall w r r', updated_from is1 tgt [0; 1] [empty_u] [(1, Lit 7)] w r r' -> r' = r).
Proof.
  split; [eexists; split; reflexivity|]. split; [eexists; split; reflexivity|].
  intros w r r'. apply c147_empty with (o := empty_u); [left; reflexivity|reflexivity].
Qed.
Print Assumptions c147_empty_refuted.
(* A table of FROM with the name of the target, in another schema, is taken for the target: whatever it contains,
   UPDATE a.t SET v = b.t.v FROM b.t WHERE a.t.id = b.t.id leaves a.t as it is. *)
Definition eqv (a b : nat) : nat := if Nat.eqb a b then 1 else 0.
Definition twin (rs : list (list nat)) : table nat := {| name := (1, 7); cols := [0; 1]; content := rs |}.
Definition twin_where : expr nat := App eqv (Col tgt 0) (Col (1, 7) 0).
Definition twin_set : list (nat * expr nat) := [(1, Col (1, 7) 1)].
Theorem c147_same_name_refuted :
  (forall rs, exists t', update_from is1 10 9 (fun _ => true) 5 tgt [0; 1] t5 [twin rs] twin_set (Some twin_where) [true] [[Some [[1; 10]; [5; 50]]]] = Ok t' /\
     table_rows t' = table_rows t5) /\
  forall v r', updated_from is1 tgt [0; 1] [twin [[1; v]]] twin_set (Some twin_where) [1; 10] r' -> r' = [1; v].
Proof.
  split; [intros rs; eexists; split; reflexivity|]. intros v r' H.
  assert (S : forall rs, choice [twin [[1; v]]] rs -> rs = [[1; v]]).
  { intros rs C. inversion C as [|? r1 ? rs1 C1 C2]; subst. destruct C1 as [C1|C1]; [|contradiction]. inversion C2; subst. reflexivity. }
  assert (single : forall (p : nat * expr nat) c e, last_set [p] c e -> fst p = c /\ snd p = e).
  { intros p c e (b & a & E & _). destruct b as [|x b]; [inversion E; split; reflexivity|]. destruct b; discriminate E. }
  destruct H as [rs r' C _ F|N].
  - rewrite (S rs C) in F. inversion F as [|? v0 ? ? F0 F1]; subst. inversion F1 as [|? v1 ? ? G0 G1]; subst. inversion G1; subst.
    f_equal; [|f_equal].
    + destruct F0 as [e X _|_ X]; [destruct (single _ _ _ X) as [X1 _]; discriminate X1|]. inversion X as [|? ? ? cs r i ? Hi Hc Hv|]; subst.
      destruct Hi as [Hi|[Hi|[]]]; inversion Hi; subst. destruct i as [|[|[|i]]]; cbn in Hc; try discriminate Hc. inversion Hv. reflexivity.
    + destruct G0 as [e X Y|X _]; [|exfalso; apply X; left; reflexivity]. destruct (single _ _ _ X) as [_ <-].
      inversion Y as [|? ? ? cs r i ? Hi Hc Hv|]; subst. destruct Hi as [Hi|[Hi|[]]]; inversion Hi; subst.
      destruct i as [|[|[|i]]]; cbn in Hc; try discriminate Hc. inversion Hv. reflexivity.
  - exfalso. apply (N [[1; v]]); [constructor; [left; reflexivity|constructor]|]. exists 1. split; [|reflexivity].
    apply (hv_app _ eqv (Col tgt 0) (Col (1, 7) 0) 1 1).
    + eapply hv_col with (i := 0); [left; reflexivity|reflexivity|reflexivity].
    + eapply hv_col with (i := 0); [right; left; reflexivity|reflexivity|reflexivity].
Qed.
Print Assumptions c147_same_name_refuted.
Definition full_u : table nat := {| name := (0, 8); cols := [0]; content := [[3]; [4]] |}.
Example c147_case : good_table t5 5 /\ NoDup [0; 1] /\ Forall (fun r => length r = 2) (table_rows t5) /\
  Forall (fun o => content o <> [] /\ snd (name o) <> snd tgt) [full_u] /\ scans_all t5 [true] [[Some [[1; 10]; [5; 50]]]] /\
  exists t', update_from is1 10 9 (fun _ => true) 5 tgt [0; 1] t5 [full_u] [(1, Lit 7)] (Some (Col tgt 0)) [true] [[Some [[1; 10]; [5; 50]]]] = Ok t' /\
    table_rows t' = [[1; 7]; [5; 50]].
Proof.
  split; [split; [repeat constructor; cbn; intuition discriminate|repeat constructor; discriminate]|].
  split; [repeat constructor; cbn; intuition discriminate|]. split; [repeat constructor|].
  split; [constructor; [split; discriminate|constructor]|]. split; [apply Permutation_refl|]. eexists. split; reflexivity.
Qed.
Example c147_case_refused : foreign tgt (App eqv (Col tgt 0) (Col (0, 8) 0)) /\ known [(tgt, [0; 1]); ((0, 8), [0])] (App eqv (Col tgt 0) (Col (0, 8) 0)) = true.
Proof. split; [apply fo_app2; constructor; discriminate|reflexivity]. Qed.
