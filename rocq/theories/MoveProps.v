(* C154: the way of the files of a write into the object store.
   Specification: MoveSpec.v. Model: MoveModel.v. *)
From Coq Require Import List Arith Bool Lia.
From Verif Require Import MoveModel MoveSpec.
Import ListNotations.

Section P.
Variable limit : nat.
Variable local : bool.
Variable content : nat -> list nat.
Variable total : nat.
Notation step := (step limit local content total).
Notation run := (run limit local content total).
Definition run_from (st : state) (es : list event) : state := fold_left step es st.
Lemma run_app : forall a b, run (a ++ b) = run_from (run a) b.
Proof. intros. apply fold_left_app. Qed.
Lemma run_snoc : forall es e, run (es ++ [e]) = step (run es) e.
Proof. intros. rewrite run_app. reflexivity. Qed.
Lemma upd_same : forall {A} (f : nat -> A) i a, upd f i a i = a.
Proof. intros. unfold upd. rewrite Nat.eqb_refl. reflexivity. Qed.
Lemma upd_other : forall {A} (f : nat -> A) i j a, j <> i -> upd f i a j = f j.
Proof. intros A f i j a H. unfold upd. destruct (Nat.eqb_spec j i); [contradiction|reflexivity]. Qed.

(* what is known of a part *)
Definition part (st : state) (i : nat) : Prop :=
  match phases st i with
  | Waiting => spawned st <= i /\ store st i = None /\ temp st i = (if negb (ended st) && Nat.ltb i total then Some (content i) else None)
  | Spawned => i < spawned st /\ store st i = None /\ temp st i = Some (content i)
  | Sized s => i < spawned st /\ store st i = None /\ temp st i = Some (content i) /\ s = length (content i)
  | Copying s n => i < spawned st /\ store st i = Some (firstn n (content i)) /\ temp st i = Some (content i) /\ s = length (content i) /\ local = true
  | Copied s => i < spawned st /\ store st i = Some (content i) /\ temp st i = Some (content i) /\ s = length (content i) /\ local = true
  | Uploading s n => i < spawned st /\ store st i = None /\ temp st i = None /\ s = length (content i) /\ local = false
  | Done s => i < spawned st /\ store st i = Some (content i) /\ temp st i = None /\ s = length (content i)
  | Failed => i < spawned st /\ temp st i = None /\ (local = false -> store st i = None)
  end.
Record inv (st : state) : Prop := {
  i_total : spawned st <= total;
  i_part : forall i, part st i;
  i_log : forall i s, In (i, s) (committed st) -> phases st i = Done s;
  i_all : all_or_none total st;
  i_end : committed st <> [] -> ended st = true
}.
(* an event that concerns part i *)
Lemma local_step : forall st i st', inv st ->
  spawned st' = spawned st -> ended st' = ended st -> committed st' = committed st ->
  (forall j, j <> i -> phases st' j = phases st j /\ temp st' j = temp st j /\ store st' j = store st j) ->
  part st' i -> over (phases st i) = false -> inv st'.
Proof.
  intros st i st' [T P L A E] S1 S2 S3 O Q V. constructor.
  - rewrite S1. exact T.
  - intros j. destruct (Nat.eq_dec j i) as [->|N]; [exact Q|]. destruct (O j N) as (O1 & O2 & O3). specialize (P j). unfold part in *. rewrite O1, O2, O3, S1, S2. exact P.
  - rewrite S3. intros j s H. specialize (L j s H). destruct (Nat.eq_dec j i) as [->|N]; [rewrite L in V; discriminate V|]. destruct (O j N) as (O1 & _). rewrite O1. exact L.
  - unfold all_or_none. rewrite S3. exact A.
  - rewrite S2, S3. exact E.
Qed.
Ltac others := cbn; intros j N; rewrite ?upd_other by exact N; auto.
Lemma step_inv : forall st e, inv st -> inv (step st e).
Proof.
  intros st e I. pose proof I as [T P L A E]. destruct e as [|i ok|i r|i k|i ok|i ok|i ok|i k ok|i ok|ok|]; cbn [MoveModel.step].
  - destruct (negb (ended st) && Nat.ltb (spawned st) total && Nat.ltb (running st) limit) eqn:C; [|exact I].
    apply andb_true_iff in C as [C _]. apply andb_true_iff in C as [C1 C2]. apply Nat.ltb_lt in C2. apply negb_true_iff in C1.
    assert (W : phases st (spawned st) = Waiting).
    { specialize (P (spawned st)). unfold part in P. destruct (phases st (spawned st)) eqn:X; try reflexivity; destruct P as [P _]; lia. }
    constructor; cbn [spawned committed ended].
    + lia.
    + intros j. destruct (Nat.eq_dec j (spawned st)) as [->|N].
      * specialize (P (spawned st)). unfold part in *. cbn. rewrite upd_same. rewrite W in P. destruct P as (_ & P1 & P2). rewrite C1 in P2. cbn [negb andb] in P2.
        replace (Nat.ltb (spawned st) total) with true in P2 by (symmetry; apply Nat.ltb_lt; exact C2). split; [lia|auto].
      * specialize (P j). unfold part in *. cbn. rewrite upd_other by exact N. destruct (phases st j); destruct P as [P0 P]; (split; [lia|exact P]).
    + intros j s H. specialize (L j s H). cbn. destruct (Nat.eq_dec j (spawned st)) as [->|N]; [congruence|]. rewrite upd_other by exact N. exact L.
    + exact A.
    + exact E.
  - pose proof (P i) as Q. unfold part in Q. destruct (phases st i) eqn:X; try exact I. destruct Q as (Q1 & Q2 & Q3). rewrite Q3.
    destruct ok; (apply (local_step st i); [exact I|reflexivity|reflexivity|reflexivity|others| |rewrite X; reflexivity]); unfold part; cbn; rewrite !upd_same; auto.
  - pose proof (P i) as Q. unfold part in Q. destruct (phases st i) eqn:X; try exact I. destruct Q as (Q1 & Q2 & Q3 & Q4). destruct local eqn:Lo; [|exact I].
    destruct r; (apply (local_step st i); [exact I|reflexivity|reflexivity|reflexivity|others| |rewrite X; reflexivity]); unfold part; cbn; rewrite ?upd_same; rewrite ?upd_same; auto.
  - pose proof (P i) as Q. unfold part in Q. destruct (phases st i) eqn:X; try exact I. destruct Q as (Q1 & Q2 & Q3 & Q4 & Q5). rewrite Q3.
    apply (local_step st i); [exact I|reflexivity|reflexivity|reflexivity|others| |rewrite X; reflexivity]. unfold part. cbn. rewrite !upd_same. auto.
  - pose proof (P i) as Q. unfold part in Q. destruct (phases st i) eqn:X; try exact I. destruct Q as (Q1 & Q2 & Q3 & Q4 & Q5). rewrite Q3. destruct ok.
    + destruct (Nat.leb (length (content i)) n) eqn:Y; [|exact I]. apply Nat.leb_le in Y.
      apply (local_step st i); [exact I|reflexivity|reflexivity|reflexivity|others| |rewrite X; reflexivity]. unfold part. cbn. rewrite !upd_same.
      rewrite firstn_all2 in Q2 by exact Y. auto.
    + apply (local_step st i); [exact I|reflexivity|reflexivity|reflexivity|others| |rewrite X; reflexivity]. unfold part. cbn. rewrite !upd_same.
      split; [exact Q1|]. split; [reflexivity|]. congruence.
  - pose proof (P i) as Q. unfold part in Q. destruct (phases st i) eqn:X; try exact I. destruct Q as (Q1 & Q2 & Q3 & Q4 & Q5). destruct ok.
    + apply (local_step st i); [exact I|reflexivity|reflexivity|reflexivity|others| |rewrite X; reflexivity]. unfold part. cbn. rewrite !upd_same. auto.
    + apply (local_step st i); [exact I|reflexivity|reflexivity|reflexivity|others| |rewrite X; reflexivity]. unfold part. cbn. rewrite !upd_same.
      split; [exact Q1|]. split; [reflexivity|]. congruence.
  - pose proof (P i) as Q. unfold part in Q. destruct (phases st i) eqn:X; try exact I. destruct Q as (Q1 & Q2 & Q3 & Q4). destruct local eqn:Lo; [exact I|].
    destruct ok; (apply (local_step st i); [exact I|reflexivity|reflexivity|reflexivity|others| |rewrite X; reflexivity]); unfold part; cbn; rewrite ?upd_same; rewrite ?upd_same; auto.
  - pose proof (P i) as Q. unfold part in Q. destruct (phases st i) eqn:X; try exact I. destruct Q as (Q1 & Q2 & Q3 & Q4 & Q5).
    destruct ok; (apply (local_step st i); [exact I|reflexivity|reflexivity|reflexivity|others| |rewrite X; reflexivity]); unfold part; cbn; rewrite ?upd_same; rewrite ?upd_same; auto.
  - pose proof (P i) as Q. unfold part in Q. destruct (phases st i) eqn:X; try exact I. destruct Q as (Q1 & Q2 & Q3 & Q4 & Q5).
    destruct (Nat.leb (length (content i)) n) eqn:Y; [|exact I]. apply Nat.leb_le in Y. destruct ok.
    + apply (local_step st i); [exact I|reflexivity|reflexivity|reflexivity|others| |rewrite X; reflexivity]. unfold part. cbn. rewrite !upd_same. rewrite firstn_all2 by exact Y. auto.
    + apply (local_step st i); [exact I|reflexivity|reflexivity|reflexivity|others| |rewrite X; reflexivity]. unfold part. cbn. rewrite !upd_same. auto.
  - destruct (negb (ended st) && Nat.eqb (spawned st) total && forallb (fun i => over (phases st i)) (seq 0 total)) eqn:C; [|exact I].
    apply andb_true_iff in C as [C C3]. apply andb_true_iff in C as [C1 C2]. apply Nat.eqb_eq in C2. apply negb_true_iff in C1.
    constructor; cbn [spawned committed ended].
    + exact T.
    + intros j. specialize (P j). unfold part in *. cbn. destruct (phases st j); try exact P. destruct P as (P0 & P1 & P2). split; [exact P0|]. split; [exact P1|].
      rewrite P2, C1. cbn [negb andb]. destruct (Nat.ltb_spec j total); [lia|reflexivity].
    + intros j s H. cbn. destruct (forallb _ _ && ok); [|exact (L j s H)]. apply in_flat_map in H as (x & _ & H). unfold size_of in H.
      destruct (phases st x) eqn:X; try (destruct H; fail). destruct H as [H|[]]. injection H as <- <-. exact X.
    + unfold all_or_none. cbn. destruct (forallb _ _ && ok) eqn:F; [|exact A]. right. apply andb_true_iff in F as [F _]. revert F. generalize (seq 0 total). clear.
      induction l as [|x l IH]; intros F; [reflexivity|]. cbn in F |- *. apply andb_true_iff in F as [F1 F2]. rewrite map_app, IH by exact F2. destruct (size_of (phases st x)); [reflexivity|discriminate F1].
    + reflexivity.
  - destruct (ended st) eqn:C; [exact I|]. constructor; cbn [spawned committed ended].
    + exact T.
    + intros j. specialize (P j). unfold part in *. cbn [phases spawned store temp ended]. destruct (Nat.ltb_spec j (spawned st)) as [Y|Y].
      * destruct (phases st j); try exact P. destruct P as [P _]. lia.
      * destruct (phases st j); destruct P as [P0 P]; try (exfalso; lia). destruct P as [P1 _]. auto.
    + exact L.
    + exact A.
    + reflexivity.
Qed.
Lemma init_inv : inv (init content total).
Proof. constructor; cbn; try lia; try contradiction. - intros i. unfold part. cbn. repeat split. lia. - left. reflexivity. Qed.
Lemma from_inv : forall es st, inv st -> inv (run_from st es).
Proof. induction es as [|e es IH]; intros st H; [exact H|]. apply (IH (step st e)). apply step_inv. exact H. Qed.
Lemma run_inv : forall es, inv (run es).
Proof. intros. apply (from_inv es (init content total)), init_inv. Qed.

(* C154: at every moment, whatever fails and wherever everything stops, the files that the log names are in the store, whole, and
   their recorded sizes are right. *)
Theorem c154_whole : forall es, whole content (run es).
Proof.
  intros es i s H. pose proof (run_inv es) as I. pose proof (i_part _ I i) as P. unfold part in P. rewrite (i_log _ I i s H) in P. tauto.
Qed.
(* C154: the log names all files of the statement, or none. *)
Theorem c154_all_or_none : forall es, all_or_none total (run es).
Proof. intros es. exact (i_all _ (run_inv es)). Qed.
(* C154, stores that are not a local directory: a file can be seen under its name only when it is whole. *)
Theorem c154_remote_partial : forall es, local = false -> no_fragments content (run es).
Proof.
  intros es H i c S. pose proof (i_part _ (run_inv es) i) as P. unfold part in P. destruct (phases (run es) i); destruct P as (P0 & P1 & P2); try congruence.
  - destruct P2 as (_ & _ & P2). congruence.
  - specialize (P2 H). congruence.
Qed.
(* C154: when the statement and its tasks are over, even after errors or when it was cancelled, nothing is left in the
   temporary directory. *)
Theorem c154_tidy_partial : forall es, quiet (run es) -> tidy (run es).
Proof.
  intros es [E Q] i. pose proof (i_part _ (run_inv es) i) as P. unfold part in P. specialize (Q i). destruct (phases (run es) i) eqn:X.
  - destruct P as (_ & _ & P). rewrite P, E. reflexivity.
  - destruct P as [P _]. destruct (Q P) as [[z Z] | Z]; discriminate Z.
  - destruct P as [P _]. destruct (Q P) as [[z Z] | Z]; discriminate Z.
  - destruct P as [P _]. destruct (Q P) as [[z Z] | Z]; discriminate Z.
  - destruct P as [P _]. destruct (Q P) as [[z Z] | Z]; discriminate Z.
  - destruct P as [P _]. destruct (Q P) as [[z Z] | Z]; discriminate Z.
  - tauto.
  - tauto.
Qed.

(* C154: no more files are uploaded at the same time than the limit says. *)
Lemma filter_le : forall (f g : nat -> bool) l, (forall i, f i = true -> g i = true) -> length (filter f l) <= length (filter g l).
Proof.
  intros f g l H. induction l as [|x l IH]; [apply le_n|]. cbn. destruct (f x) eqn:F.
  - rewrite (H x F). cbn. lia.
  - destruct (g x); cbn; lia.
Qed.
Theorem c154_limit : forall es, running (run es) <= limit.
Proof.
  intros es. induction es as [|e es IH] using rev_ind; [cbn; lia|]. rewrite run_snoc. set (st := run es) in *. pose proof (run_inv es : inv st) as I.
  assert (K : forall st', spawned st' = spawned st -> (forall i, active (phases st' i) = true -> active (phases st i) = true) -> running st' <= limit).
  { intros st' S H. unfold running in *. rewrite S. etransitivity; [apply filter_le; exact H|exact IH]. }
  assert (U : forall i p, active (phases st i) = true -> forall j, active (upd (phases st) i p j) = true -> active (phases st j) = true).
  { intros i p H j. destruct (Nat.eq_dec j i) as [->|N]; [intros _; exact H|]. rewrite upd_other by exact N. auto. }
  destruct e as [|i ok|i r|i k|i ok|i ok|i ok|i k ok|i ok|ok|]; cbn [MoveModel.step].
  - destruct (negb (ended st) && Nat.ltb (spawned st) total && Nat.ltb (running st) limit) eqn:C; [|exact IH].
    apply andb_true_iff in C as [_ C]. apply Nat.ltb_lt in C. unfold running. cbn [spawned phases]. rewrite seq_S, filter_app, app_length. cbn [plus filter].
    unfold running in C. rewrite upd_same. cbn [active length].
    enough (filter (fun i => active (upd (phases st) (spawned st) Spawned i)) (seq 0 (spawned st)) = filter (fun i => active (phases st i)) (seq 0 (spawned st))) as -> by lia.
    apply filter_ext_in. intros j J. apply in_seq in J. rewrite upd_other by lia. reflexivity.
  - destruct (phases st i) eqn:X; try exact IH. destruct (temp st i); [destruct ok|]; (apply K; [reflexivity|apply U; rewrite X; reflexivity]).
  - destruct (phases st i) eqn:X; try exact IH. destruct local; [|exact IH]. destruct r; (apply K; [reflexivity|apply U; rewrite X; reflexivity]).
  - destruct (phases st i) eqn:X; try exact IH. destruct (temp st i); [|exact IH]. apply K; [reflexivity|apply U; rewrite X; reflexivity].
  - destruct (phases st i) eqn:X; try exact IH. destruct (temp st i); [|exact IH]. destruct ok; [destruct (Nat.leb _ _); [|exact IH]|]; (apply K; [reflexivity|apply U; rewrite X; reflexivity]).
  - destruct (phases st i) eqn:X; try exact IH. destruct ok; (apply K; [reflexivity|apply U; rewrite X; reflexivity]).
  - destruct (phases st i) eqn:X; try exact IH. destruct local; [exact IH|]. destruct ok; (apply K; [reflexivity|apply U; rewrite X; reflexivity]).
  - destruct (phases st i) eqn:X; try exact IH. destruct ok; (apply K; [reflexivity|apply U; rewrite X; reflexivity]).
  - destruct (phases st i) eqn:X; try exact IH. destruct (Nat.leb _ _); [|exact IH]. destruct ok; (apply K; [reflexivity|apply U; rewrite X; reflexivity]).
  - destruct (_ && _ && _); [|exact IH]. apply K; [reflexivity|auto].
  - destruct (ended st); [exact IH|]. apply K; [reflexivity|auto].
Qed.

(* what is over stays as it is *)
Lemma over_step : forall st e i, inv st -> over (phases st i) = true -> phases (step st e) i = phases st i /\ store (step st e) i = store st i.
Proof.
  intros st e i I V.
  assert (W : phases st (spawned st) = Waiting).
  { pose proof (i_part _ I (spawned st)) as P. unfold part in P. destruct (phases st (spawned st)) eqn:X; try reflexivity; destruct P as [P _]; lia. }
  assert (U : forall k (q : phase) o, over (phases st k) = false -> upd (phases st) k q i = phases st i /\ upd (store st) k o i = store st i).
  { intros k q o H. assert (i <> k) by (intros ->; congruence). rewrite !upd_other by assumption. auto. }
  destruct e as [|k ok|k r|k n|k ok|k ok|k ok|k n ok|k ok|ok|]; cbn [MoveModel.step].
  - destruct (_ && _ && _); [|auto]. cbn. rewrite upd_other; [auto|]. intros ->. rewrite W in V. discriminate V.
  - destruct (phases st k) eqn:X; auto. destruct (temp st k); [destruct ok|]; cbn; (split; [apply (U k _ None); rewrite X; reflexivity|reflexivity]).
  - destruct (phases st k) eqn:X; auto. destruct local; auto. destruct r; cbn.
    + apply U. rewrite X. reflexivity.
    + apply U. rewrite X. reflexivity.
    + split; [apply (U k _ None); rewrite X; reflexivity|reflexivity].
  - destruct (phases st k) eqn:X; auto. destruct (temp st k); auto. cbn. apply U. rewrite X. reflexivity.
  - destruct (phases st k) eqn:X; auto. destruct (temp st k); auto. destruct ok; [destruct (Nat.leb _ _); auto|]; cbn; (split; [apply (U k _ None); rewrite X; reflexivity|reflexivity]).
  - destruct (phases st k) eqn:X; auto. destruct ok; cbn; (split; [apply (U k _ None); rewrite X; reflexivity|reflexivity]).
  - destruct (phases st k) eqn:X; auto. destruct local; auto. destruct ok; cbn; (split; [apply (U k _ None); rewrite X; reflexivity|reflexivity]).
  - destruct (phases st k) eqn:X; auto. destruct ok; cbn; (split; [apply (U k _ None); rewrite X; reflexivity|reflexivity]).
  - destruct (phases st k) eqn:X; auto. destruct (Nat.leb _ _); auto. destruct ok; cbn.
    + apply U. rewrite X. reflexivity.
    + split; [apply (U k _ None); rewrite X; reflexivity|reflexivity].
  - destruct (_ && _ && _); auto.
  - destruct (ended st); auto.
Qed.
Lemma over_from : forall es st i, inv st -> over (phases st i) = true -> phases (run_from st es) i = phases st i /\ store (run_from st es) i = store st i.
Proof.
  induction es as [|e es IH]; intros st i I V; [auto|]. destruct (over_step st e i I V) as [A B].
  assert (V2 : over (phases (step st e) i) = true) by (rewrite A; exact V).
  destruct (IH (step st e) i (step_inv _ _ I) V2) as [A2 B2].
  change (run_from st (e :: es)) with (run_from (step st e) es). rewrite A2, B2, A, B. auto.
Qed.
(* a statement that can not commit any more *)
Definition hopeless (st : state) : Prop := committed st = [] /\ (ended st = true \/ exists j, j < total /\ phases st j = Failed).
Lemma hopeless_step : forall st e, inv st -> hopeless st -> hopeless (step st e).
Proof.
  intros st e I [C H].
  assert (F : (exists j, j < total /\ phases st j = Failed) -> exists j, j < total /\ phases (step st e) j = Failed).
  { intros (j & J & X). exists j. split; [exact J|]. destruct (over_step st e j I) as [A _]; [rewrite X; reflexivity|]. rewrite A. exact X. }
  assert (G : committed (step st e) = [] /\ (ended st = true -> ended (step st e) = true)).
  { destruct e as [|k ok|k r|k n|k ok|k ok|k ok|k n ok|k ok|ok|]; cbn [MoveModel.step].
    11: destruct (ended st) eqn:D; [rewrite D; auto|cbn; auto].
    1-9: repeat (match goal with |- context [match ?x with _ => _ end] => destruct x end; cbn [committed ended set_phase finish put untemp]; try (split; [exact C|auto]; fail)).
    destruct (negb (ended st) && Nat.eqb (spawned st) total && forallb (fun i => over (phases st i)) (seq 0 total)) eqn:D; [|auto].
    apply andb_true_iff in D as [D _]. apply andb_true_iff in D as [D _]. apply negb_true_iff in D. split; [|reflexivity]. cbn [committed].
    destruct H as [H|(j & J & X)]; [congruence|].
    replace (forallb _ _) with false; [exact C|]. symmetry. destruct (forallb _ _) eqn:B; [|reflexivity]. rewrite forallb_forall in B.
    specialize (B j ltac:(apply in_seq; lia)). rewrite X in B. discriminate B. }
  destruct G as [G1 G2]. split; [exact G1|]. destruct H as [H|H]; [left; auto|right; auto].
Qed.
Lemma hopeless_from : forall es st, inv st -> hopeless st -> hopeless (run_from st es).
Proof. induction es as [|e es IH]; intros st I H; [exact H|]. apply (IH (step st e)); [apply step_inv; exact I|apply hopeless_step; assumption]. Qed.

(* C154, refuted: the files of a statement that fails or is cancelled are not removed from the store: those that are there stay
   for ever, and no version of the table has them. *)
Theorem c154_orphans_refuted : forall es es' i s,
  phases (run es) i = Done s -> committed (run es) = [] ->
  (ended (run es) = true \/ exists j, j < total /\ phases (run es) j = Failed) ->
  store (run (es ++ es')) i = Some (content i) /\ committed (run (es ++ es')) = [].
Proof.
  intros es es' i s D C H. pose proof (run_inv es) as I. rewrite run_app. split.
  - destruct (over_from es' _ i I) as [_ E]; [rewrite D; reflexivity|]. rewrite E. pose proof (i_part _ I i) as P. unfold part in P. rewrite D in P. tauto.
  - destruct (hopeless_from es' _ I (conj C H)) as [X _]. exact X.
Qed.

(* C154, refuted: when the temporary directory is on another file system than a local store, files are not moved but copied. A copy
   that stops leaves a part of the file under its name, for ever. *)
Theorem c154_fragment_refuted : forall es es' i s,
  local = true -> phases (run es) i = Sized s -> content i <> [] ->
  store (run (es ++ Rename i RCross :: CopyEnd i false :: es')) i = Some [] /\ ~ no_fragments content (run (es ++ Rename i RCross :: CopyEnd i false :: es')).
Proof.
  intros es es' i s L S C. cut (store (run (es ++ Rename i RCross :: CopyEnd i false :: es')) i = Some []).
  { intros H. split; [exact H|]. intros N. apply C. symmetry. exact (N i [] H). }
  pose proof (run_inv es) as I. rewrite run_app.
  change (run_from (run es) (Rename i RCross :: CopyEnd i false :: es')) with (run_from (step (step (run es) (Rename i RCross)) (CopyEnd i false)) es').
  pose proof (i_part _ I i) as P. unfold part in P. rewrite S in P. destruct P as (_ & _ & P & _).
  set (st2 := step (step (run es) (Rename i RCross)) (CopyEnd i false)).
  assert (E : phases st2 i = Failed /\ store st2 i = Some []).
  { unfold st2. cbn [MoveModel.step]. rewrite S. rewrite L in *. cbn [set_phase put phases temp store]. rewrite upd_same, P. cbn [finish phases store]. rewrite ?upd_same. split; [reflexivity|]. cbn. apply upd_same. }
  destruct (over_from es' st2 i) as [_ X].
  - unfold st2. apply step_inv, step_inv. exact I.
  - destruct E as [E _]. rewrite E. reflexivity.
  - rewrite X. apply E.
Qed.

(* C154, refuted: a process that stops before all files have been given to tasks leaves its temporary files behind. *)
Theorem c154_temp_refuted : forall es, ended (run es) = false -> spawned (run es) < total -> ~ tidy (run es).
Proof.
  intros es E S T. specialize (T (spawned (run es))). pose proof (i_part _ (run_inv es) (spawned (run es))) as P. unfold part in P.
  destruct (phases (run es) (spawned (run es))); destruct P as [P0 P]; try lia. destruct P as [_ P]. rewrite P, E in T. cbn [negb andb] in T.
  destruct (Nat.ltb_spec (spawned (run es)) total); [discriminate T|lia].
Qed.

(* C154: nothing gets stuck: as long as no request has failed and the statement has not been cancelled, it can go on to its commit. *)
Lemma completes : forall st i, inv st -> active (phases st i) = true -> phases st i <> Failed ->
  exists es s, phases (run_from st es) i = Done s /\ (forall j, j <> i -> phases (run_from st es) j = phases st j) /\
    spawned (run_from st es) = spawned st /\ ended (run_from st es) = ended st.
Proof.
  (* from the last phases to the first *)
  assert (Z1 : forall st i s, phases st i = Copied s -> exists es s', phases (run_from st es) i = Done s' /\ (forall j, j <> i -> phases (run_from st es) j = phases st j) /\ spawned (run_from st es) = spawned st /\ ended (run_from st es) = ended st).
  { intros st i s X. exists [Remove i true], s. cbn. rewrite X. cbn. rewrite upd_same. repeat split. intros j N. apply upd_other. exact N. }
  assert (Z2 : forall st i s n, inv st -> phases st i = Copying s n -> exists es s', phases (run_from st es) i = Done s' /\ (forall j, j <> i -> phases (run_from st es) j = phases st j) /\ spawned (run_from st es) = spawned st /\ ended (run_from st es) = ended st).
  { intros st i s n I X. pose proof (i_part _ I i) as P. unfold part in P. rewrite X in P. destruct P as (_ & _ & P & _).
    exists [Copy i (length (content i)); CopyEnd i true; Remove i true], s.
    assert (E : step st (Copy i (length (content i))) = set_phase (put st i (Some (firstn (n + length (content i)) (content i)))) i (Copying s (n + length (content i)))) by (cbn; rewrite X, P; reflexivity).
    unfold run_from. cbn [fold_left]. rewrite E. cbn [MoveModel.step set_phase put phases temp]. rewrite upd_same, P.
    replace (Nat.leb (length (content i)) (n + length (content i))) with true by (symmetry; apply Nat.leb_le; lia).
    cbn [set_phase phases]. rewrite !upd_same. cbn [finish phases spawned ended]. rewrite !upd_same. repeat split. intros j N. cbn. rewrite !upd_other by exact N. reflexivity. }
  assert (Z3 : forall st i s n, phases st i = Uploading s n -> exists es s', phases (run_from st es) i = Done s' /\ (forall j, j <> i -> phases (run_from st es) j = phases st j) /\ spawned (run_from st es) = spawned st /\ ended (run_from st es) = ended st).
  { intros st i s n X. exists [Part i (length (content i)) true; Complete i true], s.
    assert (E : step st (Part i (length (content i)) true) = set_phase st i (Uploading s (n + length (content i)))) by (cbn; rewrite X; reflexivity).
    unfold run_from. cbn [fold_left]. rewrite E. cbn [MoveModel.step set_phase phases]. rewrite upd_same.
    replace (Nat.leb (length (content i)) (n + length (content i))) with true by (symmetry; apply Nat.leb_le; lia).
    cbn [finish put phases spawned ended]. rewrite !upd_same. repeat split. intros j N. cbn. rewrite !upd_other by exact N. reflexivity. }
  assert (Z4 : forall st i s, phases st i = Sized s -> exists es s', phases (run_from st es) i = Done s' /\ (forall j, j <> i -> phases (run_from st es) j = phases st j) /\ spawned (run_from st es) = spawned st /\ ended (run_from st es) = ended st).
  { intros st i s X. destruct local eqn:L.
    - exists [Rename i ROk], s. unfold run_from. cbn [fold_left MoveModel.step]. rewrite X, L. cbn [finish put phases spawned ended]. rewrite upd_same. repeat split. intros j N. apply upd_other. exact N.
    - destruct (Z3 (step st (Open i true)) i s 0) as (es & s' & A & B & C & D).
      + cbn [MoveModel.step]. rewrite X, L. cbn. apply upd_same.
      + exists (Open i true :: es), s'. change (run_from st (Open i true :: es)) with (run_from (step st (Open i true)) es). rewrite A, C, D. split; [reflexivity|].
        assert (E : step st (Open i true) = set_phase (untemp st i) i (Uploading s 0)) by (cbn [MoveModel.step]; rewrite X, L; reflexivity). rewrite E.
        split; [|cbn; auto]. intros j N. rewrite <- E, (B j N), E. cbn. apply upd_other. exact N. }
  intros st i I A _. destruct (phases st i) eqn:X; try discriminate A.
  - pose proof (i_part _ I i) as P. unfold part in P. rewrite X in P. destruct P as (_ & _ & P).
    assert (E : step st (Size i true) = set_phase st i (Sized (length (content i)))) by (cbn [MoveModel.step]; rewrite X, P; reflexivity).
    destruct (Z4 (step st (Size i true)) i (length (content i))) as (es & s' & B1 & B2 & B3 & B4); [rewrite E; cbn; apply upd_same|].
    exists (Size i true :: es), s'. change (run_from st (Size i true :: es)) with (run_from (step st (Size i true)) es). rewrite B1, B3, B4. split; [reflexivity|]. rewrite E.
    split; [|cbn; auto]. intros j N. rewrite <- E, (B2 j N), E. cbn. apply upd_other. exact N.
  - exact (Z4 st i _ X).
  - exact (Z2 st i _ _ I X).
  - exact (Z1 st i _ X).
  - exact (Z3 st i _ _ X).
Qed.
Lemma from_app : forall a b st, run_from st (a ++ b) = run_from (run_from st a) b.
Proof. intros. apply fold_left_app. Qed.
Lemma settles : forall n st, inv st -> n <= spawned st -> (forall i, phases st i <> Failed) ->
  exists es, (forall i, i < n -> exists s, phases (run_from st es) i = Done s) /\ (forall j, n <= j -> phases (run_from st es) j = phases st j) /\
    spawned (run_from st es) = spawned st /\ ended (run_from st es) = ended st.
Proof.
  induction n as [|n IH]; intros st I H F; [exists []; cbn; repeat split; auto; lia|].
  destruct (IH st I ltac:(lia) F) as (es & A & B & C & D). set (s1 := run_from st es) in *. assert (I1 : inv s1) by (apply from_inv; exact I).
  destruct (over (phases s1 n)) eqn:V.
  - exists es. fold s1. split; [|split; [intros j J; apply B; lia|auto]]. intros i Hi. destruct (Nat.eq_dec i n) as [->|N]; [|apply A; lia].
    destruct (phases s1 n) eqn:X; try discriminate V; [exists size; reflexivity|]. exfalso. apply (F n). rewrite <- (B n (le_n n)). exact X.
  - assert (Ac : active (phases s1 n) = true).
    { pose proof (i_part _ I1 n) as P. unfold part in P. destruct (phases s1 n) eqn:X; try reflexivity; try discriminate V. destruct P as [P _]. lia. }
    destruct (completes s1 n I1 Ac) as (es2 & s2 & A2 & B2 & C2 & D2); [intros X; rewrite X in V; discriminate V|].
    exists (es ++ es2). rewrite from_app. fold s1. rewrite C2, D2. split; [|split; [|auto]].
    + intros i Hi. destruct (Nat.eq_dec i n) as [->|N]; [exists s2; exact A2|]. rewrite (B2 i N). apply A. lia.
    + intros j J. rewrite B2 by lia. apply B. lia.
Qed.
Theorem c154_progress : forall es,
  0 < limit -> ended (run es) = false -> (forall i, phases (run es) i <> Failed) ->
  exists es', map fst (committed (run (es ++ es'))) = seq 0 total.
Proof.
  intros es Hl E F. pose proof (run_inv es) as I. set (st := run es) in *.
  cut (exists es', spawned (run_from st es') = total /\ ended (run_from st es') = false /\ forall i, i < total -> exists s, phases (run_from st es') i = Done s).
  { intros (es' & A & B & C). exists (es' ++ [Finish true]). rewrite run_app. fold st. rewrite from_app. set (s1 := run_from st es') in *.
    unfold run_from. cbn [fold_left MoveModel.step]. rewrite A, B, Nat.eqb_refl.
    assert (G : forall l, (forall i, In i l -> i < total) -> forallb (fun i => over (phases s1 i)) l = true /\ forallb (fun i => match size_of (phases s1 i) with Some _ => true | None => false end) l = true /\
                map fst (flat_map (fun i => match size_of (phases s1 i) with Some s => [(i, s)] | None => [] end) l) = l).
    { induction l as [|x l IH]; intros H; [auto|]. destruct IH as (G1 & G2 & G3); [intros i Hi; apply H; right; exact Hi|]. destruct (C x (H x (or_introl eq_refl))) as [s X].
      cbn. rewrite X. cbn. rewrite G1, G2, G3. auto. }
    destruct (G (seq 0 total)) as (G1 & G2 & G3); [intros i Hi; apply in_seq in Hi; lia|]. rewrite G1, G2. cbn [negb andb committed]. exact G3. }
  assert (W : forall m st, inv st -> total - spawned st = m -> ended st = false -> (forall i, phases st i <> Failed) ->
              exists es', spawned (run_from st es') = total /\ ended (run_from st es') = false /\ forall i, i < total -> exists s, phases (run_from st es') i = Done s).
  { clear - Hl. induction m as [|m IH]; intros st I M E F; destruct (settles (spawned st) st I (le_n _) F) as (es & A & B & C & D).
    - exists es. pose proof (i_total _ I). assert (S : spawned st = total) by lia. rewrite C, D. split; [exact S|]. split; [exact E|]. intros i Hi. apply A. lia.
    - set (s1 := run_from st es) in *. assert (I1 : inv s1) by (apply from_inv; exact I).
      assert (R : running s1 = 0).
      { unfold running. rewrite C. enough (filter (fun i => active (phases s1 i)) (seq 0 (spawned st)) = []) as -> by reflexivity.
        assert (Y : forall l, (forall i, In i l -> i < spawned st) -> filter (fun i => active (phases s1 i)) l = []).
        { induction l as [|x l IHl]; intros H; [reflexivity|]. cbn. destruct (A x (H x (or_introl eq_refl))) as [s X]. rewrite X. cbn. apply IHl. intros i Hi. apply H. right. exact Hi. }
        apply Y. intros i Hi. apply in_seq in Hi. lia. }
      assert (S2 : step s1 Spawn = {| phases := upd (phases s1) (spawned s1) Spawned; temp := temp s1; store := store s1; spawned := S (spawned s1); ended := ended s1; committed := committed s1 |}).
      { cbn [MoveModel.step]. rewrite R, C, D, E. replace (Nat.ltb (spawned st) total) with true by (symmetry; apply Nat.ltb_lt; lia).
        replace (Nat.ltb 0 limit) with true by (symmetry; apply Nat.ltb_lt; exact Hl). reflexivity. }
      destruct (IH (step s1 Spawn)) as (es' & P1 & P2 & P3).
      + apply step_inv. exact I1.
      + rewrite S2. cbn [spawned]. rewrite C. lia.
      + rewrite S2. cbn [ended]. rewrite D. exact E.
      + intros i. rewrite S2. cbn [phases]. destruct (Nat.eq_dec i (spawned s1)) as [->|N]; [rewrite upd_same; discriminate|]. rewrite upd_other by exact N.
        destruct (le_lt_dec (spawned st) i) as [Y|Y]; [rewrite B by exact Y; apply F|]. destruct (A i Y) as [s X]. rewrite X. discriminate.
      + exists (es ++ Spawn :: es'). rewrite from_app. fold s1. change (run_from s1 (Spawn :: es')) with (run_from (step s1 Spawn) es'). auto. }
  exact (W _ st I eq_refl E F).
Qed.
End P.
Print Assumptions c154_whole.
Print Assumptions c154_all_or_none.
Print Assumptions c154_remote_partial.
Print Assumptions c154_tidy_partial.
Print Assumptions c154_limit.
Print Assumptions c154_progress.
Print Assumptions c154_orphans_refuted.
Print Assumptions c154_fragment_refuted.
Print Assumptions c154_temp_refuted.

(* two parts, the first moved, the second copied to another file system *)
Definition ex_content (i : nat) : list nat := match i with 0 => [7; 8] | _ => [9] end.
Definition ex_moves : list event :=
  [Spawn; Spawn; Size 1 true; Size 0 true; Rename 0 ROk; Rename 1 RCross; Copy 1 1; CopyEnd 1 true; Remove 1 true; Finish true].
Example ex_committed :
  let st := run 5 true ex_content 2 ex_moves in
  committed st = [(0, 2); (1, 1)] /\ store st 0 = Some [7; 8] /\ store st 1 = Some [9] /\ quiet st.
Proof. cbn. repeat split. intros i H. destruct i as [|[|i]]; [left; eexists; reflexivity|left; eexists; reflexivity|]. exfalso. cbn in H. lia. Qed.
Example ex_uploaded :
  let st := run 5 false ex_content 2 [Spawn; Size 0 true; Open 0 true; Spawn; Part 0 1 true; Size 1 true; Open 1 true; Part 1 1 true; Part 0 1 true; Complete 1 true] in
  store st 1 = Some [9] /\ store st 0 = None /\ committed st = [] /\ running st = 1.
Proof. cbn. auto. Qed.
(* c154_orphans_refuted: the first file is there, the second upload has failed *)
Example ex_orphan :
  let st := run 5 false ex_content 2 [Spawn; Size 0 true; Open 0 true; Spawn; Part 0 2 true; Complete 0 true; Size 1 true; Open 1 false] in
  phases st 0 = Done 2 /\ committed st = [] /\ phases st 1 = Failed.
Proof. cbn. auto. Qed.
Example ex_fragment : phases (run 5 true ex_content 2 [Spawn; Size 0 true]) 0 = Sized 2 /\ ex_content 0 <> [].
Proof. cbn. split; [reflexivity|discriminate]. Qed.
Example ex_limit : running (run 1 true ex_content 2 [Spawn; Spawn]) = 1 /\ spawned (run 1 true ex_content 2 [Spawn; Spawn]) = 1.
Proof. cbn. auto. Qed.
