(* C156: how the server stops.
   Specification: StopSpec.v. Model: StopModel.v. *)
From Coq Require Import List Arith Bool Lia.
From Verif Require Import StopModel StopSpec.
Import ListNotations.

Section P.
Variable limit : nat.
Variable cfg : config.
Notation act := (act limit cfg).
Notation step := (step limit cfg).
Notation run := (run limit cfg).
Notation settle := (settle cfg).
Definition run_from (st : state) (es : list event) : state := fold_left step es st.
Lemma run_app : forall a b, run (a ++ b) = run_from (run a) b.
Proof. intros. apply fold_left_app. Qed.
Lemma run_snoc : forall es e, run (es ++ [e]) = step (run es) e.
Proof. intros. rewrite run_app. reflexivity. Qed.
Lemma step_over : forall st e r, now st = Exited r -> step st e = st.
Proof. intros st e r H. unfold StopModel.step, exited. rewrite H. reflexivity. Qed.
Lemma from_over : forall es st r, now st = Exited r -> run_from st es = st.
Proof. induction es as [|e es IH]; intros st r H; [reflexivity|]. unfold run_from. cbn [fold_left]. rewrite (step_over st e r H). exact (IH st r H). Qed.
Lemma settle_fields : forall st, settle st = st \/ exists r n, now st = Stopping n /\ settle st = exit st r /\ r <> TimedOut /\ all_over cfg st = true /\ (failed st = false -> r = Clean).
Proof.
  intros st. unfold StopModel.settle. destruct (now st) as [|n|r] eqn:N; auto. destruct (all_over cfg st) eqn:A; auto. right. exists (if failed st then Panicked else Clean), n.
  destruct (failed st); repeat split; try discriminate; auto.
Qed.

(* C156: once it is asked to stop, the server takes no more requests. *)
Theorem c156_no_new : forall es es', asked (run es) -> incl (taken (run (es ++ es'))) (taken (run es)).
Proof.
  intros es es' H. rewrite run_app. generalize dependent (run es). clear es. induction es' as [|e es' IH]; intros st H; [apply incl_refl|].
  change (run_from st (e :: es')) with (run_from (step st e) es').
  assert (F : incl (filter (fun x => negb (same x x)) []) (busy st)) by (intros x []).
  assert (A : asked (act st e) /\ incl (taken (act st e)) (taken st)).
  { unfold asked, taken in *. destruct e as [f id|f id|c| | |f|]; cbn [StopModel.act].
    - destruct (now st) eqn:N; [destruct (H eq_refl)|rewrite N; split; [exact H|apply incl_refl]..].
    - destruct (mem (f, id) (busy st)) eqn:M; [|split; [exact H|apply incl_refl]]. cbn [now answered busy cut]. split; [exact H|].
      intros x X. rewrite !in_app_iff in *. destruct X as [[X|X]|[X|X]]; auto.
      + destruct X as [<-|[]]. unfold mem in M. apply existsb_exists in M as (y & Y & S). unfold same in S. cbn in S. apply andb_true_iff in S as [S1 S2].
        apply Nat.eqb_eq in S2. right. left. destruct y as [g j]. cbn in *. subst j. destruct f, g; try discriminate S1; exact Y.
      + apply filter_In in X as [X _]. auto.
    - destruct (existsb _ (busy st)); split; try exact H; apply incl_refl.
    - split; [exact H|apply incl_refl].
    - destruct (now st) eqn:N; [destruct (H eq_refl)|rewrite N; split; [exact H|apply incl_refl]..].
    - destruct (enabled cfg f); [|split; [exact H|apply incl_refl]]. destruct (now st) eqn:N; [destruct (H eq_refl)|cbn; split; [discriminate|apply incl_refl]..].
    - destruct (now st) eqn:N; [destruct (H eq_refl)| |rewrite N; split; [exact H|apply incl_refl]]. destruct (Nat.leb limit (S elapsed)); cbn; (split; [discriminate|]); [|apply incl_refl].
      intros x X. rewrite !in_app_iff in *. cbn in X. tauto. }
  assert (B : asked (step st e) /\ incl (taken (step st e)) (taken st)).
  { unfold StopModel.step. destruct (exited st); [split; [exact H|apply incl_refl]|]. destruct A as [A1 A2]. destruct (settle_fields (act st e)) as [->|(r & n & N & -> & _)]; [auto|].
    split; [cbn; discriminate|]. intros x X. apply A2. unfold taken in *. cbn in X. rewrite !in_app_iff in *. tauto. }
  intros x X. apply (proj2 B). exact (IH (step st e) (proj1 B) x X).
Qed.

(* C156: requests of HTTP and Flight that run when the server is asked to stop are given the whole time: only when it is up are they cut
   off. *)
Definition only_late (st : state) : Prop := forall f id, In (f, id) (cut st) -> f = Postgres \/ now st = Exited TimedOut.
Lemma late_step : forall st e, only_late st -> (exited st = false -> cut st = []) -> only_late (step st e) /\ (exited (step st e) = false -> cut (step st e) = []).
Proof.
  intros st e H C. unfold StopModel.step. destruct (exited st) eqn:X; [rewrite X; auto|]. specialize (C eq_refl).
  assert (A : (exited (act st e) = false /\ cut (act st e) = []) \/ now (act st e) = Exited TimedOut).
  { unfold exited in *. destruct e as [f id|f id|c| | |f|]; cbn [StopModel.act].
    - destruct (now st) eqn:N; try discriminate X; [destruct (_ && _)|]; cbn; rewrite ?N; auto.
    - destruct (mem _ _); cbn; auto.
    - destruct (existsb _ _); cbn; auto.
    - cbn; auto.
    - destruct (now st) eqn:N; try discriminate X; cbn; rewrite ?N; auto.
    - destruct (enabled cfg f); [|auto]. destruct (now st) eqn:N; try discriminate X; cbn; auto.
    - destruct (now st) eqn:N; try discriminate X; [rewrite N; auto|]. destruct (Nat.leb _ _); cbn; auto. }
  destruct A as [[A1 A2]|A].
  - destruct (settle_fields (act st e)) as [->|(r & n & N & -> & _ & O & _)].
    + split; [intros f id I; rewrite A2 in I; destruct I|auto].
    + split; [|cbn; discriminate]. intros f id I. cbn in I. rewrite A2 in I. cbn [app] in I. unfold all_over in O. apply andb_true_iff in O as [_ O]. rewrite forallb_forall in O.
      specialize (O _ I). cbn in O. destruct f; try discriminate O. auto.
  - unfold StopModel.settle. rewrite A. split; [intros f id _; auto|]. unfold exited. rewrite A. discriminate.
Qed.
Lemma run_late : forall es, only_late (run es) /\ (exited (run es) = false -> cut (run es) = []).
Proof.
  intros es. induction es as [|e es IH] using rev_ind; [split; [intros f id []|reflexivity]|]. rewrite run_snoc. destruct IH as [A B]. exact (late_step _ e A B).
Qed.
Theorem c156_waits_partial : forall es f id, In (f, id) (cut (run es)) -> f = Postgres \/ now (run es) = Exited TimedOut.
Proof. intros es. exact (proj1 (run_late es)). Qed.

(* C156: whatever runs, the program is over when the time is up. *)
Lemma stopping_ticks : forall es st n, now st = Stopping n -> over (run_from st es) \/ exists m, now (run_from st es) = Stopping m /\ n + ticks es <= m /\ (ticks es = 0 \/ m < limit).
Proof.
  induction es as [|e es IH]; intros st n H; [right; exists n; cbn; repeat split; [exact H|lia|auto]|]. change (run_from st (e :: es)) with (run_from (step st e) es).
  assert (S : over (step st e) \/ exists m, now (step st e) = Stopping m /\ n + ticks [e] <= m /\ (ticks [e] = 0 \/ m < limit)).
  { unfold StopModel.step, exited. rewrite H.
    assert (A : over (act st e) \/ exists m, now (act st e) = Stopping m /\ n + ticks [e] <= m /\ (ticks [e] = 0 \/ m < limit)).
    { destruct e as [f id|f id|c| | |f|]; cbn [StopModel.act ticks].
      - rewrite H. right. exists n. repeat split; [exact H|lia|auto].
      - right. exists n. destruct (mem _ _); cbn; (repeat split; [exact H|lia|auto]).
      - right. exists n. destruct (existsb _ _); cbn; (repeat split; [exact H|lia|auto]).
      - right. exists n. cbn. repeat split; [exact H|lia|auto].
      - rewrite H. right. exists n. repeat split; [exact H|lia|auto].
      - right. exists n. destruct (enabled cfg f); [rewrite H; cbn; split; [reflexivity|split; [lia|auto]]|split; [exact H|split; [lia|auto]]].
      - rewrite H. destruct (Nat.leb_spec limit (S n)); [left; exists TimedOut; reflexivity|]. right. exists (S n). cbn. repeat split; [lia|]. right. exact H0. }
    destruct (settle_fields (act st e)) as [->|(r & k & _ & -> & _)]; [exact A|]. left. exists r. reflexivity. }
  destruct S as [(r & S)|(m & S & L & T)].
  - left. rewrite (from_over es _ r S). exists r. exact S.
  - destruct (IH _ m S) as [O|(k & K1 & K2 & K3)]; [left; exact O|]. right. exists k. split; [exact K1|]. destruct e; cbn [ticks] in *; split; try lia; try tauto.
    destruct T as [T|T]; [discriminate T|]. right. destruct K3 as [K3|K3]; [|exact K3]. clear IH.
    (* no more ticks: the elapsed time does not change *)
    assert (Q : forall l s, ticks l = 0 -> forall a b, now s = Stopping a -> now (run_from s l) = Stopping b -> a = b).
    { induction l as [|x l IHl]; intros s Z a b Ha Hb; [cbn in Hb; congruence|]. change (run_from s (x :: l)) with (run_from (step s x) l) in Hb.
      assert (W : now (step s x) = Stopping a \/ exists r, now (step s x) = Exited r).
      { unfold StopModel.step, exited. rewrite Ha. assert (Y : now (act s x) = Stopping a).
        { destruct x as [f id|f id|c| | |f|]; cbn [StopModel.act]; try rewrite Ha; try exact Ha; try discriminate Z.
          - destruct (mem _ _); (exact Ha || reflexivity).
          - destruct (existsb _ _); (exact Ha || reflexivity).
          - reflexivity.
          - destruct (enabled cfg f); [reflexivity|exact Ha]. }
        destruct (settle_fields (act s x)) as [->|(r & k' & _ & -> & _)]; [left; exact Y|right; exists r; reflexivity]. }
      destruct W as [W|[r W]]; [|rewrite (from_over l _ r W), W in Hb; discriminate Hb]. apply (IHl (step s x)); [destruct x; cbn in Z; (exact Z || discriminate Z)|exact W|exact Hb]. }
    rewrite <- (Q es _ K3 m k S K1). exact T.
Qed.
Theorem c156_bounded : forall es es', asked (run es) -> limit <= ticks es' -> 0 < limit -> over (run (es ++ es')).
Proof.
  intros es es' H L P. rewrite run_app. unfold asked in H. destruct (now (run es)) as [|n|r] eqn:N; [destruct (H eq_refl)| |].
  - destruct (stopping_ticks es' (run es) n N) as [O|(m & _ & A & [B|B])]; [exact O|lia|lia].
  - rewrite (from_over es' _ r N). exists r. exact N.
Qed.

(* what is known of a server without garbage collection *)
Definition calm (st : state) : Prop := failed st = false /\ now st <> Exited Panicked /\ (forall n, now st = Stopping n -> all_over cfg st = false).
Lemma calm_step : forall st e, (forall f, e <> Fail f) -> calm st -> calm (step st e).
Proof.
  intros st e NF (F & P & S). unfold StopModel.step. destruct (exited st) eqn:X; [repeat split; assumption|].
  assert (A : failed (act st e) = false /\ now (act st e) <> Exited Panicked).
  { destruct e as [f id|f id|c| | |f|]; cbn [StopModel.act].
    - destruct (now st) eqn:N; [destruct (_ && _)|..]; cbn; rewrite ?N; auto.
    - destruct (mem _ _); cbn; auto.
    - destruct (existsb _ _); cbn; auto.
    - cbn; auto.
    - destruct (now st) eqn:N; cbn; rewrite ?N; split; auto; discriminate.
    - destruct (NF f eq_refl).
    - destruct (now st) eqn:N; cbn; rewrite ?N; auto. destruct (Nat.leb _ _); cbn; split; auto; discriminate. }
  destruct A as [A1 A2]. destruct (settle_fields (act st e)) as [E|(r & n & _ & -> & _ & _ & C)].
  - rewrite E. repeat split; [exact A1|exact A2|]. intros n N. unfold StopModel.settle in E. rewrite N in E. destruct (all_over cfg (act st e)) eqn:O; [|reflexivity].
    rewrite <- E in N. discriminate N.
  - repeat split; [exact A1| |cbn; discriminate]. cbn. rewrite (C A1). discriminate.
Qed.
Lemma run_calm : forall es, serves cfg -> healthy es -> calm (run es).
Proof.
  intros es V. induction es as [|e es IH] using rev_ind; intros H.
  - assert (E : http cfg || flight cfg || postgres cfg = true) by (destruct V as [V|[V|V]]; rewrite V, ?orb_true_r; reflexivity).
    unfold calm, StopModel.run. cbn [fold_left]. unfold init. rewrite E. cbn. repeat split; discriminate.
  - rewrite run_snoc. apply calm_step; [intros f ->; apply (H f), in_or_app; right; left; reflexivity|]. apply IH. intros f X. apply (H f), in_or_app. left. exact X.
Qed.
(* C156, without garbage collection: the server that is stopping still has a request of HTTP or Flight to answer, so it ends with the last
   of them; and it ends without an error unless the time is up. *)
Theorem c156_clean_partial : forall es,
  serves cfg -> healthy es -> gc cfg = false ->
  (forall n, now (run es) = Stopping n -> exists f id, In (f, id) (busy (run es)) /\ f <> Postgres) /\
  (over (run es) -> now (run es) = Exited Clean \/ now (run es) = Exited TimedOut).
Proof.
  intros es V H G. destruct (run_calm es V H) as (_ & P & S). split.
  - intros n N. specialize (S n N). unfold all_over in S. rewrite G in S. cbn [negb andb] in S.
    assert (E : exists x, In x (busy (run es)) /\ fst x <> Postgres).
    { revert S. generalize (busy (run es)). clear. induction l as [|x l IH]; intros S; [discriminate S|]. cbn in S. destruct (fst x) eqn:X; [exists x; split; [left; reflexivity|congruence]..|].
      cbn in S. destruct (IH S) as (y & Y1 & Y2). exists y. split; [right; exact Y1|exact Y2]. }
    destruct E as ([f id] & E1 & E2). exists f, id. auto.
  - intros [r R]. destruct r; auto. contradiction.
Qed.

(* C156, refuted: the garbage collection never ends, so every server that has it ends with an error, and only when the whole time is
   up, even if it has nothing to do. *)
Lemma gc_step : forall st e, gc cfg = true -> (forall r, now st = Exited r -> r = TimedOut) -> forall r, now (step st e) = Exited r -> r = TimedOut.
Proof.
  intros st e G H r. unfold StopModel.step. destruct (exited st) eqn:X; [exact (H r)|]. unfold exited in X.
  assert (S : settle (act st e) = act st e).
  { unfold StopModel.settle. destruct (now (act st e)); auto. unfold all_over. rewrite G. reflexivity. }
  rewrite S. destruct e as [f id|f id|c| | |f|]; cbn [StopModel.act].
  - destruct (now st) eqn:N; [destruct (_ && _)|..]; cbn; rewrite ?N; try discriminate; discriminate X.
  - destruct (mem _ _); exact (H r).
  - destruct (existsb _ _); exact (H r).
  - exact (H r).
  - destruct (now st) eqn:N; cbn; rewrite ?N; try discriminate; discriminate X.
  - destruct (enabled cfg f); [|exact (H r)]. destruct (now st) eqn:N; cbn; try discriminate; discriminate X.
  - destruct (now st) eqn:N; [rewrite N; discriminate| |discriminate X]. destruct (Nat.leb _ _); cbn; [|discriminate]. intros E. injection E as <-. reflexivity.
Qed.
Theorem c156_gc_refuted : forall es, serves cfg -> gc cfg = true -> over (run es) -> now (run es) = Exited TimedOut.
Proof.
  intros es V G [r R]. enough (r = TimedOut) as -> by exact R. revert r R. induction es as [|e es IH] using rev_ind; intros r R.
  - assert (E : http cfg || flight cfg || postgres cfg = true) by (destruct V as [V|[V|V]]; rewrite V, ?orb_true_r; reflexivity). unfold StopModel.run in R. cbn in R. rewrite E in R. discriminate R.
  - rewrite run_snoc in R. exact (gc_step (run es) e G IH r R).
Qed.

(* C156, refuted: without garbage collection, the statements of the Postgres frontend are not waited for: when nothing else runs, they
   are cut off at once. *)
Theorem c156_postgres_refuted : forall es es' id,
  gc cfg = false -> now (run es) = Running -> In (Postgres, id) (busy (run es)) -> (forall f i, In (f, i) (busy (run es)) -> f = Postgres) ->
  over (run (es ++ Signal :: es')) /\ In (Postgres, id) (cut (run (es ++ Signal :: es'))).
Proof.
  intros es es' id G N I O. rewrite run_app. change (run_from (run es) (Signal :: es')) with (run_from (step (run es) Signal) es').
  assert (E : exists r, step (run es) Signal = exit (with_now (run es) (Stopping 0) (failed (run es))) r).
  { unfold StopModel.step, exited. rewrite N. cbn [StopModel.act]. rewrite N. unfold StopModel.settle. cbn [now with_now].
    replace (all_over cfg (with_now (run es) (Stopping 0) (failed (run es)))) with true; [eauto|]. symmetry. unfold all_over. rewrite G. cbn. apply forallb_forall.
    intros [f i] X. rewrite (O f i X). reflexivity. }
  destruct E as [r E]. rewrite E, (from_over es' (exit (with_now (run es) (Stopping 0) (failed (run es))) r) r eq_refl). split; [exists r; reflexivity|]. cbn. apply in_or_app. right. exact I.
Qed.

(* where the changes are *)
Lemma over_empty : forall es, over (run es) -> pending (run es) = [].
Proof.
  intros es. induction es as [|e es IH] using rev_ind; [reflexivity|]. rewrite run_snoc. intros [r R]. unfold StopModel.step in *. destruct (exited (run es)) eqn:X; [apply IH; exists r; exact R|].
  destruct (settle_fields (act (run es) e)) as [E|(r' & n & _ & E & _)]; [|rewrite E; reflexivity]. rewrite E in R |- *. clear E.
  unfold exited in X. destruct e as [f id|f id|c| | |f|]; cbn [StopModel.act] in *.
  - destruct (now (run es)) eqn:N; try discriminate X; [destruct (_ && _)|]; cbn in R; rewrite ?N in R; discriminate R.
  - destruct (mem _ _); cbn in R; rewrite R in X; discriminate X.
  - destruct (existsb _ _); cbn in R; rewrite R in X; discriminate X.
  - reflexivity.
  - destruct (now (run es)) eqn:N; try discriminate X; cbn in R; rewrite ?N in R; discriminate R.
  - destruct (enabled cfg f); [|rewrite R in X; discriminate X]. destruct (now (run es)) eqn:N; try discriminate X; cbn in R; discriminate R.
  - destruct (now (run es)) eqn:N; try discriminate X; [rewrite N in R; discriminate R|]. destruct (Nat.leb _ _); [reflexivity|cbn in R; discriminate R].
Qed.
Lemma change_step : forall st e c, e <> Flush -> In c (pending st) -> In c (pending (step st e)) \/ In c (lost (step st e)).
Proof.
  intros st e c NF I. unfold StopModel.step. destruct (exited st); [auto|].
  assert (A : In c (pending (act st e)) \/ In c (lost (act st e))).
  { destruct e as [f id|f id|d| | |f|]; cbn [StopModel.act].
    - destruct (now st); [destruct (_ && _)|..]; auto.
    - destruct (mem _ _); auto.
    - destruct (existsb _ _); [left; cbn; apply in_or_app|]; auto.
    - destruct (NF eq_refl).
    - destruct (now st); auto.
    - destruct (enabled cfg f); auto. destruct (now st); auto.
    - destruct (now st); auto. destruct (Nat.leb _ _); auto. right. cbn. apply in_or_app. auto. }
  destruct (settle_fields (act st e)) as [->|(r & n & _ & -> & _)]; [exact A|]. right. cbn. apply in_or_app. tauto.
Qed.
Lemma lost_step : forall st e c, In c (lost st) -> In c (lost (step st e)).
Proof.
  intros st e c I. unfold StopModel.step. destruct (exited st); [auto|].
  assert (A : In c (lost (act st e))).
  { destruct e as [f id|f id|d| | |f|]; cbn [StopModel.act].
    - destruct (now st); [destruct (_ && _)|..]; auto.
    - destruct (mem _ _); auto.
    - destruct (existsb _ _); auto.
    - exact I.
    - destruct (now st); auto.
    - destruct (enabled cfg f); auto. destruct (now st); auto.
    - destruct (now st); auto. destruct (Nat.leb _ _); auto. cbn. apply in_or_app. auto. }
  destruct (settle_fields (act st e)) as [->|(r & n & _ & -> & _)]; [exact A|]. cbn. apply in_or_app. auto.
Qed.
(* C156, refuted: stopping does not flush: what the sync clients have sent and the background task has not flushed is lost. *)
Theorem c156_pending_refuted : forall es es' c,
  In c (pending (run es)) -> no_flush es' -> over (run (es ++ es')) -> In c (lost (run (es ++ es'))).
Proof.
  intros es es' c I F O.
  assert (A : In c (pending (run (es ++ es'))) \/ In c (lost (run (es ++ es')))).
  { clear O. rewrite run_app. apply or_introl with (B := In c (lost (run es))) in I. revert I F. generalize (run es). clear es. induction es' as [|e es' IH]; intros st I F; [exact I|].
    apply (IH (step st e)); [|intros X; apply F; right; exact X]. destruct I as [I|I]; [|right; apply lost_step; exact I]. apply change_step; [|exact I]. intros ->. apply F. left. reflexivity. }
  destruct A as [A|A]; [|exact A]. rewrite (over_empty _ O) in A. destruct A.
Qed.
(* C156: every change that a client has sent is flushed, in memory or lost, and only the end of the program loses changes. *)
Theorem c156_accounted : forall es, (~ over (run es) -> lost (run es) = []) /\ forall e c, In c (pending (run es)) ->
  In c (pending (run (es ++ [e]))) \/ In c (durable (run (es ++ [e]))) \/ (In c (lost (run (es ++ [e]))) /\ over (run (es ++ [e]))).
Proof.
  assert (L : forall es, ~ over (run es) -> lost (run es) = []).
  { intros es. induction es as [|e es IH] using rev_ind; [reflexivity|]. rewrite run_snoc. intros O. assert (O' : ~ over (run es)).
    { intros [r R]. apply O. rewrite (step_over _ e r R). exists r. exact R. }
    specialize (IH O'). unfold StopModel.step in *. destruct (exited (run es)); [exact IH|]. destruct (settle_fields (act (run es) e)) as [E|(r & n & _ & E & _)]; rewrite E in O |- *; clear E; [|destruct O; exists r; reflexivity].
    destruct e as [f id|f id|d| | |f|]; cbn [StopModel.act] in *.
    - destruct (now (run es)); [destruct (_ && _)|..]; exact IH.
    - destruct (mem _ _); exact IH.
    - destruct (existsb _ _); exact IH.
    - exact IH.
    - destruct (now (run es)); exact IH.
    - destruct (enabled cfg f); [|exact IH]. destruct (now (run es)); exact IH.
    - destruct (now (run es)); try exact IH. destruct (Nat.leb _ _); [destruct O; exists TimedOut; reflexivity|exact IH]. }
  intros es. split; [apply L|]. intros e c I. destruct (exited (run es)) eqn:X.
  - unfold exited in X. destruct (now (run es)) eqn:N; try discriminate X. rewrite (over_empty es) in I by (exists r; exact N). destruct I.
  - assert (D : e = Flush \/ e <> Flush) by (destruct e; auto; right; discriminate). destruct D as [->|D].
    + right. left. rewrite run_snoc. unfold StopModel.step. rewrite X. assert (A : In c (durable (act (run es) Flush))) by (cbn; apply in_or_app; auto).
      destruct (settle_fields (act (run es) Flush)) as [->|(r & n & _ & -> & _)]; exact A.
    + rewrite run_snoc. destruct (change_step (run es) e c D I) as [A|A]; [auto|]. right. right. split; [exact A|]. rewrite <- run_snoc in *.
      destruct (now (run (es ++ [e]))) as [|n|r] eqn:N; [| |exists r; exact N]; rewrite (L (es ++ [e])) in A; try (intros [r R]; congruence); destruct A.
Qed.
End P.
Print Assumptions c156_no_new.
Print Assumptions c156_waits_partial.
Print Assumptions c156_bounded.
Print Assumptions c156_clean_partial.
Print Assumptions c156_accounted.
Print Assumptions c156_gc_refuted.
Print Assumptions c156_postgres_refuted.
Print Assumptions c156_pending_refuted.

Definition ex_plain : config := {| http := true; flight := true; postgres := true; gc := false |}.
Definition ex_gc : config := {| http := true; flight := true; postgres := false; gc := true |}.
(* the request is answered in time, the server ends *)
Example ex_clean :
  let st := run 5 ex_plain [Arrive Http 1; Arrive Flight 2; Change 7; Flush; Answer Flight 2; Signal; Arrive Http 3; Tick; Tick; Answer Http 1] in
  now st = Exited Clean /\ answered st = [(Flight, 2); (Http, 1)] /\ durable st = [7] /\ cut st = [].
Proof. vm_compute. auto. Qed.
Example ex_late : let st := run 2 ex_plain [Arrive Http 1; Signal; Tick; Tick] in now st = Exited TimedOut /\ cut st = [(Http, 1)].
Proof. vm_compute. auto. Qed.
(* c156_gc_refuted: an idle server *)
Example ex_idle : now (run 2 ex_gc [Signal; Tick]) = Stopping 1 /\ now (run 2 ex_gc [Signal; Tick; Tick]) = Exited TimedOut /\ now (run 2 ex_plain [Signal]) = Exited Clean.
Proof. vm_compute. auto. Qed.
Example ex_postgres : let st := run 5 ex_plain [Arrive Postgres 4] in now st = Running /\ busy st = [(Postgres, 4)].
Proof. vm_compute. auto. Qed.
Example ex_pending : let st := run 5 ex_plain [Arrive Flight 2; Change 7; Answer Flight 2] in pending st = [7] /\ lost (run 5 ex_plain ([Arrive Flight 2; Change 7; Answer Flight 2] ++ [Signal])) = [7].
Proof. vm_compute. auto. Qed.
