(* Proofs about VacModel.v, used by VacProps.v. *)
From Coq Require Import List Arith Bool Lia.
From Verif Require Import VacModel VacSpec.
Import ListNotations.

Lemma mem_in : forall n l, mem n l = true <-> In n l.
Proof.
  intros n l. unfold mem. rewrite existsb_exists. split.
  - intros (x & H & E). apply Nat.eqb_eq in E as ->. exact H.
  - intros H. exists n. split; [exact H|apply Nat.eqb_refl].
Qed.
Lemma mem_out : forall n l, mem n l = false <-> ~ In n l.
Proof. intros n l. rewrite <- mem_in. destruct (mem n l); split; congruence. Qed.
Lemma in_files : forall f l, In f (files l) <-> In f (added l) /\ ~ In f (removed l).
Proof. intros f l. unfold files. rewrite filter_In, negb_true_iff, mem_out. tauto. Qed.
Lemma added_app : forall a b, added (a ++ b) = added a ++ added b.
Proof. intros. unfold added. apply flat_map_app. Qed.
Lemma removed_app : forall a b, removed (a ++ b) = removed a ++ removed b.
Proof. intros. unfold removed. apply flat_map_app. Qed.
Lemma get_in : forall {A} n (l : list (nat * A)) a, get n l = Some a -> In (n, a) l.
Proof.
  intros A n l a H. unfold get in H. destruct (find _ l) as [[m b]|] eqn:E; [|discriminate H]. cbn in H. injection H as ->.
  apply find_some in E as [E1 E2]. cbn in E2. apply Nat.eqb_eq in E2 as ->. exact E1.
Qed.
Lemma get_none : forall {A} n (l : list (nat * A)) a, get n l = None -> ~ In (n, a) l.
Proof.
  intros A n l a H I. unfold get in H. destruct (find _ l) eqn:E; [discriminate H|].
  apply (find_none _ _ E) in I. cbn in I. rewrite Nat.eqb_refl in I. discriminate I.
Qed.
Lemma get_cons : forall {A} n (l : list (nat * A)) a, get n ((n, a) :: l) = Some a.
Proof. intros. unfold get. cbn. rewrite Nat.eqb_refl. reflexivity. Qed.
Lemma get_skip : forall {A} n m (l : list (nat * A)) a, m <> n -> get n ((m, a) :: l) = get n l.
Proof. intros A n m l a H. unfold get. cbn. destruct (Nat.eqb_spec m n); [contradiction|reflexivity]. Qed.
Lemma get_del : forall {A} n m (l : list (nat * A)), m <> n -> get n (del m l) = get n l.
Proof.
  intros A n m l H. unfold get, del. induction l as [|[k a] l IH]; [reflexivity|]. cbn. destruct (Nat.eqb_spec k m) as [->|]; cbn.
  - destruct (Nat.eqb_spec m n); [contradiction|exact IH].
  - destruct (Nat.eqb k n); [reflexivity|exact IH].
Qed.
Lemma in_del : forall {A} n m (l : list (nat * A)) a, In (n, a) (del m l) <-> In (n, a) l /\ n <> m.
Proof. intros A n m l a. unfold del. rewrite filter_In. cbn. rewrite negb_true_iff, Nat.eqb_neq. tauto. Qed.
Lemma del_none : forall {A} n (l : list (nat * A)), get n l = None -> del n l = l.
Proof.
  intros A n l. unfold get, del. induction l as [|[k a] l IH]; intros H; [reflexivity|]. cbn in *. destruct (Nat.eqb k n); [discriminate H|].
  cbn. f_equal. apply IH. exact H.
Qed.
Lemma del_cons : forall {A} n (l : list (nat * A)) a, get n l = None -> del n ((n, a) :: l) = l.
Proof. intros A n l a H. unfold del. cbn. rewrite Nat.eqb_refl. cbn. apply del_none. exact H. Qed.

Record inv (st : state) : Prop := {
  i_log : log st <> [];
  i_store : forall f, In f (store st) -> f < next st;
  i_added : forall f, In f (added (log st)) -> f < next st;
  i_removed : forall f, In f (removed (log st)) -> In f (added (log st));
  i_new : forall w c r f, In (w, (c, r)) (pending st) -> In f (adds c) -> f < next st /\ ~ In f (added (log st));
  i_old : forall w c r f, In (w, (c, r)) (pending st) -> In f (removes c) -> In f (added (log st));
  i_two : forall w c r w' c' r' f, In (w, (c, r)) (pending st) -> In (w', (c', r')) (pending st) -> w <> w' -> In f (adds c) -> ~ In f (adds c');
  i_gone : forall f, f < next st -> ~ In f (store st) -> In f (removed (log st));
  i_plan : forall x plan f, In (x, plan) (vacuums st) -> In f plan -> In f (removed (log st))
}.

Lemma run_snoc : forall es e, run (es ++ [e]) = step (run es) e.
Proof. intros. unfold run, run_from. rewrite fold_left_app. reflexivity. Qed.
Lemma run_app : forall a b, run (a ++ b) = run_from (run a) b.
Proof. intros. unfold run, run_from. apply fold_left_app. Qed.

Lemma empties : forall (p : list nat) (l : list commit), exists k, match p with [] => l | _ => l ++ [empty] end = l ++ repeat empty k.
Proof. intros [|a p] l; [exists 0; cbn; rewrite app_nil_r; reflexivity|exists 1; reflexivity]. Qed.
Lemma added_empties : forall k l, added (l ++ repeat empty k) = added l.
Proof. intros k l. rewrite added_app. replace (added (repeat empty k)) with (@nil nat); [apply app_nil_r|]. induction k; cbn; auto. Qed.
Lemma removed_empties : forall k l, removed (l ++ repeat empty k) = removed l.
Proof. intros k l. rewrite removed_app. replace (removed (repeat empty k)) with (@nil nat); [apply app_nil_r|]. induction k; cbn; auto. Qed.

Lemma step_inv : forall st e, inv st -> inv (step st e).
Proof.
  intros st e [L S A R N O T G P]. destruct e as [w k sel|w|w|w|x|x|x]; cbn [step].
  - destruct (get w (pending st)) eqn:E; [constructor; assumption|]. constructor; cbn [log store next pending unrecorded recorded vacuums].
    + exact L.
    + intros f H. apply in_app_iff in H as [H|H]; [specialize (S _ H); lia|apply in_seq in H; lia].
    + intros f H. specialize (A _ H). lia.
    + exact R.
    + intros w0 c r f [H|H] F.
      * injection H as <- <- <-. cbn in F. apply in_seq in F. split; [lia|]. intros X. specialize (A _ X). lia.
      * destruct (N _ _ _ _ H F) as [F1 F2]. split; [lia|exact F2].
    + intros w0 c r f [H|H] F; [|exact (O _ _ _ _ H F)]. injection H as <- <- <-. cbn in F. apply filter_In in F as [F _]. apply in_files in F. tauto.
    + intros w0 c r w1 c1 r1 f [H|H] [H1|H1] D F F1.
      * injection H as <- <- <-. injection H1 as <- <- <-. contradiction.
      * injection H as <- <- <-. cbn in F. apply in_seq in F. destruct (N _ _ _ _ H1 F1) as [X _]. lia.
      * injection H1 as <- <- <-. cbn in F1. apply in_seq in F1. destruct (N _ _ _ _ H F) as [X _]. lia.
      * exact (T _ _ _ _ _ _ _ H H1 D F F1).
    + intros f H X. apply G; [|intros Y; apply X; apply in_app_iff; left; exact Y].
      destruct (le_lt_dec (next st) f) as [Y|Y]; [|exact Y]. exfalso. apply X. apply in_app_iff. right. apply in_seq. lia.
    + exact P.
  - destruct (get w (pending st)) eqn:E; [constructor; assumption|]. constructor; cbn [log store next pending unrecorded recorded vacuums]; auto.
    + intros w0 c r f [H|H] F; [injection H as <- <- <-; destruct F|exact (N _ _ _ _ H F)].
    + intros w0 c r f [H|H] F; [|exact (O _ _ _ _ H F)]. injection H as <- <- <-. cbn in F. apply in_files in F. tauto.
    + intros w0 c r w1 c1 r1 f [H|H] [H1|H1] D F F1.
      * injection H as <- <- <-. destruct F.
      * injection H as <- <- <-. destruct F.
      * injection H1 as <- <- <-. destruct F1.
      * exact (T _ _ _ _ _ _ _ H H1 D F F1).
  - destruct (get w (pending st)) as [[c r]|] eqn:E; [|constructor; assumption]. apply get_in in E.
    destruct (existsb _ (removes c)) eqn:X.
    + constructor; cbn [log store next pending unrecorded recorded vacuums]; auto.
      * intros w0 c0 r0 f H. apply in_del in H as [H _]. exact (N _ _ _ _ H).
      * intros w0 c0 r0 f H. apply in_del in H as [H _]. exact (O _ _ _ _ H).
      * intros w0 c0 r0 w1 c1 r1 f H H1. apply in_del in H as [H _]. apply in_del in H1 as [H1 _]. exact (T _ _ _ _ _ _ _ H H1).
    + assert (Ea : added (log st ++ [c]) = added (log st) ++ adds c) by (rewrite added_app; cbn; rewrite app_nil_r; reflexivity).
      assert (Er : removed (log st ++ [c]) = removed (log st) ++ removes c) by (rewrite removed_app; cbn; rewrite app_nil_r; reflexivity).
      constructor; cbn [log store next pending unrecorded recorded vacuums]; try rewrite Ea; try rewrite Er; auto.
      * intros H. apply app_eq_nil in H as [_ H]. discriminate H.
      * intros f H. apply in_app_iff in H as [H|H]; [exact (A _ H)|]. apply (N _ _ _ _ E H).
      * intros f H. apply in_app_iff. left. apply in_app_iff in H as [H|H]; [exact (R _ H)|exact (O _ _ _ _ E H)].
      * intros w0 c0 r0 f H F. apply in_del in H as [H D]. destruct (N _ _ _ _ H F) as [F1 F2]. split; [exact F1|].
        intros Y. apply in_app_iff in Y as [Y|Y]; [exact (F2 Y)|]. exact (T _ _ _ _ _ _ _ H E D F Y).
      * intros w0 c0 r0 f H F. apply in_del in H as [H _]. apply in_app_iff. left. exact (O _ _ _ _ H F).
      * intros w0 c0 r0 w1 c1 r1 f H H1. apply in_del in H as [H _]. apply in_del in H1 as [H1 _]. exact (T _ _ _ _ _ _ _ H H1).
      * intros f H F. apply in_app_iff. left. exact (G _ H F).
      * intros x plan f H F. apply in_app_iff. left. exact (P _ _ _ H F).
  - destruct (get w (unrecorded st)); constructor; assumption.
  - destruct (get x (vacuums st)) eqn:E; [constructor; assumption|].
    set (plan := filter _ (store st)). destruct (empties plan (log st)) as [k Ek].
    constructor; cbn [log store next pending unrecorded recorded vacuums]; rewrite ?Ek; try rewrite added_empties; try rewrite removed_empties; auto.
    + intros H. apply app_eq_nil in H as [H _]. contradiction.
    + intros x0 p f [H|H] F; [|exact (P _ _ _ H F)]. injection H as <- <-. unfold plan in F. apply filter_In in F as [_ F]. apply andb_true_iff in F as [F _]. apply mem_in. exact F.
  - destruct (get x (vacuums st)) as [plan|] eqn:E; [|constructor; assumption]. apply get_in in E. destruct (empties plan (log st)) as [k Ek].
    constructor; cbn [log store next pending unrecorded recorded vacuums]; rewrite ?Ek; try rewrite added_empties; try rewrite removed_empties; auto.
    + intros H. apply app_eq_nil in H as [H _]. contradiction.
    + intros f H. apply filter_In in H as [H _]. exact (S _ H).
    + intros f H F. destruct (in_dec Nat.eq_dec f (store st)) as [X|X]; [|exact (G _ H X)].
      destruct (in_dec Nat.eq_dec f plan) as [Y|Y]; [exact (P _ _ _ E Y)|]. exfalso. apply F. apply filter_In. split; [exact X|]. rewrite negb_true_iff, mem_out. exact Y.
  - destruct (get x (vacuums st)) as [plan|] eqn:E; [|constructor; assumption].
    constructor; cbn [log store next pending unrecorded recorded vacuums]; auto.
    intros x0 p f H F. apply in_del in H as [H _]. exact (P _ _ _ H F).
Qed.
Lemma init_inv : inv init.
Proof. constructor; cbn; try tauto; try discriminate. intros f H. lia. Qed.
Lemma from_inv : forall es st, inv st -> inv (run_from st es).
Proof. induction es as [|e es IH]; intros st H; [exact H|]. apply (IH (step st e)). apply step_inv. exact H. Qed.
Lemma run_inv : forall es, inv (run es).
Proof. intros. apply from_inv, init_inv. Qed.

(* the log only grows *)
Lemma step_log : forall st e, exists l, log (step st e) = log st ++ l.
Proof.
  assert (Z : forall st, exists l, log st = log st ++ l) by (intros st; exists []; rewrite app_nil_r; reflexivity).
  intros st e. destruct e as [w k sel|w|w|w|x|x|x]; cbn [step].
  - destruct (get w (pending st)); exact (Z st).
  - destruct (get w (pending st)); exact (Z st).
  - destruct (get w (pending st)) as [[c r]|]; [|exact (Z st)]. destruct (existsb _ _); [exact (Z st)|]. exists [c]. reflexivity.
  - destruct (get w (unrecorded st)); exact (Z st).
  - destruct (get x (vacuums st)); [exact (Z st)|]. set (plan := filter _ (store st)). destruct (empties plan (log st)) as [k Ek]. exists (repeat empty k). exact Ek.
  - destruct (get x (vacuums st)) as [plan|]; [|exact (Z st)]. destruct (empties plan (log st)) as [k Ek]. exists (repeat empty k). exact Ek.
  - destruct (get x (vacuums st)); exact (Z st).
Qed.
Lemma from_log : forall es st, exists l, log (run_from st es) = log st ++ l.
Proof.
  induction es as [|e es IH]; intros st; [exists []; rewrite app_nil_r; reflexivity|].
  destruct (IH (step st e)) as [l E]. destruct (step_log st e) as [l' E']. exists (l' ++ l). change (run_from st (e :: es)) with (run_from (step st e) es).
  rewrite E, E', app_assoc. reflexivity.
Qed.
Lemma from_removed : forall es st f, In f (removed (log st)) -> In f (removed (log (run_from st es))).
Proof. intros es st f H. destruct (from_log es st) as [l E]. rewrite E, removed_app. apply in_app_iff. left. exact H. Qed.

(* a file that is not there and whose name was used does not come back *)
Lemma step_next : forall st e, next st <= next (step st e).
Proof.
  intros st e. destruct e; cbn [step]; repeat (match goal with |- context [match ?x with _ => _ end] => destruct x end; cbn [next]); lia.
Qed.
Lemma step_gone : forall st e f, f < next st -> ~ In f (store st) -> ~ In f (store (step st e)).
Proof.
  intros st e f H N. destruct e as [w k sel|w|w|w|x|x|x]; cbn [step].
  - destruct (get w (pending st)); [exact N|]. cbn. intros X. apply in_app_iff in X as [X|X]; [exact (N X)|]. apply in_seq in X. lia.
  - destruct (get w (pending st)); exact N.
  - destruct (get w (pending st)) as [[c r]|]; [|exact N]. destruct (existsb _ _); exact N.
  - destruct (get w (unrecorded st)); exact N.
  - destruct (get x (vacuums st)); exact N.
  - destruct (get x (vacuums st)) as [plan|]; [|exact N]. cbn. intros X. apply filter_In in X as [X _]. exact (N X).
  - destruct (get x (vacuums st)); exact N.
Qed.
Lemma from_gone : forall es st f, f < next st -> ~ In f (store st) -> ~ In f (store (run_from st es)).
Proof.
  induction es as [|e es IH]; intros st f H N; [exact N|]. apply (IH (step st e)); [|apply step_gone; assumption]. pose proof (step_next st e). lia.
Qed.
Lemma from_next : forall es st, next st <= next (run_from st es).
Proof. induction es as [|e es IH]; intros st; [apply le_n|]. specialize (IH (step st e)). pose proof (step_next st e). cbn. unfold run_from in *. lia. Qed.

(* a vacuum keeps its plan until it is over *)
Lemma from_plan : forall es st x plan, get x (vacuums st) = Some plan -> ~ In (Forget x) es -> get x (vacuums (run_from st es)) = Some plan.
Proof.
  induction es as [|e es IH]; intros st x plan H N; [exact H|]. apply (IH (step st e)); [|intros X; apply N; right; exact X].
  destruct e as [w k sel|w|w|w|y|y|y]; cbn [step].
  - destruct (get w (pending st)); exact H.
  - destruct (get w (pending st)); exact H.
  - destruct (get w (pending st)) as [[c r]|]; [|exact H]. destruct (existsb _ _); exact H.
  - destruct (get w (unrecorded st)); exact H.
  - destruct (get y (vacuums st)) eqn:E; [exact H|]. cbn [vacuums]. rewrite get_skip; [exact H|]. intros ->. congruence.
  - destruct (get y (vacuums st)); exact H.
  - destruct (get y (vacuums st)) eqn:E; [|exact H]. cbn [vacuums]. rewrite get_del; [exact H|]. intros ->. apply N. left. reflexivity.
Qed.

(* where a deletion comes from: a vacuum that had loaded a version without the file *)
Definition begun (es : list event) (f : nat) : Prop :=
  exists p x rest, es = p ++ Load x :: rest /\ In f (removed (log (run p))).
Lemma begun_snoc : forall es e f, begun es f -> begun (es ++ [e]) f.
Proof. intros es e f (p & x & rest & -> & H). exists p, x, (rest ++ [e]). rewrite <- app_assoc. auto. Qed.
Lemma provenance : forall es,
  (forall f, f < next (run es) -> ~ In f (store (run es)) -> begun es f) /\
  (forall x plan f, In (x, plan) (vacuums (run es)) -> In f plan -> begun es f).
Proof.
  induction es as [|e es [G P]] using rev_ind; [split; cbn; intros; [lia|contradiction]|].
  rewrite run_snoc. set (st := run es) in *.
  assert (G' : forall f, f < next st -> ~ In f (store st) -> begun (es ++ [e]) f) by (intros; apply begun_snoc, G; assumption).
  assert (P' : forall x plan f, In (x, plan) (vacuums st) -> In f plan -> begun (es ++ [e]) f) by (intros x plan f H F; apply begun_snoc; exact (P x plan f H F)).
  destruct e as [w k sel|w|w|w|x|x|x]; cbn [step].
  - destruct (get w (pending st)); [split; assumption|]. split; cbn [next store vacuums]; [|exact P'].
    intros f H X. apply G'; [|intros Y; apply X; apply in_app_iff; left; exact Y].
    destruct (le_lt_dec (next st) f) as [Y|Y]; [|exact Y]. exfalso. apply X. apply in_app_iff. right. apply in_seq. lia.
  - destruct (get w (pending st)); split; assumption.
  - destruct (get w (pending st)) as [[c r]|]; [|split; assumption]. destruct (existsb _ _); split; assumption.
  - destruct (get w (unrecorded st)); split; assumption.
  - destruct (get x (vacuums st)); [split; assumption|]. split; [exact G'|]. cbn [vacuums]. intros y plan f [H|H] F; [|exact (P' _ _ _ H F)].
    injection H as <- <-. apply filter_In in F as [_ F]. apply andb_true_iff in F as [F _]. apply mem_in in F. exists es, x, []. split; [reflexivity|exact F].
  - destruct (get x (vacuums st)) as [plan|] eqn:E; [|split; assumption]. split; [|exact P']. cbn [next store]. intros f H F.
    destruct (in_dec Nat.eq_dec f (store st)) as [X|X]; [|exact (G' _ H X)]. apply get_in in E.
    destruct (in_dec Nat.eq_dec f plan) as [Y|Y]; [exact (P' _ _ _ E Y)|]. exfalso. apply F. apply filter_In. split; [exact X|]. rewrite negb_true_iff, mem_out. exact Y.
  - destruct (get x (vacuums st)); [|split; assumption]. split; [exact G'|]. cbn [vacuums]. intros y plan f H F. apply in_del in H as [H _]. exact (P' _ _ _ H F).
Qed.

Lemma prefix_removed : forall n l f, In f (removed (firstn n l)) -> In f (removed l).
Proof. intros n l f H. rewrite <- (firstn_skipn n l), removed_app. apply in_app_iff. left. exact H. Qed.
Lemma prefix_added : forall n l f, In f (added (firstn n l)) -> In f (added l).
Proof. intros n l f H. rewrite <- (firstn_skipn n l), added_app. apply in_app_iff. left. exact H. Qed.

(* a version that no later one has taken files from *)
Lemma readable_untouched : forall st v, inv st -> v < length (log st) -> (forall c, In c (skipn (S v) (log st)) -> removes c = []) -> readable st v.
Proof.
  intros st v I H C. split; [exact H|]. intros f A R.
  destruct (in_dec Nat.eq_dec f (store st)) as [X|X]; [exact X|]. exfalso.
  assert (F : f < next st) by (apply (i_added _ I); exact (prefix_added _ _ _ A)).
  pose proof (i_gone _ I f F X) as Y. rewrite <- (firstn_skipn (S v) (log st)), removed_app in Y. apply in_app_iff in Y as [Y|Y]; [exact (R Y)|].
  unfold removed in Y. apply in_flat_map in Y as (c & Y1 & Y2). rewrite (C c Y1) in Y2. exact Y2.
Qed.

(* files of statements that do not reach the log *)
Definition orphan (st : state) (f : nat) : Prop :=
  f < next st /\ ~ In f (added (log st)) /\ forall w c r, In (w, (c, r)) (pending st) -> ~ In f (adds c).
Definition stuck (w : nat) (st : state) (f : nat) : Prop :=
  f < next st /\ ~ In f (added (log st)) /\ forall w' c r, In (w', (c, r)) (pending st) -> In f (adds c) -> w' = w.
Lemma stuck_step : forall w st e f, inv st -> stuck w st f -> e <> Commit w -> stuck w (step st e) f.
Proof.
  intros w st e f I (F & A & Q) N. destruct e as [w0 k sel|w0|w0|w0|x|x|x]; cbn [step].
  - destruct (get w0 (pending st)); [repeat split; assumption|]. split; [cbn; lia|]. split; [exact A|]. cbn [pending]. intros w' c r [H|H] X.
    + injection H as <- <- <-. cbn in X. apply in_seq in X. lia.
    + exact (Q _ _ _ H X).
  - destruct (get w0 (pending st)); [repeat split; assumption|]. split; [exact F|]. split; [exact A|]. cbn [pending]. intros w' c r [H|H] X.
    + injection H as <- <- <-. destruct X.
    + exact (Q _ _ _ H X).
  - destruct (get w0 (pending st)) as [[c r]|] eqn:E; [|repeat split; assumption]. apply get_in in E. destruct (existsb _ _).
    + split; [exact F|]. split; [exact A|]. cbn [pending]. intros w' c' r' H X. apply in_del in H as [H _]. exact (Q _ _ _ H X).
    + split; [exact F|]. split.
      * cbn [log]. rewrite added_app. intros X. apply in_app_iff in X as [X|X]; [exact (A X)|]. cbn in X. rewrite app_nil_r in X.
        apply N. f_equal. exact (Q _ _ _ E X).
      * cbn [pending]. intros w' c' r' H X. apply in_del in H as [H _]. exact (Q _ _ _ H X).
  - destruct (get w0 (unrecorded st)); repeat split; assumption.
  - destruct (get x (vacuums st)); [repeat split; assumption|]. split; [exact F|]. split; [|exact Q]. cbn [log]. set (plan := filter _ (store st)).
    destruct (empties plan (log st)) as [k Ek]. rewrite Ek, added_empties. exact A.
  - destruct (get x (vacuums st)) as [plan|]; [|repeat split; assumption]. split; [exact F|]. split; [|exact Q]. cbn [log].
    destruct (empties plan (log st)) as [k Ek]. rewrite Ek, added_empties. exact A.
  - destruct (get x (vacuums st)); repeat split; assumption.
Qed.
Lemma stuck_from : forall w es st f, inv st -> stuck w st f -> ~ In (Commit w) es -> stuck w (run_from st es) f.
Proof.
  intros w. induction es as [|e es IH]; intros st f I H N; [exact H|]. apply (IH (step st e)).
  - apply step_inv. exact I.
  - apply stuck_step; [exact I|exact H|]. intros ->. apply N. left. reflexivity.
  - intros X. apply N. right. exact X.
Qed.
Lemma stuck_store : forall w st f, inv st -> stuck w st f -> In f (store st).
Proof.
  intros w st f I (F & A & _). destruct (in_dec Nat.eq_dec f (store st)) as [X|X]; [exact X|]. exfalso. apply A. apply (i_removed _ I). exact (i_gone _ I _ F X).
Qed.
(* no statement of this number: the file of a statement that has failed *)
Lemma orphan_stuck : forall st f w, orphan st f -> stuck w st f.
Proof. intros st f w (F & A & Q). split; [exact F|]. split; [exact A|]. intros w' c r H X. exfalso. exact (Q _ _ _ H X). Qed.
Lemma orphan_step : forall st e f, inv st -> orphan st f -> orphan (step st e) f.
Proof.
  intros st e f I H.
  (* the number of a statement other than that of e *)
  assert (K : exists w1 w2, w1 <> w2 /\ e <> Commit w1 /\ e <> Commit w2).
  { destruct e as [a k s|a|a|a|a|a|a]; try (exists 0, 1; repeat split; discriminate).
    exists (S a), (S (S a)). repeat split; try lia; intros X; injection X; lia. }
  destruct K as (w1 & w2 & D & N1 & N2).
  destruct (stuck_step w1 st e f I (orphan_stuck _ _ _ H) N1) as (F & A & Q1).
  destruct (stuck_step w2 st e f I (orphan_stuck _ _ _ H) N2) as (_ & _ & Q2).
  split; [exact F|]. split; [exact A|]. intros w c r X Y. apply D. rewrite <- (Q1 _ _ _ X Y). exact (Q2 _ _ _ X Y).
Qed.
Lemma orphan_from : forall es st f, inv st -> orphan st f -> orphan (run_from st es) f.
Proof. induction es as [|e es IH]; intros st f I H; [exact H|]. apply (IH (step st e)); [apply step_inv; exact I|apply orphan_step; assumption]. Qed.

(* a VACUUM on its own *)
Lemma vacuum_run : forall st x l v, get x (vacuums st) = None -> recorded st = l ++ [v] ->
  exists k s, run_from st [Load x; Delete x; Forget x] =
    {| log := log st ++ repeat empty k; store := s; next := next st; pending := pending st; unrecorded := unrecorded st; recorded := [v]; vacuums := vacuums st |}.
Proof.
  intros st x l v V R. set (plan := filter (fun f => mem f (removed (log st)) && negb (mem f (files (log st)))) (store st)).
  destruct (empties plan (log st)) as [k1 E1]. destruct (empties plan (log st ++ repeat empty k1)) as [k2 E2].
  exists (k1 + k2). eexists. rewrite repeat_app, app_assoc. unfold run_from. cbn [fold_left]. unfold step at 3. rewrite V. fold plan. rewrite E1.
  unfold step at 2. cbn [vacuums]. rewrite get_cons. cbn [log store next pending unrecorded recorded]. rewrite E2.
  unfold step. cbn [vacuums]. rewrite get_cons. cbn [log store next pending unrecorded recorded]. rewrite del_cons by exact V.
  rewrite R, rev_app_distr. cbn [rev app]. reflexivity.
Qed.
