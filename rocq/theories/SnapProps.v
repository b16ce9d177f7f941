(* C151: what a query reads while others are at work.
   Specification: SnapSpec.v. Model: SnapModel.v. *)
From Coq Require Import List Arith Bool Lia.
From Verif Require Import SnapModel SnapSpec.
Import ListNotations.

Lemma run_app a b : run (a ++ b) = run_from (run a) b.
Proof. unfold run, run_from. apply fold_left_app. Qed.
Lemma commits_app l a b : commits l (a ++ b) = commits l a + commits l b.
Proof. unfold commits. rewrite filter_app, app_length. reflexivity. Qed.
Lemma version_commits es st l : version (run_from st es) l = version st l + commits l es.
Proof.
  revert st. induction es as [|e es IH]; intros st; [cbn; unfold commits; cbn; lia|]. cbn. unfold run_from in IH. rewrite IH. unfold commits. cbn.
  destruct e as [n m|n|m|q|q|q s]; cbn [step].
  - destruct (existsb _ _); reflexivity.
  - reflexivity.
  - cbn. rewrite (Nat.eqb_sym l m). destruct (Nat.eqb m l); cbn; lia.
  - destruct (begun st q); reflexivity.
  - destruct (find _ _) as [[]|]; reflexivity.
  - destruct (negb _); [reflexivity|]. destruct (result _ _ _); [reflexivity|]. destruct (find _ _); reflexivity.
Qed.
Lemma version_run es l : version (run es) l = commits l es.
Proof. unfold run. rewrite version_commits. reflexivity. Qed.
Lemma result_cons q n r f q' n' : result ((q, n, r) :: f) q' n' = if Nat.eqb q q' && Nat.eqb n n' then Some r else result f q' n'.
Proof. unfold result. cbn. destruct (Nat.eqb q q' && Nat.eqb n n'); reflexivity. Qed.
Lemma in_load v n k e : In e (load v n k) -> In e k \/ (name e = n /\ loaded e = Some v /\ exists e', In e' k /\ name e' = n /\ loc e' = loc e).
Proof.
  unfold load. intros H. apply in_map_iff in H as (x & E & H). destruct (Nat.eqb (name x) n) eqn:N; [|left; congruence].
  apply Nat.eqb_eq in N. right. subst e. cbn. split; [exact N|]. split; [reflexivity|]. exists x. auto.
Qed.
(* a name occurs once in the database and in the catalogs made from it *)
Definition nodup_ok (st : state) : Prop :=
  NoDup (map fst (tables st)) /\ Forall (fun x => NoDup (map fst (snd x))) (listed st) /\ NoDup (map name (registered st)).
Lemma nodup_filter {A B} (g : A -> B) f l : NoDup (map g l) -> NoDup (map g (filter f l)).
Proof.
  induction l as [|a l IH]; cbn; intros H; [constructor|]. inversion H as [|? ? N1 N2]; subst. destruct (f a); cbn; [|auto].
  constructor; [|auto]. intros X. apply N1. apply in_map_iff in X as (y & E & X). apply filter_In in X as [X _]. rewrite <- E. apply in_map. exact X.
Qed.
Lemma load_names v n k : map name (load v n k) = map name k.
Proof. unfold load. rewrite map_map. apply map_ext. intros e. destruct (Nat.eqb (name e) n); reflexivity. Qed.
Lemma nodup_step st e : nodup_ok st -> nodup_ok (step st e).
Proof.
  intros (A & B & C). destruct e as [n m|n|m|q|q|q s]; cbn [step].
  - destruct (existsb _ _) eqn:X; [split; [|split]; assumption|]. split; [|split; assumption]. cbn. constructor; [|exact A].
    intros I. apply in_map_iff in I as (x & E & I). assert (existsb (fun x => Nat.eqb (fst x) n || Nat.eqb (snd x) m) (tables st) = true); [|congruence].
    apply existsb_exists. exists x. rewrite E, Nat.eqb_refl. auto.
  - split; [|split; assumption]. cbn. apply nodup_filter. exact A.
  - split; [|split]; assumption.
  - destruct (begun st q); [split; [|split]; assumption|]. split; [exact A|]. split; [constructor; assumption|exact C].
  - destruct (find _ _) as [[r ts]|] eqn:F; [|split; [|split]; assumption]. apply find_some in F as [F _]. rewrite Forall_forall in B.
    split; [exact A|]. split; cbn.
    + apply Forall_forall. intros x Hx. apply filter_In in Hx as [Hx _]. exact (B x Hx).
    + unfold build. rewrite map_map. cbn. exact (B _ F).
  - destruct (negb _); [split; [|split]; assumption|]. destruct (result _ _ _); [split; [|split]; assumption|].
    destruct (find _ _); [|split; [|split]; assumption]. split; [exact A|]. split; [exact B|]. cbn. rewrite load_names. exact C.
Qed.
Lemma nodup_run es : nodup_ok (run es).
Proof.
  unfold run, run_from. assert (G : nodup_ok init) by (split; [|split]; constructor). revert G. generalize init.
  induction es as [|e es IH]; intros st G; [exact G|]. cbn. apply IH. apply nodup_step. exact G.
Qed.
(* once found, always the same *)
Lemma result_stable st e q n r : result (found st) q n = Some r -> result (found (step st e)) q n = Some r.
Proof.
  intros H. destruct e as [a b|a|a|p|p|p s]; cbn [step].
  - destruct (existsb _ _); exact H.
  - exact H.
  - exact H.
  - destruct (begun st p); exact H.
  - destruct (find _ _) as [[]|]; exact H.
  - destruct (negb _); [exact H|]. destruct (result (found st) p (resolve s)) eqn:E; [exact H|].
    destruct (find _ _); cbn [found]; rewrite result_cons; destruct (Nat.eqb p q && Nat.eqb (resolve s) n) eqn:X; try exact H;
      apply andb_true_iff in X as [X1 X2]; apply Nat.eqb_eq in X1, X2; subst; congruence.
Qed.
(* a query has begun before it registers, and registered before it finds *)
Definition phases (st : state) : Prop :=
  forall q, (forall n r, result (found st) q n = Some r -> In q (planning st)) /\ (In q (planning st) -> ~ In q (map fst (listed st))).
Lemma phases_step st e : phases st -> phases (step st e).
Proof.
  intros P. destruct e as [a b|a|a|p|p|p s]; cbn [step].
  - destruct (existsb _ _); exact P.
  - exact P.
  - exact P.
  - destruct (begun st p) eqn:B; [exact P|]. intros q. destruct (P q) as [P1 P2]. split; [exact P1|]. cbn. intros I [E|X]; [|exact (P2 I X)].
    subst p. unfold begun in B. assert (existsb (Nat.eqb q) (map fst (listed st) ++ planning st) = true); [|congruence].
    apply existsb_exists. exists q. rewrite Nat.eqb_refl, in_app_iff. auto.
  - destruct (find _ _) as [[r ts]|] eqn:F; [|exact P]. intros q. destruct (P q) as [P1 P2]. cbn. split; [intros n x H; right; exact (P1 n x H)|].
    intros [<-|I] X.
    + apply in_map_iff in X as (y & E & X). apply filter_In in X as [_ X]. rewrite E, Nat.eqb_refl in X. discriminate.
    + apply (P2 I). apply in_map_iff in X as (y & E & X). apply filter_In in X as [X _]. rewrite <- E. apply in_map. exact X.
  - destruct (existsb (Nat.eqb p) (planning st)) eqn:X; cbn [negb]; [|exact P].
    apply existsb_exists in X as (p' & X1 & X2). apply Nat.eqb_eq in X2. subst p'.
    destruct (result (found st) p (resolve s)) eqn:E; [exact P|].
    destruct (find _ _); intros q; destruct (P q) as [P1 P2]; (split; [|exact P2]); cbn [found planning]; intros n x; rewrite result_cons;
      destruct (Nat.eqb p q && Nat.eqb (resolve s) n) eqn:Y; try (exact (P1 n x)); apply andb_true_iff in Y as [Y _]; apply Nat.eqb_eq in Y; subst; auto.
Qed.
Lemma phases_run es : phases (run es).
Proof.
  unfold run, run_from. assert (G : phases init) by (intros q; split; [discriminate|intros []]). revert G. generalize init.
  induction es as [|e es IH]; intros st G; [exact G|]. cbn. apply IH. apply phases_step. exact G.
Qed.
Lemma begun_none es q : ~ In (Begin q) es -> begun (run es) q = false.
Proof.
  unfold run, run_from. assert (G : begun init q = false) by reflexivity. revert G. generalize init. induction es as [|e es IH]; intros st G N; [exact G|].
  cbn. apply IH; [|intros X; apply N; right; exact X]. clear IH.
  assert (G2 : forall q', In q' (map fst (listed st) ++ planning st) -> q' <> q).
  { intros q' X E. subst. unfold begun in G. assert (existsb (Nat.eqb q) (map fst (listed st) ++ planning st) = true); [|congruence]. apply existsb_exists. exists q. rewrite Nat.eqb_refl. auto. }
  destruct (begun (step st e) q) eqn:X; [|reflexivity]. exfalso. unfold begun in X. apply existsb_exists in X as (q' & X & E). apply Nat.eqb_eq in E. subst q'.
  destruct e as [a b|a|a|p|p|p s]; cbn [step] in X.
  - destruct (existsb _ _); exact (G2 q X eq_refl).
  - exact (G2 q X eq_refl).
  - exact (G2 q X eq_refl).
  - destruct (begun st p); [exact (G2 q X eq_refl)|]. cbn in X. destruct X as [->|X]; [apply N; left; reflexivity|exact (G2 q X eq_refl)].
  - destruct (find _ _) as [[r ts]|] eqn:F; [|exact (G2 q X eq_refl)]. cbn in X. apply find_some in F as [F1 F2]. cbn in F2. apply Nat.eqb_eq in F2. subst r.
    apply in_app_iff in X as [X|[->|X]].
    + apply in_map_iff in X as (y & E & X). apply filter_In in X as [X _]. apply (G2 q); [|reflexivity]. rewrite in_app_iff, <- E. left. apply in_map. exact X.
    + apply (G2 q); [|reflexivity]. rewrite in_app_iff. left. change q with (fst (q, ts)). apply in_map. exact F1.
    + apply (G2 q); [|reflexivity]. rewrite in_app_iff. auto.
  - destruct (negb _); [exact (G2 q X eq_refl)|]. destruct (result _ _ _); [exact (G2 q X eq_refl)|]. destruct (find _ _); exact (G2 q X eq_refl).
Qed.

(* C151, one version: however a query spells the name of a table, and however often, it reads one version of it, and what it has
   read does not change. *)
Theorem c151_one_version : forall es es' q s s' n r r',
  names s n -> names s' n -> reads (run es) q s = Some r -> reads (run (es ++ es')) q s' = Some r' -> r = r'.
Proof.
  intros es es' q s s' n r r' Ns Ns' H H'.
  assert (E : resolve s = resolve s') by (destruct Ns as [-> | [-> | -> ] ], Ns' as [-> | [-> | -> ] ]; reflexivity). unfold reads in *. rewrite <- E in H'. rewrite run_app in H'.
  assert (G : result (found (run_from (run es) es')) q (resolve s) = Some r).
  { clear H'. revert H. generalize (run es). induction es' as [|e es' IH]; intros st H; [exact H|]. cbn. apply IH. apply result_stable. exact H. }
  congruence.
Qed.
Print Assumptions c151_one_version.

(* C151, fresh: a query sees all commits that were finished when it began, and none that have not happened. *)
Definition seen_between (B : nat -> nat) (q : nat) (st : state) : Prop :=
  (forall l, B l <= version st l) /\
  (In q (planning st) -> Forall (fun e => match loaded e with Some v => B (loc e) <= v | None => True end) (registered st)) /\
  (forall n l v, result (found st) q n = Some (Some (l, v)) -> B l <= v).
Lemma same_name (k : list entry) a b : NoDup (map name k) -> In a k -> In b k -> name a = name b -> a = b.
Proof.
  induction k as [|x k IH]; [contradiction|]. cbn. intros H Ha Hb E. inversion H as [|? ? N1 N2]; subst.
  destruct Ha as [->|Ha], Hb as [->|Hb]; auto.
  - exfalso. apply N1. rewrite E. apply in_map. exact Hb.
  - exfalso. apply N1. rewrite <- E. apply in_map. exact Ha.
Qed.
Lemma seen_between_step B q st e : nodup_ok st -> seen_between B q st -> seen_between B q (step st e).
Proof.
  intros ND (A & C & D). destruct e as [a b|a|a|p|p|p s]; cbn [step].
  - destruct (existsb _ _); (split; [exact A|split; [exact C|exact D]]).
  - split; [|split]; assumption.
  - split; [|split]; [|assumption|assumption]. cbn. intros l. specialize (A l). destruct (Nat.eqb l a); lia.
  - destruct (begun st p); (split; [exact A|split; [exact C|exact D]]).
  - destruct (find _ _) as [[r ts]|] eqn:F; [|split; [|split]; assumption]. split; [exact A|]. split; [|exact D]. cbn. intros _.
    apply Forall_forall. intros x Hx. apply in_map_iff in Hx as (y & <- & _). exact Logic.I.
  - destruct (negb _) eqn:Pl; [split; [|split]; assumption|]. apply negb_false_iff in Pl. apply existsb_exists in Pl as (p' & Pl & E). apply Nat.eqb_eq in E. subst p'.
    destruct (result (found st) p (resolve s)) eqn:R; [split; [|split]; assumption|].
    destruct (find _ _) as [en|] eqn:F.
    + apply find_some in F as [F1 F2]. apply Nat.eqb_eq in F2.
      assert (L : In q (planning st) -> B (loc en) <= match loaded en with Some v => v | None => version st (loc en) end).
      { intros I. specialize (C I). rewrite Forall_forall in C. specialize (C en F1). destruct (loaded en); [exact C|apply A]. }
      split; [exact A|]. split; cbn [planning registered found].
      * intros I. specialize (C I). specialize (L I). apply Forall_forall. intros x Hx. apply in_map_iff in Hx as (y & <- & Hy).
        destruct (Nat.eqb (name y) (resolve s)) eqn:N; [|rewrite Forall_forall in C; exact (C y Hy)].
        apply Nat.eqb_eq in N. cbn. rewrite (same_name _ y en (proj2 (proj2 ND)) Hy F1) by congruence. exact L.
      * intros n l v. rewrite result_cons. destruct (Nat.eqb p q && Nat.eqb (resolve s) n) eqn:Y; [|exact (D n l v)].
        apply andb_true_iff in Y as [Y _]. apply Nat.eqb_eq in Y. subst p. intros X. inversion X; subst. exact (L Pl).
    + split; [exact A|]. split; [exact C|]. cbn [found]. intros n l v. rewrite result_cons. destruct (Nat.eqb p q && Nat.eqb (resolve s) n); [discriminate|exact (D n l v)].
Qed.
Definition not_ahead (st : state) : Prop :=
  Forall (fun e => match loaded e with Some v => v <= version st (loc e) | None => True end) (registered st) /\
  (forall q n l v, result (found st) q n = Some (Some (l, v)) -> v <= version st l).
Lemma not_ahead_step st e : nodup_ok st -> not_ahead st -> not_ahead (step st e).
Proof.
  intros ND (C & D). destruct e as [a b|a|a|p|p|p s]; cbn [step].
  - destruct (existsb _ _); (split; [exact C|exact D]).
  - split; assumption.
  - split; cbn.
    + eapply Forall_impl; [|exact C]. intros x. cbn. destruct (loaded x); [|auto]. destruct (Nat.eqb (loc x) a); lia.
    + intros q n l v H. specialize (D q n l v H). destruct (Nat.eqb l a); lia.
  - destruct (begun st p); (split; [exact C|exact D]).
  - destruct (find _ _) as [[r ts]|] eqn:F; [|split; assumption]. split; [|exact D]. cbn.
    apply Forall_forall. intros x Hx. apply in_map_iff in Hx as (y & <- & _). exact Logic.I.
  - destruct (negb _); [split; assumption|]. destruct (result (found st) p (resolve s)) eqn:R; [split; assumption|].
    destruct (find _ _) as [en|] eqn:F.
    + apply find_some in F as [F1 F2]. apply Nat.eqb_eq in F2.
      assert (L : match loaded en with Some v => v | None => version st (loc en) end <= version st (loc en)).
      { rewrite Forall_forall in C. specialize (C en F1). destruct (loaded en); [exact C|lia]. }
      split; cbn [version registered found].
      * apply Forall_forall. intros x Hx. apply in_map_iff in Hx as (y & <- & Hy).
        destruct (Nat.eqb (name y) (resolve s)) eqn:N; [|rewrite Forall_forall in C; exact (C y Hy)].
        apply Nat.eqb_eq in N. cbn. rewrite (same_name _ y en (proj2 (proj2 ND)) Hy F1) by congruence. exact L.
      * intros q n l v. rewrite result_cons. destruct (Nat.eqb p q && Nat.eqb (resolve s) n) eqn:Y; [|exact (D q n l v)].
        intros X. inversion X; subst. exact L.
    + split; [exact C|]. cbn [found version]. intros q n l v. rewrite result_cons. destruct (Nat.eqb p q && Nat.eqb (resolve s) n); [discriminate|exact (D q n l v)].
Qed.
Lemma begin_state es q : ~ In (Begin q) es ->
  let st := step (run es) (Begin q) in
  st = {| tables := tables (run es); version := version (run es); listed := (q, tables (run es)) :: listed (run es);
          registered := registered (run es); planning := planning (run es); found := found (run es) |} /\
  ~ In q (planning (run es)) /\ ~ In q (map fst (listed (run es))) /\ forall n, result (found (run es)) q n = None.
Proof.
  intros N. pose proof (begun_none es q N) as B. cbv zeta. split; [cbn [step]; rewrite B; reflexivity|].
  assert (X : ~ In q (map fst (listed (run es)) ++ planning (run es))).
  { intros X. unfold begun in B. assert (existsb (Nat.eqb q) (map fst (listed (run es)) ++ planning (run es)) = true); [|congruence].
    apply existsb_exists. exists q. rewrite Nat.eqb_refl. auto. }
  rewrite in_app_iff in X. split; [tauto|]. split; [tauto|].
  intros n. destruct (result (found (run es)) q n) eqn:R; [|reflexivity]. exfalso. apply X. right. exact (proj1 (phases_run es q) n _ R).
Qed.
Theorem c151_fresh : forall es1 es2 q s l v, ~ In (Begin q) es1 ->
  reads (run (es1 ++ Begin q :: es2)) q s = Some (Some (l, v)) ->
  commits l es1 <= v /\ v <= commits l es1 + commits l es2.
Proof.
  intros es1 es2 q s l v N H. unfold reads in H. rewrite run_app in H. cbn [run_from fold_left] in H. fold (run_from (step (run es1) (Begin q)) es2) in H.
  destruct (begin_state es1 q N) as (E & P & L & R). set (st := step (run es1) (Begin q)) in *.
  assert (I : nodup_ok st) by (apply nodup_step; apply nodup_run).
  assert (I1 : seen_between (version (run es1)) q st).
  { rewrite E. split; [cbn; auto|]. split; [intros X; contradiction (P X)|]. cbn. intros n l' v' X. rewrite R in X. discriminate. }
  assert (I2 : not_ahead st).
  { apply not_ahead_step; [apply nodup_run|]. clear. unfold run, run_from. assert (G : nodup_ok init /\ not_ahead init) by (split; [split; [|split]; constructor|split; [constructor|discriminate]]).
    revert G. generalize init. induction es1 as [|e es IH]; intros st [G1 G2]; [exact G2|]. cbn. apply IH. split; [apply nodup_step|apply not_ahead_step]; assumption. }
  assert (G : seen_between (version (run es1)) q (run_from st es2) /\ not_ahead (run_from st es2)).
  { clear E H. revert I I1 I2. generalize st. induction es2 as [|e es2 IH]; intros st' I I1 I2; [split; assumption|]. cbn. apply IH.
    - apply nodup_step. exact I.
    - apply seen_between_step; assumption.
    - apply not_ahead_step; assumption. }
  destruct G as [(_ & _ & G1) (_ & G2)]. split.
  - rewrite <- version_run. exact (G1 _ _ _ H).
  - specialize (G2 _ _ _ _ H). rewrite version_commits in G2. rewrite E in G2. cbn [version] in G2. rewrite version_run in G2. exact G2.
Qed.
Print Assumptions c151_fresh.

(* C151, found: a query that is alone in its session (nobody else registers a catalog while it is planned) finds exactly the tables that
   were there when it began. *)
Theorem c151_found_partial : forall es1 es2 q s n r, ~ In (Begin q) es1 ->
  (forall p, In (Register p) es2 -> p = q) -> names s n ->
  reads (run (es1 ++ Begin q :: es2)) q s = Some r ->
  match r with Some (l, _) => stored es1 n l | None => forall l, ~ stored es1 n l end.
Proof.
  intros es1 es2 q s n0 r N O Ns H. assert (n0 = resolve s) as -> by (destruct Ns as [-> | [-> | -> ] ]; reflexivity). unfold reads in H. rewrite run_app in H. cbn [run_from fold_left] in H. fold (run_from (step (run es1) (Begin q)) es2) in H.
  destruct (begin_state es1 q N) as (E & P & L & R). set (st := step (run es1) (Begin q)) in *.
  set (T := tables (run es1)) in *.
  pose (K := fun st : state =>
    begun st q = true /\
    (forall ts, In (q, ts) (listed st) -> ts = T) /\
    (In q (planning st) -> map (fun e => (name e, loc e)) (registered st) = T) /\
    (forall n r, result (found st) q n = Some r -> match r with Some (l, _) => In (n, l) T | None => forall l, ~ In (n, l) T end)).
  assert (G : K (run_from st es2)).
  { assert (K0 : K st).
    { rewrite E. split; [unfold begun; cbn; rewrite Nat.eqb_refl; reflexivity|]. split; [|split]; cbn.
      - intros ts [X|X]; [congruence|]. exfalso. apply L. change q with (fst (q, ts)). apply in_map. exact X.
      - intros X. contradiction (P X).
      - intros n r' X. rewrite R in X. discriminate. }
    clear E H. revert K0 O. generalize st. induction es2 as [|e es2 IH]; intros st' K0 O; [exact K0|]. cbn. apply IH; [|intros p X; apply O; right; exact X].
    clear IH. destruct K0 as (K0 & K1 & K2 & K3). destruct e as [a b|a|a|p|p|p s']; cbn [step].
    - destruct (existsb _ _); (split; [exact K0|split; [exact K1|split; [exact K2|exact K3]]]).
    - split; [|split; [|split]]; assumption.
    - split; [|split; [|split]]; assumption.
    - destruct (begun st' p) eqn:B; [split; [|split; [|split]]; assumption|]. split; [|split; [|split; assumption]]; cbn.
      + unfold begun in *. cbn. rewrite K0. destruct (Nat.eqb q p); reflexivity.
      + intros ts [X|X]; [|exact (K1 ts X)]. inversion X; subst. congruence.
    - destruct (find _ _) as [[r' ts]|] eqn:F; [|split; [|split; [|split]]; assumption]. pose proof (O p (or_introl eq_refl)) as Ep. subst p.
      apply find_some in F as [F1 F2]. cbn in F2. apply Nat.eqb_eq in F2. subst r'. pose proof (K1 ts F1) as Et. subst ts. split; [|split; [|split]]; cbn.
      + unfold begun. cbn. apply existsb_exists. exists q. rewrite in_app_iff, Nat.eqb_refl. cbn. auto.
      + intros ts X. apply filter_In in X as [X _]. exact (K1 ts X).
      + intros _. unfold build. rewrite map_map. cbn. clear. induction T as [|[a b] T IH]; cbn; [reflexivity|]. rewrite IH. reflexivity.
      + exact K3.
    - destruct (negb _) eqn:Pl; [split; [|split; [|split]]; assumption|]. apply negb_false_iff in Pl. apply existsb_exists in Pl as (p' & Pl & Ep). apply Nat.eqb_eq in Ep. subst p'.
      destruct (result (found st') p (resolve s')) eqn:Rs; [split; [|split; [|split]]; assumption|].
      destruct (find _ _) as [en|] eqn:F.
      + apply find_some in F as [F1 F2]. apply Nat.eqb_eq in F2. split; [exact K0|]. split; [exact K1|]. split; cbn [planning registered found].
        * intros X. rewrite <- (K2 X). unfold load. rewrite map_map. apply map_ext. intros y. destruct (Nat.eqb (name y) (resolve s')); reflexivity.
        * intros n r'. rewrite result_cons. destruct (Nat.eqb p q && Nat.eqb (resolve s') n) eqn:Y; [|exact (K3 n r')].
          apply andb_true_iff in Y as [Y1 Y2]. apply Nat.eqb_eq in Y1, Y2. subst p. intros X. inversion X; subst r'. rewrite <- (K2 Pl).
          apply in_map_iff. exists en. split; [f_equal; congruence|exact F1].
      + split; [exact K0|]. split; [exact K1|]. split; [exact K2|]. cbn [found]. intros n r'. rewrite result_cons.
        destruct (Nat.eqb p q && Nat.eqb (resolve s') n) eqn:Y; [|exact (K3 n r')].
        apply andb_true_iff in Y as [Y1 Y2]. apply Nat.eqb_eq in Y1, Y2. subst p. intros X. inversion X; subst r'. intros l I. rewrite <- (K2 Pl) in I.
        apply in_map_iff in I as (y & Ey & I). pose proof (find_none _ _ F y I) as Z. cbn in Z. apply Nat.eqb_neq in Z. congruence. }
  destruct G as (_ & _ & _ & G). exact (G _ _ H).
Qed.
Print Assumptions c151_found_partial.
(* C151, not found: in a shared session a query may miss a table that was created before the query began: another statement, which had
   read the catalog before, registers what it has read in between. *)
Theorem c151_found_refuted : forall es q p n l, q <> p -> ~ In (Begin q) es -> ~ In (Begin p) es ->
  (forall l', ~ stored es n l') -> (forall n', ~ stored es n' l) ->
  let es1 := es ++ [Begin p; Create n l] in
  stored es1 n l /\ ~ In (Begin q) es1 /\ reads (run (es1 ++ Begin q :: [Register q; Register p; Lookup q (Bare n)])) q (Bare n) = Some None.
Proof.
  intros es q p n l Hqp Nq Np Hn Hl. cbv zeta.
  destruct (begin_state es p Np) as (E & P1 & P2 & P3). pose proof (begun_none es q Nq) as Bq.
  assert (C : step (step (run es) (Begin p)) (Create n l) = {| tables := (n, l) :: tables (run es); version := version (run es); listed := (p, tables (run es)) :: listed (run es);
          registered := registered (run es); planning := planning (run es); found := found (run es) |}).
  { rewrite E. cbn [step tables]. replace (existsb _ (tables (run es))) with false; [reflexivity|]. symmetry. destruct (existsb _ _) eqn:X; [|reflexivity]. exfalso.
    apply existsb_exists in X as ([a b] & X & Y). cbn in Y. apply orb_true_iff in Y as [Y|Y]; apply Nat.eqb_eq in Y; subst; [exact (Hn b X)|exact (Hl a X)]. }
  split; [unfold stored; rewrite run_app; cbn [run_from fold_left]; rewrite C; left; reflexivity|].
  split; [rewrite in_app_iff; cbn; intros [X|[X|[X|[]]]]; [exact (Nq X)|congruence|discriminate]|].
  destruct (begin_state es q Nq) as (_ & Q1 & Q2 & Q3).
  assert (Epq : Nat.eqb p q = false) by (apply Nat.eqb_neq; congruence). assert (Eqp : Nat.eqb q p = false) by (apply Nat.eqb_neq; congruence).
  unfold reads. rewrite <- app_assoc, run_app. cbn [app run_from fold_left]. rewrite C.
  set (st0 := {| tables := (n, l) :: tables (run es); version := version (run es); listed := (p, tables (run es)) :: listed (run es);
          registered := registered (run es); planning := planning (run es); found := found (run es) |}).
  assert (B0 : begun st0 q = false) by (unfold begun in *; cbn; rewrite Eqp; exact Bq).
  assert (S1 : step st0 (Begin q) = {| tables := tables st0; version := version st0; listed := (q, tables st0) :: listed st0; registered := registered st0; planning := planning st0; found := found st0 |}).
  { cbn [step]. rewrite B0. reflexivity. }
  rewrite S1. clear S1. set (st1 := {| tables := tables st0; version := version st0; listed := (q, tables st0) :: listed st0; registered := registered st0; planning := planning st0; found := found st0 |}).
  set (L0 := filter (fun x => negb (Nat.eqb (fst x) q)) (listed (run es))).
  assert (S2 : step st1 (Register q) = {| tables := tables st0; version := version st0; listed := (p, tables (run es)) :: L0; registered := build (tables st0); planning := q :: planning st0; found := found st0 |}).
  { cbn [step st1 listed find fst]. rewrite Nat.eqb_refl. cbn [filter fst]. rewrite Nat.eqb_refl. cbn [negb st0 listed filter fst]. rewrite Epq. reflexivity. }
  rewrite S2. clear S2. set (st2 := {| tables := tables st0; version := version st0; listed := (p, tables (run es)) :: L0; registered := build (tables st0); planning := q :: planning st0; found := found st0 |}).
  assert (S3 : exists L3, step st2 (Register p) = {| tables := tables st0; version := version st0; listed := L3; registered := build (tables (run es)); planning := p :: q :: planning st0; found := found st0 |}).
  { cbn [step st2 listed find fst]. rewrite Nat.eqb_refl. eexists. reflexivity. }
  destruct S3 as [L3 S3]. rewrite S3. cbn [step resolve planning existsb found]. rewrite Eqp, Nat.eqb_refl. cbn [orb negb].
  change (found st0) with (found (run es)). rewrite Q3.
  assert (F : find (fun e => Nat.eqb (name e) n) (build (tables (run es))) = None).
  { destruct (find _ _) as [e|] eqn:F; [|reflexivity]. exfalso. apply find_some in F as [F1 F2]. apply Nat.eqb_eq in F2. apply in_map_iff in F1 as ([a b] & Ee & F1).
    subst e. cbn in F2. subst a. exact (Hn b F1). }
  cbn [registered]. rewrite F. cbn [found]. rewrite result_cons, !Nat.eqb_refl. reflexivity.
Qed.
Print Assumptions c151_found_refuted.
(* The same way a query may read a table that was dropped before the query began. *)
Theorem c151_dropped_refuted : forall es q p n l, q <> p -> ~ In (Begin q) es -> ~ In (Begin p) es -> stored es n l ->
  let es1 := es ++ [Begin p; Drop n] in
  (forall l', ~ stored es1 n l') /\ ~ In (Begin q) es1 /\
  reads (run (es1 ++ Begin q :: [Register q; Register p; Lookup q (Bare n)])) q (Bare n) = Some (Some (l, commits l es)).
Proof.
  intros es q p n l Hqp Nq Np Hn. cbv zeta.
  destruct (begin_state es p Np) as (E & P1 & P2 & P3). pose proof (begun_none es q Nq) as Bq. pose proof (nodup_run es) as (ND & _ & _).
  set (T := filter (fun x => negb (Nat.eqb (fst x) n)) (tables (run es))).
  assert (C : step (step (run es) (Begin p)) (Drop n) = {| tables := T; version := version (run es); listed := (p, tables (run es)) :: listed (run es);
          registered := registered (run es); planning := planning (run es); found := found (run es) |}) by (rewrite E; reflexivity).
  split; [unfold stored; rewrite run_app; cbn [run_from fold_left]; rewrite C; cbn; intros l' X; apply filter_In in X as [_ X]; cbn in X; rewrite Nat.eqb_refl in X; discriminate|].
  split; [rewrite in_app_iff; cbn; intros [X|[X|[X|[]]]]; [exact (Nq X)|congruence|discriminate]|].
  destruct (begin_state es q Nq) as (_ & Q1 & Q2 & Q3).
  assert (Epq : Nat.eqb p q = false) by (apply Nat.eqb_neq; congruence). assert (Eqp : Nat.eqb q p = false) by (apply Nat.eqb_neq; congruence).
  unfold reads. rewrite <- app_assoc, run_app. cbn [app run_from fold_left]. rewrite C.
  set (st0 := {| tables := T; version := version (run es); listed := (p, tables (run es)) :: listed (run es);
          registered := registered (run es); planning := planning (run es); found := found (run es) |}).
  assert (B0 : begun st0 q = false) by (unfold begun in *; cbn; rewrite Eqp; exact Bq).
  assert (S1 : step st0 (Begin q) = {| tables := tables st0; version := version st0; listed := (q, tables st0) :: listed st0; registered := registered st0; planning := planning st0; found := found st0 |}).
  { cbn [step]. rewrite B0. reflexivity. }
  rewrite S1. clear S1. set (st1 := {| tables := tables st0; version := version st0; listed := (q, tables st0) :: listed st0; registered := registered st0; planning := planning st0; found := found st0 |}).
  set (L0 := filter (fun x => negb (Nat.eqb (fst x) q)) (listed (run es))).
  assert (S2 : step st1 (Register q) = {| tables := tables st0; version := version st0; listed := (p, tables (run es)) :: L0; registered := build (tables st0); planning := q :: planning st0; found := found st0 |}).
  { cbn [step st1 listed find fst]. rewrite Nat.eqb_refl. cbn [filter fst]. rewrite Nat.eqb_refl. cbn [negb st0 listed filter fst]. rewrite Epq. reflexivity. }
  rewrite S2. clear S2. set (st2 := {| tables := tables st0; version := version st0; listed := (p, tables (run es)) :: L0; registered := build (tables st0); planning := q :: planning st0; found := found st0 |}).
  assert (S3 : exists L3, step st2 (Register p) = {| tables := tables st0; version := version st0; listed := L3; registered := build (tables (run es)); planning := p :: q :: planning st0; found := found st0 |}).
  { cbn [step st2 listed find fst]. rewrite Nat.eqb_refl. eexists. reflexivity. }
  destruct S3 as [L3 S3]. rewrite S3. cbn [step resolve planning existsb found]. rewrite Eqp, Nat.eqb_refl. cbn [orb negb].
  change (found st0) with (found (run es)). rewrite Q3.
  assert (F : find (fun e => Nat.eqb (name e) n) (build (tables (run es))) = Some {| name := n; loc := l; loaded := None |}).
  { unfold stored in Hn. revert ND Hn. generalize (tables (run es)). clear. induction l0 as [|[a b] T IH]; intros ND H; [contradiction|]. cbn in ND. inversion ND as [|? ? N1 N2]; subst. cbn.
    destruct H as [H|H].
    - inversion H; subst. rewrite Nat.eqb_refl. reflexivity.
    - destruct (Nat.eqb a n) eqn:X; [|exact (IH N2 H)]. apply Nat.eqb_eq in X. subst. exfalso. apply N1. change n with (fst (n, l)). apply in_map. exact H. }
  cbn [registered]. rewrite F. cbn [found loaded loc version st0]. rewrite result_cons, !Nat.eqb_refl, version_run. reflexivity.
Qed.
Print Assumptions c151_dropped_refuted.

(* C151, one moment: what a query reads from several tables existed at one moment, if nobody commits to them while it is planned; *)
Theorem c151_moment_partial : forall es1 es2 q, ~ In (Begin q) es1 ->
  (forall s l v, reads (run (es1 ++ Begin q :: es2)) q s = Some (Some (l, v)) -> commits l es2 = 0) ->
  one_moment es1 es2 q.
Proof.
  intros es1 es2 q N H. exists []. split; [exists es2; reflexivity|]. intros s l v R. rewrite app_nil_r. pose proof (H s l v R) as Z.
  destruct (c151_fresh es1 es2 q s l v N R) as [A B]. lia.
Qed.
Print Assumptions c151_moment_partial.
(* otherwise it may see a later commit and miss an earlier one. *)
Theorem c151_moment_refuted : forall es1 q n1 n2 l1 l2, ~ In (Begin q) es1 -> l1 <> l2 -> n1 <> n2 ->
  stored es1 n1 l1 -> stored es1 n2 l2 ->
  let es2 := [Register q; Lookup q (Bare n1); Commit l1; Commit l2; Lookup q (Bare n2)] in
  reads (run (es1 ++ Begin q :: es2)) q (Bare n1) = Some (Some (l1, commits l1 es1)) /\
  reads (run (es1 ++ Begin q :: es2)) q (Bare n2) = Some (Some (l2, S (commits l2 es1))) /\ ~ one_moment es1 es2 q.
Proof.
  intros es1 q n1 n2 l1 l2 N Hl Hn S1 S2. cbv zeta.
  destruct (begin_state es1 q N) as (E & Q1 & Q2 & Q3). pose proof (nodup_run es1) as (ND & _ & _).
  assert (En : Nat.eqb n1 n2 = false) by (apply Nat.eqb_neq; exact Hn). assert (En2 : Nat.eqb n2 n1 = false) by (apply Nat.eqb_neq; congruence).
  assert (El : Nat.eqb l2 l1 = false) by (apply Nat.eqb_neq; congruence).
  assert (F : forall n l, In (n, l) (tables (run es1)) -> find (fun e => Nat.eqb (name e) n) (build (tables (run es1))) = Some {| name := n; loc := l; loaded := None |}).
  { intros n l. revert ND. generalize (tables (run es1)). clear. induction l0 as [|[a b] T IH]; intros ND H; [contradiction|]. cbn in ND. inversion ND as [|? ? N1 N2]; subst. cbn.
    destruct H as [H|H].
    - inversion H; subst. rewrite Nat.eqb_refl. reflexivity.
    - destruct (Nat.eqb a n) eqn:X; [|exact (IH N2 H)]. apply Nat.eqb_eq in X. subst. exfalso. apply N1. change n with (fst (n, l)). apply in_map. exact H. }
  assert (Fin : exists T V L K P, run (es1 ++ Begin q :: [Register q; Lookup q (Bare n1); Commit l1; Commit l2; Lookup q (Bare n2)]) =
    {| tables := T; version := V; listed := L; registered := K; planning := P; found := (q, n2, Some (l2, S (commits l2 es1))) :: (q, n1, Some (l1, commits l1 es1)) :: found (run es1) |}).
  { rewrite run_app. cbn [run_from fold_left]. rewrite E. set (st0 := run es1) in *.
    cbn [step listed find fst]. rewrite Nat.eqb_refl. cbn [resolve planning existsb found registered]. rewrite Nat.eqb_refl. cbn [orb negb].
    rewrite Q3, (F n1 l1 S1). cbn [loaded loc version found planning registered listed tables existsb].
    rewrite Nat.eqb_refl. cbn [orb negb]. rewrite result_cons, En, andb_false_r, Q3.
    assert (F2 : find (fun e => Nat.eqb (name e) n2) (load (version st0 l1) n1 (build (tables st0))) = Some {| name := n2; loc := l2; loaded := None |}).
    { pose proof (F n2 l2 S2) as F2. revert F2. generalize (build (tables st0)). intros k. unfold load. induction k as [|x k IH]; cbn; [discriminate|].
      destruct (Nat.eqb (name x) n1) eqn:X; cbn [name].
      - apply Nat.eqb_eq in X. rewrite X, En. exact IH.
      - destruct (Nat.eqb (name x) n2); [auto|exact IH]. }
    rewrite F2. cbn [loaded loc]. unfold st0. rewrite Nat.eqb_refl, ?El, !version_run. repeat eexists. }
  destruct Fin as (T & V & L & K & P & Fin).
  assert (R1 : reads (run (es1 ++ Begin q :: [Register q; Lookup q (Bare n1); Commit l1; Commit l2; Lookup q (Bare n2)])) q (Bare n1) = Some (Some (l1, commits l1 es1))).
  { rewrite Fin. unfold reads. cbn [found resolve]. rewrite !result_cons, En2, andb_false_r, !Nat.eqb_refl. reflexivity. }
  assert (R2 : reads (run (es1 ++ Begin q :: [Register q; Lookup q (Bare n1); Commit l1; Commit l2; Lookup q (Bare n2)])) q (Bare n2) = Some (Some (l2, S (commits l2 es1)))).
  { rewrite Fin. unfold reads. cbn [found resolve]. rewrite !result_cons, !Nat.eqb_refl. reflexivity. }
  split; [exact R1|]. split; [exact R2|]. intros (p & (rest & M) & H). apply H in R1, R2. rewrite commits_app in R1, R2. clear - M R1 R2 Hl.
  assert (C1 : commits l1 p = 0) by lia. assert (C2 : commits l2 p = 1) by lia. clear R1 R2.
  destruct p as [|e1 [|e2 [|e3 p]]]; [discriminate C2|inversion M; subst; discriminate C2|inversion M; subst; discriminate C2|]. cbn in M. inversion M; subst.
  unfold commits in C1. cbn in C1. rewrite Nat.eqb_refl in C1. discriminate C1.
Qed.
Print Assumptions c151_moment_refuted.

(* Two tables; a query that reads both, one of them twice, while another one commits and a third one plans *)
Definition h1 : list event := [Create 1 10; Create 2 20; Commit 10; Commit 20; Begin 5; Commit 20].
Example c151_ex :
  let es2 := [Register 7; Lookup 7 (Bare 1); Commit 10; Register 5; Lookup 5 (Full 2); Commit 20; Lookup 7 (InSchema 1); Lookup 7 (Bare 2)] in
  let st := run (h1 ++ Begin 7 :: es2) in
  ~ In (Begin 7) h1 /\ reads st 7 (Bare 1) = Some (Some (10, 1)) /\ reads st 7 (Full 1) = Some (Some (10, 1)) /\ reads st 7 (Bare 2) = Some (Some (20, 2)) /\
  commits 20 h1 = 2 /\ commits 20 es2 = 1.
Proof. cbv zeta. split; [cbn; intuition discriminate|]. repeat split. Qed.
Example c151_ex_found : let es2 := [Create 3 30; Register 7; Lookup 7 (Bare 1); Lookup 7 (Bare 3)] in
  let st := run (h1 ++ Begin 7 :: es2) in
  stored h1 1 10 /\ reads st 7 (Bare 1) = Some (Some (10, 1)) /\ reads st 7 (Bare 3) = Some None /\ stored (h1 ++ Begin 7 :: es2) 3 30.
Proof. cbv zeta. split; [right; left; reflexivity|]. split; [reflexivity|]. split; [reflexivity|]. left. reflexivity. Qed.
