(* C164: the clean-up of dropped tables deletes all of their objects and nothing else.
   SweepSpec.v says what the property means, SweepModel.v is the code. *)
From Coq Require Import List Arith Bool Lia.
From Verif Require Import SweepModel SweepSpec.
Import ListNotations.

Lemma keqb_eq a b : keqb a b = true <-> a = b.
Proof.
  unfold keqb. destruct a as [a1 a2], b as [b1 b2]. cbn [fst snd]. rewrite andb_true_iff, !Nat.eqb_eq. split; [intros [-> ->]; reflexivity|intros E; injection E as -> ->; split; reflexivity].
Qed.
Lemma in_without j k l : In j (without k l) <-> In j l /\ j <> k.
Proof.
  unfold without. rewrite filter_In, negb_true_iff. split; intros [A B]; (split; [exact A|]).
  - intros ->. rewrite (proj2 (keqb_eq k k) eq_refl) in B. discriminate B.
  - destruct (keqb j k) eqn:Q; [apply keqb_eq in Q; contradiction|reflexivity].
Qed.
Lemma existsb_key k l : existsb (keqb k) l = true <-> In k l.
Proof. rewrite existsb_exists. split; [intros (j & I & E); apply keqb_eq in E; subst j; exact I|intros I; exists k; split; [exact I|apply keqb_eq; reflexivity]]. Qed.
Lemma in_update c u s l v t : In (v, t) (update_dropped_table c u s l) -> v <> u -> In (v, t) l.
Proof.
  unfold update_dropped_table. destruct (refused c); [exact (fun H _ => H)|]. intros I N. apply in_map_iff in I as ([w q] & E & I). cbn [fst] in E.
  destruct (Nat.eqb w u) eqn:Q; injection E as <- <-; [contradiction|exact I].
Qed.
Lemma in_update_keeps c u s l v t : In (v, t) l -> exists t', In (v, t') (update_dropped_table c u s l).
Proof.
  unfold update_dropped_table. destruct (refused c); [intros I; exists t; exact I|]. intros I. destruct (Nat.eq_dec v u) as [->|N].
  - exists s. apply in_map_iff. exists (u, t). cbn [fst]. rewrite Nat.eqb_refl. split; [reflexivity|exact I].
  - exists t. apply in_map_iff. exists (v, t). cbn [fst]. destruct (Nat.eqb_spec v u) as [->|_]; [contradiction|]. split; [reflexivity|exact I].
Qed.
Lemma in_delete u l v t : In (v, t) (delete_dropped_table u l) <-> In (v, t) l /\ v <> u.
Proof.
  unfold delete_dropped_table. rewrite filter_In. cbn [fst]. rewrite negb_true_iff, Nat.eqb_neq. reflexivity.
Qed.
Lemma along_and c (P Q : state -> event -> Prop) st evs : along c P st evs -> along c Q st evs -> along c (fun s e => P s e /\ Q s e) st evs.
Proof. revert st. induction evs as [|ev evs IH]; intros st; [trivial|]. cbn [along]. intros [A B] [C D]. split; [split; assumption|apply IH; assumption]. Qed.

(* ---- nothing else ---- *)
(* no clean-up will ever come to the table [u] *)
Definition left_alone (u : nat) (st : state) : Prop :=
  (forall s, In (u, s) (rows st) -> s = Failed) /\
  forall i x, cleaners st i = Some x ->
    (forall s, ~ In (u, s) (todo x)) /\ forall v s l, now x = Some (v, s, l) -> v <> u /\ forall k, In (Some k) l -> fst k = v.
Lemma alone_step c u st ev : left_alone u st -> own st ev -> ev <> Drop u ->
  left_alone u (step c st ev) /\ forall k, fst k = u -> In k (objs st) -> In k (objs (step c st ev)).
Proof.
  intros [R C] O D. destruct ev as [i chosen|i l|i ok|i|k|v]; cbn [step].
  - destruct (cleaners st i) as [x|] eqn:E; [split; [split; assumption|exact (fun k _ H => H)]|]. split; [|exact (fun k _ H => H)].
    split; [exact R|]. intros j x. cbn [cleaners set_cleaner]. destruct (Nat.eqb j i); [|apply C]. intros H. injection H as <-. cbn [todo now]. split; [|discriminate].
    intros s I. apply filter_In in I as [I L]. apply filter_In in I as [I _]. rewrite (R s I) in L. discriminate L.
  - destruct (cleaners st i) as [[[|[v s] rest] [n|]]|] eqn:E; try (split; [split; assumption|exact (fun k _ H => H)]). split; [|exact (fun k _ H => H)].
    split; [exact R|]. intros j x. cbn [cleaners set_cleaner]. destruct (Nat.eqb j i) eqn:Q; [|apply C]. intros H. injection H as <-. cbn [todo now].
    destruct (C i _ E) as [T _]. cbn [todo] in T. split; [intros s' I; apply (T s'); right; exact I|]. intros v' s' l' H. injection H as <- <- <-.
    split; [intros ->; apply (T s); left; reflexivity|]. intros k I. apply (O v k); [|exact I]. exists {| todo := (v, s) :: rest; now := None |}, s, rest. split; [exact E|split; reflexivity].
  - destruct (cleaners st i) as [x|] eqn:E; [|split; [split; assumption|exact (fun k _ H => H)]]. destruct (C i x E) as [T N].
    destruct (now x) as [[[v s] [|[k|] l]]|] eqn:W.
    + destruct (N v s [] eq_refl) as [V _]. split; [|exact (fun k _ H => H)]. split.
      * cbn [rows set_cleaner with_rows]. intros s' I. apply in_delete in I as [I _]. apply R, I.
      * intros j y. cbn [cleaners set_cleaner with_rows]. destruct (Nat.eqb j i); [|apply C]. intros H. injection H as <-. cbn [todo now]. split; [exact T|discriminate].
    + destruct (N v s (Some k :: l) eq_refl) as [V K]. destruct (ok && (existsb (keqb k) (objs st) || negb (strict c)))%bool.
      * split.
        -- split; [exact R|]. intros j y. cbn [cleaners set_cleaner with_objs]. destruct (Nat.eqb j i); [|apply C]. intros H. injection H as <-. cbn [todo now]. split; [exact T|].
           intros v' s' l' H. injection H as <- <- <-. split; [exact V|]. intros j' I. apply K. right. exact I.
        -- intros j F I. cbn [objs set_cleaner with_objs]. apply in_without. split; [exact I|]. intros ->. apply V. rewrite <- (K k (or_introl eq_refl)). exact F.
      * split; [|exact (fun k _ H => H)]. split.
        -- cbn [rows set_cleaner with_rows]. intros s' I. apply R. apply (in_update c v (next_status s) _ u s' I). intros ->. apply V. reflexivity.
        -- intros j y. cbn [cleaners set_cleaner with_rows]. destruct (Nat.eqb j i); [|apply C]. intros H. injection H as <-. cbn [todo now]. split; [exact T|discriminate].
    + destruct (N v s (None :: l) eq_refl) as [V K]. split; [|exact (fun k _ H => H)]. split; [exact R|].
      intros j y. cbn [cleaners set_cleaner]. destruct (Nat.eqb j i); [|apply C]. intros H. injection H as <-. cbn [todo now]. split; [exact T|].
      intros v' s' l' H. injection H as <- <- <-. split; [exact V|]. intros j' I. apply K. right. exact I.
    + destruct (todo x) eqn:TX; [|split; [split; assumption|exact (fun k _ H => H)]]. split; [|exact (fun k _ H => H)]. split; [exact R|].
      intros j y. cbn [cleaners set_cleaner]. destruct (Nat.eqb j i); [discriminate|apply C].
  - split; [|exact (fun k _ H => H)]. split; [exact R|]. intros j y. cbn [cleaners set_cleaner]. destruct (Nat.eqb j i); [discriminate|apply C].
  - split; [split; [exact R|exact C]|]. intros j _ I. cbn [objs with_objs]. destruct (keqb j k) eqn:Q; [apply keqb_eq in Q; left; symmetry; exact Q|].
    right. apply in_without. split; [exact I|]. intros ->. rewrite (proj2 (keqb_eq k k) eq_refl) in Q. discriminate Q.
  - destruct (existsb (fun r => Nat.eqb (fst r) v) (rows st)); [split; [split; assumption|exact (fun k _ H => H)]|]. split; [|exact (fun k _ H => H)]. split; [|exact C].
    cbn [rows with_rows]. intros s I. apply in_app_or in I as [I|[I|[]]]; [apply R, I|]. injection I as -> _. contradiction.
Qed.
Lemma alone_run c u evs : forall st, left_alone u st -> along c own st evs -> ~ In (Drop u) evs -> forall k, fst k = u -> In k (objs st) -> In k (objs (run c st evs)).
Proof.
  induction evs as [|ev evs IH]; intros st A O D k F I; [exact I|]. cbn [along] in O. destruct O as [O1 O2].
  destruct (alone_step c u st ev A O1) as [A' K]; [intros ->; apply D; left; reflexivity|]. cbn [run fold_left]. apply (IH (step c st ev)); [exact A'|exact O2|intros H; apply D; right; exact H|exact F|apply K; assumption].
Qed.
Lemma alone_init u o rs : (forall s, In (u, s) rs -> s = Failed) -> left_alone u (init o rs).
Proof. intros H. split; [exact H|]. intros i x E. discriminate E. Qed.
(* C164: whatever clean-ups, crashes and failures there are, the objects of a table that is not dropped stay *)
Theorem c164_only : forall c o rs evs k, In k o -> ~ dropped (init o rs) (fst k) -> ~ In (Drop (fst k)) evs -> along c own (init o rs) evs -> In k (objs (run c (init o rs) evs)).
Proof.
  intros c o rs evs k I N D O. apply (alone_run c (fst k)); [|exact O|exact D|reflexivity|exact I]. apply alone_init. intros s H. exfalso. apply N. exists s. exact H.
Qed.
(* and so do, for ever, those of a table that clean-ups have given up *)
Theorem c164_given_up_refuted : forall c o rs evs k, In k o -> (forall s, In (fst k, s) rs -> s = Failed) -> ~ In (Drop (fst k)) evs -> along c own (init o rs) evs ->
  In k (objs (run c (init o rs) evs)).
Proof. intros c o rs evs k I N D O. apply (alone_run c (fst k)); [|exact O|exact D|reflexivity|exact I]. apply alone_init. exact N. Qed.

(* ---- everything ---- *)
Definition accounted (u : nat) (st : state) : Prop :=
  (dropped st u \/ forall k, fst k = u -> ~ In k (objs st)) /\
  forall i x s l k, cleaners st i = Some x -> now x = Some (u, s, l) -> fst k = u -> In k (objs st) -> In (Some k) l.
Lemma accounted_step c u st ev : accounted u st -> complete st ev -> (forall k, fst k = u -> ev <> Put k) -> accounted u (step c st ev).
Proof.
  intros [A C] O P. destruct ev as [i chosen|i l|i ok|i|k|v]; cbn [step].
  - destruct (cleaners st i) as [x|] eqn:E; [split; assumption|]. split; [exact A|]. intros j x s l k. cbn [cleaners set_cleaner objs]. destruct (Nat.eqb j i); [|apply C]. intros H. injection H as <-. discriminate.
  - destruct (cleaners st i) as [[[|[v s] rest] [n|]]|] eqn:E; try (split; assumption). split; [exact A|]. intros j x s' l' k. cbn [cleaners set_cleaner objs]. destruct (Nat.eqb j i); [|apply C].
    intros H. injection H as <-. cbn [now]. intros H. injection H as -> -> ->. intros F I. apply (O u k); [|exact F|exact I]. exists {| todo := (u, s') :: rest; now := None |}, s', rest. split; [exact E|split; reflexivity].
  - destruct (cleaners st i) as [x|] eqn:E; [|split; assumption]. destruct (now x) as [[[v s] [|[k|] l]]|] eqn:W.
    + split.
      * unfold dropped. cbn [rows objs set_cleaner with_rows]. destruct (Nat.eq_dec v u) as [->|N].
        -- right. intros k F I. exact (C i x s [] k E W F I).
        -- destruct A as [[s' I]|A]; [left; exists s'; apply in_delete; split; [exact I|intros ->; apply N; reflexivity]|right; exact A].
      * intros j y s' l' k. cbn [cleaners set_cleaner with_rows objs]. destruct (Nat.eqb j i); [|apply C]. intros H. injection H as <-. discriminate.
    + destruct (ok && (existsb (keqb k) (objs st) || negb (strict c)))%bool.
      * split.
        -- destruct A as [A|A]; [left; exact A|right]. intros j F I. cbn [objs set_cleaner with_objs] in I. apply in_without in I as [I _]. exact (A j F I).
        -- intros j y s' l' k'. cbn [cleaners set_cleaner with_objs objs]. intros H W' F I. apply in_without in I as [I N]. destruct (Nat.eqb j i); [|apply (C j y s' l' k' H W' F I)].
           injection H as <-. cbn [now] in W'. injection W' as -> -> ->. destruct (C i x s' (Some k :: l') k' E W F I) as [H|H]; [injection H as ->; contradiction|exact H].
      * split.
        -- destruct A as [[s' I]|A]; [left|right; exact A]. unfold dropped. cbn [rows set_cleaner with_rows]. apply in_update_keeps with (t := s'). exact I.
        -- intros j y s' l' k'. cbn [cleaners set_cleaner with_rows objs]. destruct (Nat.eqb j i); [|apply C]. intros H. injection H as <-. discriminate.
    + split; [exact A|]. intros j y s' l' k'. cbn [cleaners set_cleaner objs]. destruct (Nat.eqb j i); [|apply C]. intros H W' F I. injection H as <-. cbn [now] in W'. injection W' as -> -> ->.
      destruct (C i x s' (None :: l') k' E W F I) as [H|H]; [discriminate H|exact H].
    + destruct (todo x); [|split; assumption]. split; [exact A|]. intros j y s' l' k'. cbn [cleaners set_cleaner objs]. destruct (Nat.eqb j i); [discriminate|apply C].
  - split; [exact A|]. intros j y s' l' k'. cbn [cleaners set_cleaner objs]. destruct (Nat.eqb j i); [discriminate|apply C].
  - assert (K : fst k <> u) by (intros F; exact (P k F eq_refl)). split.
    + destruct A as [A|A]; [left; exact A|right]. intros j F [I|I]; [subst j; contradiction|]. apply in_without in I as [I _]. exact (A j F I).
    + intros j y s' l' k' H W F I. cbn [objs with_objs] in I. destruct I as [I|I]; [subst k'; contradiction|]. apply in_without in I as [I _]. exact (C j y s' l' k' H W F I).
  - destruct (existsb (fun r => Nat.eqb (fst r) v) (rows st)); [split; assumption|]. split; [|exact C]. destruct A as [[s I]|A]; [left; exists s; cbn [rows with_rows]; apply in_or_app; left; exact I|right; exact A].
Qed.
(* C164: a dropped table that is not listed any more has no objects left, as long as listings are complete and nobody writes to the table.
   Missing: errors of listings and late writers, see below. *)
Theorem c164_all_partial : forall c o rs evs u, dropped (init o rs) u -> along c complete (init o rs) evs -> (forall k, fst k = u -> ~ In (Put k) evs) ->
  ~ dropped (run c (init o rs) evs) u -> forall k, fst k = u -> ~ In k (objs (run c (init o rs) evs)).
Proof.
  intros c o rs evs u D L P G. assert (A : accounted u (init o rs)) by (split; [left; exact D|intros i x s l k E; discriminate E]). clear D. revert A L P G. generalize (init o rs).
  induction evs as [|ev evs IH]; intros st A L P G; [destruct A as [[A|A] _]; [contradiction|exact A]|]. cbn [along] in L. destruct L as [L1 L2]. cbn [run fold_left] in *.
  apply (IH (step c st ev)); [|exact L2|intros k F I; apply (P k F); right; exact I|exact G]. apply accounted_step; [exact A|exact L1|]. intros k F ->. apply (P k F). left. reflexivity.
Qed.
(* An error while the directory is listed is passed over: the table is forgotten and all of its objects stay *)
Theorem c164_listing_refuted : forall c o u, along c own (init o [(u, Pending)]) [Begin 0 (fun _ => true); Listing 0 [None]; Next 0 true; Next 0 true] /\
  let st := run c (init o [(u, Pending)]) [Begin 0 (fun _ => true); Listing 0 [None]; Next 0 true; Next 0 true] in ~ dropped st u /\ objs st = o.
Proof.
  intros c o u. split.
  - cbn [along]. split; [exact Logic.I|]. split; [|split; [exact Logic.I|split; [exact Logic.I|exact Logic.I]]]. intros v k _ [H|[]]. discriminate H.
  - cbn. rewrite Nat.eqb_refl. cbn. split; [|reflexivity]. intros [s I]. cbn in I. exact I.
Qed.
(* So are objects that are written to the table after it was listed *)
Theorem c164_late_refuted : forall c k, along c complete (init [] [(fst k, Pending)]) [Begin 0 (fun _ => true); Listing 0 []; Put k; Next 0 true] /\
  let st := run c (init [] [(fst k, Pending)]) [Begin 0 (fun _ => true); Listing 0 []; Put k; Next 0 true] in ~ dropped st (fst k) /\ objs st = [k].
Proof.
  intros c k. split.
  - cbn [along]. split; [exact Logic.I|]. split; [|split; [exact Logic.I|split; [exact Logic.I|exact Logic.I]]]. intros v j _ _ H. destruct H.
  - cbn. rewrite Nat.eqb_refl. cbn. split; [|reflexivity]. intros [s I]. cbn in I. exact I.
Qed.

(* ---- giving up ---- *)
Definition ready (rs : list (nat * status)) (st : state) : Prop :=
  (forall u, In (u, Failed) (rows st) -> In (u, Failed) rs) /\
  (forall i, i <> 0 -> cleaners st i = None) /\
  forall x u s l, cleaners st 0 = Some x -> now x = Some (u, s, l) -> exists ks, l = map Some ks /\ NoDup ks /\ forall k, In k ks -> In k (objs st).
Lemma ready_step c rs st ev : ready rs st -> exact st ev -> works ev -> single ev -> ready rs (step c st ev).
Proof.
  intros (R & Z & N) X W S1. destruct ev as [i chosen|i l|i ok|i|k|v]; cbn [step works single] in *; try subst i.
  - destruct (cleaners st 0) as [x|] eqn:E; [split; [exact R|split; [exact Z|intros y u s l E'; rewrite E in E'; apply N, E']]|]. split; [exact R|]. split.
    + intros i I. cbn [cleaners set_cleaner]. destruct (Nat.eqb_spec i 0) as [->|_]; [contradiction|apply Z, I].
    + intros y u s l. cbn [cleaners set_cleaner Nat.eqb]. intros H. injection H as <-. discriminate.
  - assert (Same : ready rs st) by (split; [exact R|split; [exact Z|exact N]]).
    destruct (cleaners st 0) as [[[|[v s] rest] [n|]]|] eqn:E; try exact Same. split; [exact R|]. split.
    + intros i I. cbn [cleaners set_cleaner]. destruct (Nat.eqb_spec i 0) as [->|_]; [contradiction|apply Z, I].
    + intros y u s' l'. cbn [cleaners set_cleaner Nat.eqb objs]. intros H. injection H as <-. cbn [now]. intros H. injection H as <- <- <-.
      destruct (X v) as (ks & -> & ND & K); [exists {| todo := (v, s) :: rest; now := None |}, s, rest; split; [exact E|split; reflexivity]|].
      exists ks. split; [reflexivity|]. split; [exact ND|]. intros k I. apply K in I as [_ I]. exact I.
  - assert (Same : ready rs st) by (split; [exact R|split; [exact Z|exact N]]). destruct (cleaners st 0) as [x|] eqn:E; [|exact Same].
    assert (Z' : forall y st', (forall i, cleaners st' i = cleaners st i) -> forall i, i <> 0 -> cleaners (set_cleaner st' 0 y) i = None).
    { intros y st' Q i I. cbn [cleaners set_cleaner]. destruct (Nat.eqb_spec i 0) as [->|_]; [contradiction|]. rewrite Q. apply Z, I. }
    subst ok. destruct (now x) as [[[v s] [|[k|] l]]|] eqn:Q.
    + split; [|split; [apply Z'; reflexivity|]].
      * cbn [rows set_cleaner with_rows]. intros u I. apply in_delete in I as [I _]. apply R, I.
      * intros y u s' l'. cbn [cleaners set_cleaner Nat.eqb]. intros H. injection H as <-. discriminate.
    + destruct (N x v s (Some k :: l) eq_refl Q) as (ks & M & ND & K). destruct ks as [|k' ks]; [discriminate M|]. cbn [map] in M. injection M as <- ->.
      rewrite (proj2 (existsb_key k (objs st)) (K k (or_introl eq_refl))). cbn [andb orb]. inversion ND as [|? ? NI ND']; subst. split; [exact R|]. split; [apply Z'; reflexivity|].
      intros y u s' l'. cbn [cleaners set_cleaner Nat.eqb objs with_objs]. intros H. injection H as <-. cbn [now]. intros H. injection H as <- <- <-. exists ks. split; [reflexivity|]. split; [exact ND'|].
      intros j I. apply in_without. split; [apply K; right; exact I|]. intros ->. contradiction.
    + destruct (N x v s (None :: l) eq_refl Q) as (ks & M & _). destruct ks; discriminate M.
    + destruct (todo x); [|exact Same]. split; [exact R|]. split; [apply Z'; reflexivity|]. intros y u s' l'. cbn [cleaners set_cleaner Nat.eqb]. discriminate.
  - split; [exact R|]. split; [|intros y u s' l'; cbn [cleaners set_cleaner Nat.eqb]; discriminate].
    intros i I. cbn [cleaners set_cleaner]. destruct (Nat.eqb_spec i 0) as [->|_]; [contradiction|apply Z, I].
  - split; [exact R|]. split; [exact Z|]. intros x u s l E W'. destruct (N x u s l E W') as (ks & M & ND & K). exists ks. split; [exact M|]. split; [exact ND|].
    intros j I. cbn [objs with_objs]. destruct (keqb j k) eqn:Q; [apply keqb_eq in Q; left; symmetry; exact Q|]. right. apply in_without. split; [apply K, I|].
    intros ->. rewrite (proj2 (keqb_eq k k) eq_refl) in Q. discriminate Q.
  - destruct (existsb (fun r => Nat.eqb (fst r) v) (rows st)); [split; [exact R|split; [exact Z|exact N]]|]. split; [|split; [exact Z|exact N]].
    cbn [rows with_rows]. intros u I. apply in_app_or in I as [I|[I|[]]]; [apply R, I|discriminate I].
Qed.
(* C164: with one clean-up at a time and a store that works, no table is given up *)
Theorem c164_not_given_up_partial : forall c o rs evs u, along c exact (init o rs) evs -> Forall works evs -> Forall single evs ->
  In (u, Failed) (rows (run c (init o rs) evs)) -> In (u, Failed) rs.
Proof.
  intros c o rs evs u X W S1. assert (A : ready rs (init o rs)) by (split; [exact (fun u H => H)|split; [reflexivity|intros x v s l E; discriminate E]]). revert A X. generalize (init o rs).
  induction evs as [|ev evs IH]; intros st A X; [apply A|]. cbn [along] in X. destruct X as [X1 X2]. inversion W as [|? ? W1 W2]; inversion S1 as [|? ? S2 S3]; subst. cbn [run fold_left].
  apply (IH W2 S3 (step c st ev)); [apply ready_step; assumption|exact X2].
Qed.
(* what two clean-ups are at *)
Definition at_ (st : state) (o : list (nat * nat)) (r : list (nat * status)) (c0 c1 : option cleaner) : Prop :=
  objs st = o /\ rows st = r /\ cleaners st 0 = c0 /\ cleaners st 1 = c1.
Lemma at_deleted c st o r i x u s k l c0 c1 : at_ st o r c0 c1 -> (if Nat.eqb i 0 then c0 else c1) = Some x -> i < 2 -> now x = Some (u, s, Some k :: l) -> In k o ->
  let y := Some {| todo := todo x; now := Some (u, s, l) |} in at_ (step c st (Next i true)) (without k o) r (if Nat.eqb i 0 then y else c0) (if Nat.eqb i 0 then c1 else y).
Proof.
  intros (<- & <- & <- & <-) X L W I. assert (E : cleaners st i = Some x) by (destruct i as [|[|i]]; [exact X|exact X|lia]). cbn [step]. rewrite E, W.
  rewrite (proj2 (existsb_key k (objs st)) I). cbn [andb orb]. destruct i as [|[|i]]; [| |lia]; (split; [reflexivity|split; [reflexivity|split; reflexivity]]).
Qed.
Lemma at_missing c st o r i x u s k l c0 c1 : strict c = true -> at_ st o r c0 c1 -> (if Nat.eqb i 0 then c0 else c1) = Some x -> i < 2 -> now x = Some (u, s, Some k :: l) -> ~ In k o ->
  let y := Some {| todo := todo x; now := None |} in
  at_ (step c st (Next i true)) o (update_dropped_table c u (next_status s) r) (if Nat.eqb i 0 then y else c0) (if Nat.eqb i 0 then c1 else y).
Proof.
  intros SC (<- & <- & <- & <-) X L W I. assert (E : cleaners st i = Some x) by (destruct i as [|[|i]]; [exact X|exact X|lia]). cbn [step]. rewrite E, W, SC.
  destruct (existsb (keqb k) (objs st)) eqn:Q; [apply existsb_key in Q; contradiction|]. cbn [andb orb negb]. destruct i as [|[|i]]; [| |lia]; (split; [reflexivity|split; [reflexivity|split; reflexivity]]).
Qed.
(* Two clean-ups at the same time (VACUUM and the background task) make each other fail although the store works: the table is given up *)
Definition in_each_others_way (u : nat) : list event :=
  [Begin 0 (fun _ => true); Begin 1 (fun _ => true); Listing 0 [Some (u, 0); Some (u, 1); Some (u, 2)]; Listing 1 [Some (u, 1); Some (u, 0); Some (u, 2)]; Next 0 true; Next 1 true; Next 0 true; Next 1 true].
Theorem c164_concurrent_refuted : forall u, let c := {| strict := true; refused := false |} in let st := init [(u, 0); (u, 1); (u, 2)] [(u, Pending)] in
  Forall works (in_each_others_way u) /\ along c exact st (in_each_others_way u) /\
  rows (run c st (in_each_others_way u)) = [(u, Failed)] /\ objs (run c st (in_each_others_way u)) = [(u, 2)].
Proof.
  intros u c st. split; [repeat constructor|]. split.
  - unfold in_each_others_way. cbn [along]. split; [exact Logic.I|]. split; [exact Logic.I|].
    assert (H : forall st' ks v i, objs st' = [(u, 0); (u, 1); (u, 2)] -> lists st' i v -> (forall x, cleaners st' i = Some x -> todo x = [(u, Pending)]) ->
      (forall k, In k ks <-> In k [(u, 0); (u, 1); (u, 2)]) -> NoDup ks -> exists ks', map Some ks = map Some ks' /\ NoDup ks' /\ forall k, In k ks' <-> fst k = v /\ In k (objs st')).
    { intros st' ks v i O (x & s & rest & E & _ & T) Q K ND. rewrite (Q x E) in T. injection T as <- <- <-. exists ks. split; [reflexivity|]. split; [exact ND|]. intros k. rewrite K, O. split; [|intros [_ I]; exact I].
      intros I. split; [|exact I]. destruct I as [<-|[<-|[<-|[]]]]; reflexivity. }
    split; [|split; [|split; [exact Logic.I|split; [exact Logic.I|split; [exact Logic.I|split; [exact Logic.I|exact Logic.I]]]]]].
    + intros v L. apply (H _ [(u, 0); (u, 1); (u, 2)] v 0); [reflexivity|exact L|intros x E; injection E as <-; reflexivity|reflexivity|].
      constructor; [intros [E|[E|[]]]; discriminate E|]. constructor; [intros [E|[]]; discriminate E|]. constructor; [intros []|constructor].
    + intros v L. apply (H _ [(u, 1); (u, 0); (u, 2)] v 1); [reflexivity|exact L|intros x E; injection E as <-; reflexivity|cbn [In]; tauto|].
      constructor; [intros [E|[E|[]]]; discriminate E|]. constructor; [intros [E|[]]; discriminate E|]. constructor; [intros []|constructor].
  - unfold in_each_others_way, run. cbn [fold_left].
    match goal with |- context [step c (step c (step c (step c ?s (Next 0 true)) (Next 1 true)) (Next 0 true)) (Next 1 true)] => set (s4 := s) end.
    assert (A4 : at_ s4 [(u, 0); (u, 1); (u, 2)] [(u, Pending)] (Some {| todo := []; now := Some (u, Pending, [Some (u, 0); Some (u, 1); Some (u, 2)]) |})
      (Some {| todo := []; now := Some (u, Pending, [Some (u, 1); Some (u, 0); Some (u, 2)]) |})) by (split; [reflexivity|split; [reflexivity|split; reflexivity]]).
    assert (W0 : without (u, 0) [(u, 0); (u, 1); (u, 2)] = [(u, 1); (u, 2)]) by (unfold without, keqb; cbn [filter fst snd]; rewrite Nat.eqb_refl; reflexivity).
    assert (W1 : without (u, 1) [(u, 1); (u, 2)] = [(u, 2)]) by (unfold without, keqb; cbn [filter fst snd]; rewrite Nat.eqb_refl; reflexivity).
    assert (UP : forall t, update_dropped_table c u Failed [(u, t)] = [(u, Failed)]) by (intros t; unfold update_dropped_table; cbn [refused c map fst]; rewrite Nat.eqb_refl; reflexivity).
    clearbody s4.
    pose proof (at_deleted c _ _ _ 0 _ _ _ _ _ _ _ A4 eq_refl ltac:(lia) eq_refl ltac:(left; reflexivity)) as A5. cbn [Nat.eqb todo] in A5. rewrite W0 in A5.
    pose proof (at_deleted c _ _ _ 1 _ _ _ _ _ _ _ A5 eq_refl ltac:(lia) eq_refl ltac:(left; reflexivity)) as A6. cbn [Nat.eqb todo] in A6. rewrite W1 in A6.
    assert (N : forall n, n <> 2 -> ~ In (u, n) [(u, 2)]) by (intros n NE [E|[]]; injection E as E; apply NE; symmetry; exact E).
    pose proof (at_missing c _ _ _ 0 _ _ _ _ _ _ _ eq_refl A6 eq_refl ltac:(lia) eq_refl (N 1 ltac:(lia))) as A7. cbn [Nat.eqb todo next_status] in A7. rewrite UP in A7.
    pose proof (at_missing c _ _ _ 1 _ _ _ _ _ _ _ eq_refl A7 eq_refl ltac:(lia) eq_refl (N 0 ltac:(lia))) as A8. cbn [Nat.eqb todo next_status] in A8. rewrite UP in A8.
    destruct A8 as (O & R & _). split; [exact R|exact O].
Qed.

(* ---- an undisturbed clean-up ---- *)
Lemma clean_objects c u s rest ks : forall st, cleaners st 0 = Some {| todo := rest; now := Some (u, s, map Some ks) |} -> NoDup ks -> (forall k, In k ks -> In k (objs st)) ->
  let st' := run c st (repeat (Next 0 true) (S (length ks))) in
  cleaners st' 0 = Some {| todo := rest; now := None |} /\ rows st' = delete_dropped_table u (rows st) /\ forall k, In k (objs st') <-> In k (objs st) /\ ~ In k ks.
Proof.
  induction ks as [|k ks IH]; intros st E ND K.
  - cbn [length repeat run fold_left step]. rewrite E. cbn [now map todo]. split; [reflexivity|]. split; [reflexivity|]. intros k. cbn [objs set_cleaner with_rows In]. tauto.
  - inversion ND as [|? ? NI ND']; subst. cbn [length]. change (repeat (Next 0 true) (S (S (length ks)))) with (Next 0 true :: repeat (Next 0 true) (S (length ks))).
    unfold run. cbn [fold_left]. cbn [step]. rewrite E. cbn [now map todo]. rewrite (proj2 (existsb_key k (objs st)) (K k (or_introl eq_refl))). cbn [andb orb].
    destruct (IH (set_cleaner (with_objs st (without k (objs st))) 0 (Some {| todo := rest; now := Some (u, s, map Some ks) |})) eq_refl ND') as (A & B & C).
    { intros j I. cbn [objs set_cleaner with_objs]. apply in_without. split; [apply K; right; exact I|intros ->; contradiction]. }
    split; [exact A|]. split; [exact B|]. intros j. etransitivity; [apply C|]. cbn [objs set_cleaner with_objs]. rewrite in_without. cbn [In]. split.
    + intros [[I N] M]. split; [exact I|]. intros [H|H]; [apply N; symmetry; exact H|contradiction].
    + intros [I N]. split; [split; [exact I|intros ->; apply N; left; reflexivity]|intros H; apply N; right; exact H].
Qed.
Lemma clean_tables c (listing : nat -> list (nat * nat)) us : forall st, cleaners st 0 = Some {| todo := us; now := None |} -> NoDup (map fst us) ->
  (forall r, In r us -> NoDup (listing (fst r)) /\ forall k, In k (listing (fst r)) <-> fst k = fst r /\ In k (objs st)) ->
  let st' := run c st (flat_map (fun r => Listing 0 (map Some (listing (fst r))) :: repeat (Next 0 true) (S (length (listing (fst r))))) us ++ [Next 0 true]) in
  cleaners st' 0 = None /\ (forall r, In r (rows st') <-> In r (rows st) /\ ~ In (fst r) (map fst us)) /\ forall k, In k (objs st') <-> In k (objs st) /\ ~ In (fst k) (map fst us).
Proof.
  induction us as [|[u s] us IH]; intros st E ND L.
  - cbn [flat_map app run fold_left step]. rewrite E. cbn [now todo map In]. split; [reflexivity|]. split; intros; cbn [rows objs set_cleaner]; tauto.
  - cbn [map fst] in ND. inversion ND as [|? ? NI ND']; subst. destruct (L (u, s) (or_introl eq_refl)) as [LN LK]. cbn [fst] in LN, LK. cbn [flat_map fst]. rewrite <- app_assoc. unfold run. rewrite <- app_comm_cons. cbn [fold_left].
    rewrite fold_left_app. cbn [step] . rewrite E. set (st1 := set_cleaner st 0 (Some {| todo := us; now := Some (u, s, map Some (listing u)) |})).
    destruct (clean_objects c u s us (listing u) st1 eq_refl LN) as (A & B & C); [intros k I; apply LK in I as [_ I]; exact I|]. fold (run c st1 (repeat (Next 0 true) (S (length (listing u))))).
    set (st2 := run c st1 (repeat (Next 0 true) (S (length (listing u))))) in *.
    assert (C2 : forall k, In k (objs st2) <-> In k (objs st) /\ fst k <> u).
    { intros k. etransitivity; [apply C|]. cbn [objs st1 set_cleaner]. rewrite LK. destruct (Nat.eq_dec (fst k) u); tauto. }
    destruct (IH st2 A ND') as (A3 & B3 & C3).
    { intros r I. destruct (L r (or_intror I)) as [N K]. split; [exact N|]. intros k. rewrite K, C2. split; [|tauto]. intros [F O]. split; [exact F|split; [exact O|]]. intros H. apply NI. rewrite <- H, F. apply in_map, I. }
    split; [exact A3|]. split.
    + intros r. etransitivity; [apply B3|]. rewrite B. cbn [rows st1 set_cleaner map fst]. destruct r as [v t]. rewrite in_delete. cbn [In fst]. split; [intros [[X Y] Z]; split; [exact X|intros [H|H]; [apply Y; symmetry; exact H|contradiction]]|].
      intros [X Y]. split; [split; [exact X|intros ->; apply Y; left; reflexivity]|intros H; apply Y; right; exact H].
    + intros k. etransitivity; [apply C3|]. rewrite C2. cbn [map fst In]. split; [intros [[X Y] Z]; split; [exact X|intros [H|H]; [apply Y; symmetry; exact H|contradiction]]|].
      intros [X Y]. split; [split; [exact X|intros H; apply Y; left; symmetry; exact H]|intros H; apply Y; right; exact H].
Qed.
(* C164: a clean-up with a store that works, and that nobody disturbs, deletes the objects of all chosen dropped tables it has not given up before,
   forgets these tables, and leaves all other tables and objects as they are *)
Theorem c164_cleaned : forall c o rs (listing : nat -> list (nat * nat)) chosen, NoDup (map fst rs) -> (forall u, NoDup (listing u) /\ forall k, In k (listing u) <-> fst k = u /\ In k o) ->
  let st := run c (init o rs) (undisturbed listing chosen rs) in
  (forall u s, In (u, s) (rows st) <-> In (u, s) rs /\ (s = Failed \/ chosen u = false)) /\
  forall k, In k (objs st) <-> In k o /\ ~ exists s, In (fst k, s) rs /\ s <> Failed /\ chosen (fst k) = true.
Proof.
  intros c o rs listing chosen ND L st. set (us := filter live (filter (fun r => chosen (fst r)) rs)).
  assert (F : forall u, In u (map fst us) <-> exists s, In (u, s) rs /\ s <> Failed /\ chosen u = true).
  { intros u. unfold us. rewrite in_map_iff. split.
    - intros ([v s] & <- & I). apply filter_In in I as [I Q]. apply filter_In in I as [I C]. exists s. split; [exact I|]. split; [|exact C]. cbn [snd] in Q. destruct s; discriminate.
    - intros (s & I & Q & C). exists (u, s). split; [reflexivity|]. apply filter_In. split; [apply filter_In; split; [exact I|exact C]|]. destruct s; [reflexivity|reflexivity|contradiction]. }
  assert (U : forall (l : list (nat * status)) f, NoDup (map fst l) -> NoDup (map fst (filter f l))).
  { intros l f H. induction l as [|r l IH]; [exact H|]. cbn [map] in H. inversion H as [|? ? NI H']; subst. cbn [filter]. destruct (f r); [|apply IH, H']. cbn [map]. constructor; [|apply IH, H'].
    intros I. apply NI. apply in_map_iff in I as (q & E & I). apply filter_In in I as [I _]. rewrite <- E. apply in_map, I. }
  destruct (clean_tables c listing us (step c (init o rs) (Begin 0 chosen)) eq_refl (U _ _ (U _ _ ND))) as (_ & B & C).
  { intros r _. apply L. }
  assert (Q : st = run c (step c (init o rs) (Begin 0 chosen)) (flat_map (fun r => Listing 0 (map Some (listing (fst r))) :: repeat (Next 0 true) (S (length (listing (fst r))))) us ++ [Next 0 true])).
  { reflexivity. }
  assert (One : forall u s t, In (u, s) rs -> In (u, t) rs -> s = t).
  { clear - ND. intros u s t I J. induction rs as [|[v q] rs IH]; [destruct I|]. cbn [map fst] in ND. inversion ND as [|? ? NI ND']; subst.
    destruct I as [I|I], J as [J|J].
    - rewrite I in J. injection J as <-. reflexivity.
    - injection I as -> ->. exfalso. apply NI. apply (in_map fst) in J. exact J.
    - injection J as -> ->. exfalso. apply NI. apply (in_map fst) in I. exact I.
    - apply IH; assumption. }
  rewrite Q. split.
  - intros u s. etransitivity; [apply B|]. rewrite F. cbn [fst rows step init cleaners set_cleaner]. split.
    + intros [I N]. split; [exact I|]. destruct (chosen u) eqn:Ch; [left|right; reflexivity].
      destruct s; [exfalso; apply N; exists Pending|exfalso; apply N; exists Retry|reflexivity]; (split; [exact I|split; [discriminate|reflexivity]]).
    + intros [I H]. split; [exact I|]. intros (t & J & N & Ch). destruct H as [->|H]; [apply N, (One u t Failed J I)|rewrite Ch in H; discriminate H].
  - intros k. etransitivity; [apply C|]. rewrite F. reflexivity.
Qed.

(* The hypotheses are met: two dropped tables and one that is not, a crash in the middle of the first clean-up, a failed deletion *)
Definition ex_objs := [(1, 0); (1, 1); (2, 0); (3, 0)].
Definition ex_rows := [(1, Retry); (2, Pending)].
Definition ex_events := [Begin 0 (fun _ => true); Listing 0 [Some (1, 0); Some (1, 1)]; Next 0 true; Crash 0;
  Begin 0 (fun _ => true); Listing 0 [Some (1, 1)]; Next 0 true; Next 0 true; Listing 0 [Some (2, 0)]; Next 0 false; Next 0 true].
Definition ex_setup := {| strict := true; refused := false |}.
Example ex_crash : rows (run ex_setup (init ex_objs ex_rows) ex_events) = [(2, Failed)] /\ objs (run ex_setup (init ex_objs ex_rows) ex_events) = [(2, 0); (3, 0)].
Proof. vm_compute. split; reflexivity. Qed.
Example ex_own : along ex_setup own (init ex_objs ex_rows) ex_events /\ along ex_setup complete (init ex_objs ex_rows) ex_events.
Proof.
  split; unfold ex_events; cbn [along].
  - repeat (split; [try exact Logic.I|]); try exact Logic.I; intros u k L I; destruct L as (y & s & rest & E & _ & T); vm_compute in E; injection E as <-; cbn [todo] in T; injection T as <- _ _;
      cbn [In] in I; repeat (destruct I as [I|I]; [injection I as <-; reflexivity|]); destruct I.
  - repeat (split; [try exact Logic.I|]); try exact Logic.I; intros u k L F I; destruct L as (y & s & rest & E & _ & T); vm_compute in E; injection E as <-; cbn [todo] in T; injection T as <- _ _;
      vm_compute in I; cbn [In]; repeat (destruct I as [I|I]; [subst k; first [discriminate F|tauto]|]); destruct I.
Qed.
Example ex_only : In (3, 0) (objs (run ex_setup (init ex_objs ex_rows) ex_events)).
Proof.
  apply c164_only; [cbn; tauto| |cbn; intuition discriminate|apply ex_own]. intros [s [H|[H|[]]]]; discriminate H.
Qed.
Example ex_all : forall k, fst k = 1 -> ~ In k (objs (run ex_setup (init ex_objs ex_rows) ex_events)).
Proof.
  apply c164_all_partial; [exists Retry; left; reflexivity|apply ex_own|cbn; intuition discriminate|]. intros [s H]. vm_compute in H. destruct H as [H|[]]. discriminate H.
Qed.
Example ex_given_up : In (2, 0) (objs (run ex_setup (init [(2, 0)] [(2, Failed)]) [Begin 0 (fun _ => true); Next 0 true])).
Proof. apply c164_given_up_refuted; [left; reflexivity|intros s [H|[]]; injection H as <-; reflexivity|cbn; intuition discriminate|cbn; tauto]. Qed.
Definition ex_calm := [Begin 0 (fun _ => true); Listing 0 [Some (1, 0); Some (1, 1)]; Next 0 true; Next 0 true; Next 0 true; Next 0 true].
Example ex_not_given_up : ~ In (1, Failed) (rows (run ex_setup (init [(1, 0); (1, 1)] [(1, Pending)]) ex_calm)).
Proof.
  intros H. apply c164_not_given_up_partial in H; [destruct H as [H|[]]; discriminate H| |repeat constructor|repeat constructor].
  unfold ex_calm. cbn [along]. repeat (split; [try exact Logic.I|]); try exact Logic.I. intros u L. destruct L as (y & s & rest & E & _ & T). vm_compute in E. injection E as <-. cbn [todo] in T. injection T as <- _ _.
  exists [(1, 0); (1, 1)]. split; [reflexivity|]. split; [constructor; [intros [E|[]]; discriminate E|constructor; [intros []|constructor]]|]. intros k. split; [|intros [_ I]; exact I].
  intros I. split; [destruct I as [<-|[<-|[]]]; reflexivity|exact I].
Qed.
Definition ex_listing (u : nat) := filter (fun k => Nat.eqb (fst k) u) ex_objs.
Example ex_cleaned : forall k, In k (objs (run ex_setup (init ex_objs ex_rows) (undisturbed ex_listing (fun _ => true) ex_rows))) -> k = (3, 0).
Proof.
  assert (L : forall u, NoDup (ex_listing u) /\ forall k, In k (ex_listing u) <-> fst k = u /\ In k ex_objs).
  { intros u. split; [apply NoDup_filter; repeat constructor; cbn; intuition discriminate|]. intros k. unfold ex_listing. rewrite filter_In, Nat.eqb_eq. tauto. }
  assert (R : NoDup (map fst ex_rows)) by (repeat constructor; cbn; intuition discriminate).
  intros k I. apply (proj2 (c164_cleaned ex_setup ex_objs ex_rows ex_listing (fun _ => true) R L)) in I as [I N].
  destruct I as [<-|[<-|[<-|[<-|[]]]]]; [exfalso; apply N; exists Retry; split; [left; reflexivity|split; [discriminate|reflexivity]]|exfalso; apply N; exists Retry; split; [left; reflexivity|split; [discriminate|reflexivity]]|
    exfalso; apply N; exists Pending; split; [right; left; reflexivity|split; [discriminate|reflexivity]]|reflexivity].
Qed.

Print Assumptions c164_only.
Print Assumptions c164_given_up_refuted.
Print Assumptions c164_all_partial.
Print Assumptions c164_listing_refuted.
Print Assumptions c164_late_refuted.
Print Assumptions c164_not_given_up_partial.
Print Assumptions c164_concurrent_refuted.
Print Assumptions c164_cleaned.
