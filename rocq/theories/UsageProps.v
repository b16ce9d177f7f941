(* C166: the gauges of the cache show how much is cached and how much may be. UsageSpec.v says what the property means, UsageModel.v is the code. *)
From Coq Require Import List Arith ZArith Bool Lia.
From Verif Require Import UsageModel UsageSpec.
Import ListNotations.
Open Scope Z_scope.

Definition total (l : list (nat * nat)) : Z := fold_right (fun e a => Z.of_nat (snd e) + a) 0 l.
Lemma run_snoc evs ev : run (evs ++ [ev]) = step (run evs) ev.
Proof. unfold run. rewrite fold_left_app. reflexivity. Qed.
Lemma holds_snoc c evs ev k : holds c (evs ++ [ev]) k =
  match ev with
    | Open d _ => if Nat.eqb d c then None else holds c evs k
    | Store d j s => if (Nat.eqb d c && Nat.eqb j k)%bool then match holds c evs k with Some o => Some o | None => Some s end else holds c evs k
    | Persist d j s => if (Nat.eqb d c && Nat.eqb j k)%bool then Some s else holds c evs k
    | Fail d j => if (Nat.eqb d c && Nat.eqb j k)%bool then None else holds c evs k
    | Maintain d out => if (Nat.eqb d c && existsb (Nat.eqb k) out)%bool then None else holds c evs k
    | Report _ => holds c evs k
  end.
Proof. unfold holds. rewrite fold_left_app. reflexivity. Qed.
Lemma size_cons k j s l : size_of k ((j, s) :: l) = if Nat.eqb j k then Some s else size_of k l.
Proof. unfold size_of. cbn. destruct (Nat.eqb j k); reflexivity. Qed.
Lemma size_without k j l : size_of k (without j l) = if Nat.eqb j k then None else size_of k l.
Proof.
  induction l as [|[i s] l IH]; [destruct (Nat.eqb j k); reflexivity|]. cbn [without filter fst]. fold (without j l). destruct (Nat.eqb_spec i j) as [->|N]; cbn [negb].
  - rewrite IH, size_cons. destruct (Nat.eqb j k); reflexivity.
  - rewrite !size_cons, IH. destruct (Nat.eqb_spec i k) as [->|]; [|reflexivity]. destruct (Nat.eqb_spec j k); [congruence|reflexivity].
Qed.
Lemma without_in k j l : In k (map fst (without j l)) <-> In k (map fst l) /\ k <> j.
Proof.
  rewrite !in_map_iff. unfold without. split.
  - intros ([i s] & <- & I). apply filter_In in I as [I N]. cbn in N. apply negb_true_iff, Nat.eqb_neq in N. split; [exists (i, s); split; [reflexivity|exact I]|exact N].
  - intros [([i s] & <- & I) N]. exists (i, s). split; [reflexivity|]. apply filter_In. split; [exact I|]. apply negb_true_iff, Nat.eqb_neq. exact N.
Qed.
Lemma without_nodup j l : NoDup (map fst l) -> NoDup (map fst (without j l)).
Proof.
  induction l as [|[i s] l IH]; [intros H; exact H|]. cbn [map fst]. intros H. apply NoDup_cons_iff in H as [N H]. cbn [without filter fst]. fold (without j l). destruct (negb (Nat.eqb i j)); [|exact (IH H)].
  cbn [map fst]. constructor; [|exact (IH H)]. intros I. apply without_in in I as [I _]. contradiction.
Qed.
Lemma without_absent j l : ~ In j (map fst l) -> without j l = l.
Proof.
  induction l as [|[i s] l IH]; [reflexivity|]. cbn [map fst]. intros N. cbn [without filter fst]. fold (without j l). destruct (Nat.eqb_spec i j) as [->|]; [exfalso; apply N; left; reflexivity|].
  cbn [negb]. f_equal. apply IH. intros I. apply N. right. exact I.
Qed.
Lemma without_total j l : NoDup (map fst l) -> total (without j l) = total l - match size_of j l with Some s => Z.of_nat s | None => 0 end.
Proof.
  induction l as [|[i s] l IH]; [reflexivity|]. cbn [map fst]. intros H. apply NoDup_cons_iff in H as [N H]. rewrite size_cons. cbn [without filter fst]. fold (without j l). destruct (Nat.eqb_spec i j) as [->|]; cbn [negb].
  - rewrite (without_absent j l N). unfold total. cbn [fold_right snd]. lia.
  - specialize (IH H). unfold total in *. cbn [fold_right snd]. lia.
Qed.
Lemma sum_snoc l z : sum (l ++ [z]) = sum l + z.
Proof. induction l as [|a l IH]; cbn in *; [lia|]. unfold sum in *. cbn [app fold_right]. lia. Qed.
Definition good (x : cache) : Prop := NoDup (map fst (entries x)) /\ weighted x + sum (pending x) = total (entries x).
Lemma insert_good x k s : good x -> good (insert x k s).
Proof.
  intros [N W]. split; cbn [insert entries pending weighted map fst].
  - constructor; [intros I; apply without_in in I as [_ I]; apply I; reflexivity|apply without_nodup; exact N].
  - rewrite sum_snoc. unfold total at 1. cbn [fold_right snd]. fold (total (without k (entries x))). rewrite (without_total k _ N). lia.
Qed.
(* evicting keeps the difference between the gauge and the weight *)
Lemma evict_good out x u : good x -> let xu := fold_left evict out (x, u) in
  good (fst xu) /\ pending (fst xu) = pending x /\ snd xu - total (entries (fst xu)) = u - total (entries x) /\
  forall k, size_of k (entries (fst xu)) = if existsb (Nat.eqb k) out then None else size_of k (entries x).
Proof.
  revert x u. induction out as [|j out IH]; intros x u G; cbn [fold_left]; [cbn; repeat split; try apply G; reflexivity|]. cbn [evict existsb]. destruct (size_of j (entries x)) as [s|] eqn:E.
  - set (x' := {| entries := without j (entries x); pending := pending x; weighted := weighted x - Z.of_nat s |}). assert (T : total (entries x') = total (entries x) - Z.of_nat s) by (unfold x'; cbn [entries]; rewrite (without_total j _ (proj1 G)), E; reflexivity).
    assert (G' : good x') by (split; [apply without_nodup; apply G|rewrite T; unfold x'; cbn [weighted pending]; destruct G; lia]). destruct (IH x' (on_evict u s) G') as (A & B & C & D). split; [exact A|]. split; [exact B|]. split.
    + rewrite C, T. unfold on_evict. lia.
    + intros k. rewrite D. unfold x'. cbn [entries]. rewrite size_without, (Nat.eqb_sym k j). destruct (Nat.eqb j k), (existsb (Nat.eqb k) out); reflexivity.
  - destruct (IH x u G) as (A & B & C & D). split; [exact A|]. split; [exact B|]. split; [exact C|]. intros k. rewrite D. destruct (Nat.eqb_spec k j) as [->|]; [rewrite E; destruct (existsb _ out); reflexivity|reflexivity].
Qed.
Lemma invariant evs c : good (caches (run evs) c) /\ forall k, size_of k (entries (caches (run evs) c)) = holds c evs k.
Proof.
  induction evs as [|ev evs [G H]] using rev_ind; [split; [split; [constructor|reflexivity]|reflexivity]|]. rewrite run_snoc.
  assert (K : forall st, st = run evs -> good (caches st c) /\ forall k, size_of k (entries (caches st c)) = holds c evs k) by (intros st ->; split; assumption).
  destruct ev as [d m|d j s|d|d out|d j s|d j]; cbn [step].
  - cbn [caches set_cache]. setoid_rewrite holds_snoc. rewrite (Nat.eqb_sym c d). destruct (Nat.eqb_spec d c) as [->|N]; [split; [split; [constructor|reflexivity]|reflexivity]|split; assumption].
  - setoid_rewrite holds_snoc. destruct (size_of j (entries (caches (run evs) d))) as [o|] eqn:E.
    + split; [exact G|]. intros k. rewrite H. destruct (Nat.eqb_spec d c) as [->|]; [|reflexivity]. destruct (Nat.eqb_spec j k) as [->|]; [|reflexivity]. cbn [andb]. rewrite <- H, E. reflexivity.
    + cbn [caches set_cache]. rewrite (Nat.eqb_sym c d). destruct (Nat.eqb_spec d c) as [->|N]; [|split; assumption]. split; [apply insert_good; exact G|]. intros k. cbn [insert entries andb]. rewrite size_cons, size_without.
      destruct (Nat.eqb_spec j k) as [->|]; [rewrite <- H, E; reflexivity|apply H].
  - setoid_rewrite holds_snoc. split; assumption.
  - setoid_rewrite holds_snoc. pose proof (fun x u => evict_good out x u) as EV. set (x := {| entries := entries (caches (run evs) d); pending := []; weighted := weighted (caches (run evs) d) + sum (pending (caches (run evs) d)) |}).
    destruct (fold_left evict out (x, usage (run evs))) as [x' u] eqn:F. cbn [caches set_cache set_usage]. rewrite (Nat.eqb_sym c d). destruct (Nat.eqb_spec d c) as [->|N]; [|split; assumption].
    assert (Gx : good x) by (split; [apply G|unfold x; cbn [weighted pending entries sum fold_right]; destruct G; lia]). destruct (EV x (usage (run evs)) Gx) as (A & _ & _ & D). rewrite F in A, D. cbn [fst] in A, D. split; [exact A|]. intros k. rewrite D. unfold x. cbn [andb entries]. rewrite H. reflexivity.
  - setoid_rewrite holds_snoc. cbn [caches set_cache]. rewrite (Nat.eqb_sym c d). destruct (Nat.eqb_spec d c) as [->|N]; [|split; assumption]. split; [apply insert_good; exact G|]. intros k. cbn [insert entries andb]. rewrite size_cons, size_without.
    destruct (Nat.eqb_spec j k) as [->|]; [reflexivity|apply H].
  - setoid_rewrite holds_snoc. destruct (size_of j (entries (caches (run evs) d))) as [o|] eqn:E.
    + cbn [caches set_cache set_usage]. rewrite (Nat.eqb_sym c d). destruct (Nat.eqb_spec d c) as [->|N]; [|split; assumption]. split.
      * split; [apply without_nodup; apply G|]. cbn [pending weighted entries]. rewrite sum_snoc, (without_total j _ (proj1 G)), E. destruct G. lia.
      * intros k. cbn [entries andb]. rewrite size_without. destruct (Nat.eqb_spec j k) as [->|]; [reflexivity|apply H].
    + split; [exact G|]. intros k. rewrite H. destruct (Nat.eqb_spec d c) as [->|]; [|reflexivity]. destruct (Nat.eqb_spec j k) as [->|]; [|reflexivity]. cbn [andb]. rewrite <- H, E. reflexivity.
Qed.
Lemma in_size k s l : NoDup (map fst l) -> (In (k, s) l <-> size_of k l = Some s).
Proof.
  induction l as [|[i t] l IH]; [cbn; split; [intros []|discriminate]|]. cbn [map fst]. intros H. apply NoDup_cons_iff in H as [N H]. rewrite size_cons. cbn [In]. destruct (Nat.eqb_spec i k) as [->|D].
  - split; [intros [E|I]; [injection E as ->; reflexivity|exfalso; apply N, in_map_iff; exists (k, s); split; [reflexivity|exact I]]|intros E; injection E as ->; left; reflexivity].
  - rewrite <- (IH H). split; [intros [E|I]; [congruence|exact I]|intros I; right; exact I].
Qed.
Lemma cached_total c evs : cached c evs (total (entries (caches (run evs) c))).
Proof.
  destruct (invariant evs c) as [[N _] H]. exists (entries (caches (run evs) c)). split; [exact N|]. split; [|reflexivity]. intros k s. rewrite (in_size k s _ N), H. tauto.
Qed.
(* cached says what the number is *)
Lemma total_remove l l' : NoDup (map fst l) -> NoDup (map fst l') -> (forall k s, In (k, s) l <-> In (k, s) l') -> total l = total l'.
Proof.
  revert l'. induction l as [|[i t] l IH]; intros l' N N' E.
  - destruct l' as [|[i t] l']; [reflexivity|]. exfalso. apply (E i t). left. reflexivity.
  - cbn [map fst] in N. apply NoDup_cons_iff in N as [N1 N2]. assert (I : In (i, t) l') by (apply E; left; reflexivity). assert (T := without_total i l' N'). rewrite (proj1 (in_size i t l' N') I) in T.
    assert (Q : total l = total (without i l')).
    { apply IH; [exact N2|apply without_nodup; exact N'|]. intros k s. unfold without. rewrite filter_In. cbn [fst]. rewrite negb_true_iff, Nat.eqb_neq, <- E. cbn [In]. split.
      - intros J. split; [right; exact J|]. intros ->. apply N1, in_map_iff. exists (i, s). split; [reflexivity|exact J].
      - intros [[J|J] D]; [congruence|exact J]. }
    change (total ((i, t) :: l)) with (Z.of_nat t + total l). lia.
Qed.
Lemma cached_unique c evs n m : cached c evs n -> cached c evs m -> n = m.
Proof. intros (l & N & E & ->) (l' & N' & E' & ->). apply total_remove; [exact N|exact N'|]. intros k s. rewrite E, E'. tauto. Qed.

Definition settled (c : nat) (st : state) : Prop := pending (caches st c) = [] /\ usage st = total (entries (caches st c)).
Lemma settle evs c out : settled c (run (evs ++ [Maintain c out; Report c])).
Proof.
  change [Maintain c out; Report c] with ([Maintain c out] ++ [Report c]). rewrite app_assoc, run_snoc. destruct (invariant (evs ++ [Maintain c out]) c) as [[_ W] _]. assert (P : pending (caches (run (evs ++ [Maintain c out])) c) = []).
  { rewrite run_snoc. cbn [step]. destruct (invariant evs c) as [[N W'] _]. set (x := {| entries := entries (caches (run evs) c); pending := []; weighted := weighted (caches (run evs) c) + sum (pending (caches (run evs) c)) |}).
    assert (Gx : good x) by (split; [exact N|unfold x; cbn [weighted pending entries sum fold_right]; lia]). destruct (evict_good out x (usage (run evs)) Gx) as (_ & B & _). destruct (fold_left evict out (x, usage (run evs))) as [x' u]. cbn [caches set_cache set_usage]. rewrite Nat.eqb_refl. exact B. }
  rewrite P in W. cbn [step]. split; [exact P|]. cbn [usage set_usage caches]. rewrite <- W. cbn [sum fold_right]. lia.
Qed.
Lemma stays_settled evs c ev : settled c (run evs) -> match ev with Report _ | Maintain _ _ => True | _ => False end -> cache_of ev = c -> settled c (run (evs ++ [ev])).
Proof.
  intros [P U] Q E. rewrite run_snoc. destruct (invariant evs c) as [[N W] _]. rewrite P in W. destruct ev as [ | |d|d out| | ]; try contradiction; cbn in E; subst d; cbn [step].
  - split; [exact P|]. cbn [usage set_usage caches]. cbn [sum fold_right] in W. lia.
  - set (x := {| entries := entries (caches (run evs) c); pending := []; weighted := weighted (caches (run evs) c) + sum (pending (caches (run evs) c)) |}).
    assert (Gx : good x) by (split; [exact N|unfold x; cbn [weighted pending entries sum fold_right]; rewrite P; cbn [sum fold_right] in *; lia]). destruct (evict_good out x (usage (run evs)) Gx) as (_ & B & C & _). destruct (fold_left evict out (x, usage (run evs))) as [x' u].
    unfold settled. cbn [caches set_cache set_usage usage]. rewrite Nat.eqb_refl. cbn [fst snd] in B, C. split; [exact B|]. unfold x in C. cbn [entries] in C. lia.
Qed.
(* C166: with a single cache the gauge of the usage is exact once pending tasks were run and it was set, and stays exact while chunks are evicted *)
Theorem c166_usage_partial : forall c evs out more, only c (evs ++ [Maintain c out; Report c] ++ more) -> quiet more ->
  cached c (evs ++ [Maintain c out; Report c] ++ more) (usage (run (evs ++ [Maintain c out; Report c] ++ more))).
Proof.
  intros c evs out more O Q. assert (S1 : settled c (run (evs ++ [Maintain c out; Report c] ++ more))).
  { rewrite app_assoc in *. induction more as [|ev more IH] using rev_ind; [rewrite app_nil_r; apply settle|]. rewrite app_assoc in *. apply stays_settled.
    - apply IH; [intros e I; apply O, in_or_app; left; exact I|intros e I; apply Q, in_or_app; left; exact I].
    - apply Q, in_or_app. right. left. reflexivity.
    - apply O, in_or_app. right. left. reflexivity. }
  rewrite (proj2 S1). apply cached_total.
Qed.
(* C166: whenever it is set, what the gauge misses is what was stored or thrown away since pending tasks were run *)
Theorem c166_lag_partial : forall c evs out more n, (forall ev, In ev more -> match ev with Store _ _ _ | Persist _ _ _ | Fail _ _ | Report _ => True | _ => False end) ->
  cached c (evs ++ [Maintain c out]) n -> usage (run (evs ++ [Maintain c out] ++ more ++ [Report c])) = n.
Proof.
  intros c evs out more n M H. rewrite (cached_unique c _ _ _ H (cached_total c _)). rewrite !app_assoc, run_snoc. cbn [step usage set_usage].
  assert (W0 : weighted (caches (run (evs ++ [Maintain c out])) c) = total (entries (caches (run (evs ++ [Maintain c out])) c))).
  { pose proof (settle evs c out) as [P U]. change [Maintain c out; Report c] with ([Maintain c out] ++ [Report c]) in *. rewrite app_assoc, run_snoc in P, U. exact U. }
  rewrite <- W0. clear W0 H. induction more as [|ev more IH] using rev_ind; [rewrite app_nil_r; reflexivity|]. rewrite app_assoc, run_snoc.
  rewrite <- IH by (intros e I; apply M, in_or_app; left; exact I). assert (E : match ev with Store _ _ _ | Persist _ _ _ | Fail _ _ | Report _ => True | _ => False end) by (apply M, in_or_app; right; left; reflexivity).
  set (st := run _). destruct ev as [ |d k s|d| |d k s|d k]; try contradiction; cbn [step].
  - destruct (size_of k (entries (caches st d))); [reflexivity|]. cbn [caches set_cache]. destruct (Nat.eqb_spec c d) as [->|]; reflexivity.
  - reflexivity.
  - cbn [caches set_cache]. destruct (Nat.eqb_spec c d) as [->|]; reflexivity.
  - destruct (size_of k (entries (caches st d))); [|reflexivity]. cbn [caches set_cache set_usage]. destruct (Nat.eqb_spec c d) as [->|]; reflexivity.
Qed.
(* C166: when chunks go the gauge goes down by their length *)
Theorem c166_gone : forall c evs ev n m, (exists k, ev = Fail c k) \/ (exists out, ev = Maintain c out) -> cached c evs n -> cached c (evs ++ [ev]) m ->
  usage (run (evs ++ [ev])) = usage (run evs) - (n - m).
Proof.
  intros c evs ev n m V N M. rewrite (cached_unique c _ _ _ N (cached_total c _)), (cached_unique c _ _ _ M (cached_total c _)). clear N M. rewrite run_snoc. destruct (invariant evs c) as [[N W] _]. destruct V as [[k ->]|[out ->]]; cbn [step].
  - destruct (size_of k (entries (caches (run evs) c))) as [s|] eqn:E; [|lia]. cbn [caches set_cache set_usage usage]. rewrite Nat.eqb_refl. cbn [entries]. rewrite (without_total k _ N), E. unfold on_evict. lia.
  - set (x := {| entries := entries (caches (run evs) c); pending := []; weighted := weighted (caches (run evs) c) + sum (pending (caches (run evs) c)) |}).
    assert (Gx : good x) by (split; [exact N|unfold x; cbn [weighted pending entries sum fold_right]; lia]). destruct (evict_good out x (usage (run evs)) Gx) as (_ & _ & C & _). destruct (fold_left evict out (x, usage (run evs))) as [x' u].
    cbn [caches set_cache set_usage usage]. rewrite Nat.eqb_refl. cbn [fst snd] in C. unfold x in C. cbn [entries] in C. lia.
Qed.
(* C166: the gauge of the capacity shows the capacity of the cache that was opened last *)
Theorem c166_capacity : forall evs c max more, (forall d m, ~ In (Open d m) more) -> capacity (run (evs ++ [Open c max] ++ more)) = Z.of_nat max.
Proof.
  intros evs c max more N. rewrite app_assoc. induction more as [|ev more IH] using rev_ind; [rewrite app_nil_r, run_snoc; reflexivity|]. rewrite app_assoc, run_snoc.
  rewrite <- IH by (intros d m I; apply (N d m), in_or_app; left; exact I). set (st := run _). destruct ev as [d m|d k s|d|d out|d k s|d k]; cbn [step]; try reflexivity.
  - exfalso. apply (N d m), in_or_app. right. left. reflexivity.
  - destruct (size_of k (entries (caches st d))); reflexivity.
  - destruct (fold_left evict out _) as [x' u]. reflexivity.
  - destruct (size_of k (entries (caches st d))); reflexivity.
Qed.

(* ---- what goes wrong ---- *)
(* A chunk whose file cannot be written is thrown away and still counted, until pending tasks are run and the gauge is set again *)
Theorem c166_failed_refuted : forall c evs out k s n, only c evs -> holds c (evs ++ [Maintain c out; Report c]) k = None -> cached c (evs ++ [Maintain c out; Report c]) n ->
  cached c (evs ++ [Maintain c out; Report c] ++ read_chunk c k s [] false) n /\
  usage (run (evs ++ [Maintain c out; Report c] ++ read_chunk c k s [] false)) = n + Z.of_nat s.
Proof.
  intros c evs out k s n O A H. rewrite app_assoc. set (e0 := evs ++ [Maintain c out; Report c]) in *. assert (S1 : settled c (run e0)) by apply settle. clearbody e0. rewrite (cached_unique c _ _ _ H (cached_total c _)).
  destruct (invariant e0 c) as [[N W] SZ]. destruct S1 as [P U]. rewrite P in W. cbn [sum fold_right] in W. assert (K : size_of k (entries (caches (run e0) c)) = None) by (rewrite SZ; exact A).
  assert (AB : ~ In k (map fst (entries (caches (run e0) c)))).
  { intros I. apply in_map_iff in I as ([i t] & E & I). cbn in E. subst i. apply (in_size k t _ N) in I. congruence. }
  assert (R : entries (caches (run (e0 ++ read_chunk c k s [] false)) c) = entries (caches (run e0) c) /\ usage (run (e0 ++ read_chunk c k s [] false)) = total (entries (caches (run e0) c)) + Z.of_nat s).
  { unfold run at 1 3, read_chunk. rewrite !fold_left_app. fold (run e0). cbn [fold_left step]. rewrite K. cbn [fold_left step caches set_cache set_usage usage]. rewrite !Nat.eqb_refl. cbn [insert entries pending weighted]. rewrite size_cons, Nat.eqb_refl.
    cbn [fold_left step caches set_cache set_usage usage insert entries pending weighted]. rewrite !Nat.eqb_refl. cbn [entries weighted]. split.
    - unfold without at 1. cbn [filter fst]. rewrite Nat.eqb_refl. cbn [negb]. fold (without k (without k (entries (caches (run e0) c)))). rewrite (without_absent k _ AB). apply without_absent. exact AB.
    - rewrite P, K. cbn [app sum fold_right]. lia. }
  destruct R as [R1 R2]. split; [|exact R2]. rewrite <- R1. apply cached_total.
Qed.
(* With two caches it shows the one that was written to last, and nothing right after a cache is opened *)
Theorem c166_caches_refuted : forall c d k s n, c <> d ->
  let evs := read_chunk c k s [] true ++ [Open d n] in
  cached c evs (Z.of_nat s) /\ cached d evs 0 /\ usage (run evs) = 0.
Proof.
  intros c d k s n D evs. assert (E : entries (caches (run evs) c) = [(k, s)] /\ entries (caches (run evs) d) = [] /\ usage (run evs) = 0).
  { unfold evs, run, read_chunk, without. simpl. repeat (rewrite Nat.eqb_refl; simpl). destruct (Nat.eqb_spec c d) as [->|_]; [contradiction|]. simpl. rewrite ?Nat.eqb_refl. repeat split; reflexivity. }
  destruct E as (E1 & E2 & E3). split; [|split; [|exact E3]].
  - replace (Z.of_nat s) with (total (entries (caches (run evs) c))) by (rewrite E1; cbn; lia). apply cached_total.
  - replace 0 with (total (entries (caches (run evs) d))) by (rewrite E2; reflexivity). apply cached_total.
Qed.
(* Before it is set again it can be less than nothing: a chunk that is evicted at once was not counted before *)
Theorem c166_negative_refuted : forall c k s, usage (run [Store c k s; Report c; Maintain c [k]]) = - Z.of_nat s.
Proof.
  intros c k s. unfold run, on_evict, without. simpl. repeat (rewrite Nat.eqb_refl; simpl). rewrite size_cons, Nat.eqb_refl. reflexivity.
Qed.

(* ---- cases that meet the hypotheses ---- *)
Example ex_usage : let evs := [Open 1 100; Store 1 7 30; Report 1; Store 1 8 20; Report 1] in
  only 1 (evs ++ [Maintain 1 []; Report 1] ++ [Maintain 1 [8%nat]]) /\ quiet [Maintain 1 [8%nat]] /\
  usage (run (evs ++ [Maintain 1 []; Report 1])) = 50 /\ usage (run (evs ++ [Maintain 1 []; Report 1] ++ [Maintain 1 [8%nat]])) = 30 /\ capacity (run evs) = 100.
Proof.
  split; [intros ev I; cbn in I; repeat (destruct I as [<-|I]; [reflexivity|]); destruct I|]. split; [intros ev [<-|[]]; exact Logic.I|]. vm_compute. repeat split; reflexivity.
Qed.
Example ex_gone : cached 1 [Open 1 100; Store 1 7 30] 30 /\ cached 1 ([Open 1 100; Store 1 7 30] ++ [Fail 1 7]) 0 /\ usage (run ([Open 1 100; Store 1 7 30] ++ [Fail 1 7])) = -30.
Proof.
  split; [change 30 with (total (entries (caches (run [Open 1 100; Store 1 7 30]) 1))); apply cached_total|]. split; [|vm_compute; reflexivity].
  change 0 with (total (entries (caches (run ([Open 1 100; Store 1 7 30] ++ [Fail 1 7])) 1))). apply cached_total.
Qed.
Example ex_failed : only 1 [Open 1 100; Store 1 7 30] /\ holds 1 ([Open 1 100; Store 1 7 30] ++ [Maintain 1 []; Report 1]) 8 = None /\
  cached 1 ([Open 1 100; Store 1 7 30] ++ [Maintain 1 []; Report 1]) 30.
Proof.
  split; [intros ev [<-|[<-|[]]]; reflexivity|]. split; [reflexivity|]. change 30 with (total (entries (caches (run ([Open 1 100; Store 1 7 30] ++ [Maintain 1 []; Report 1])) 1))). apply cached_total.
Qed.

Print Assumptions c166_usage_partial.
Print Assumptions c166_lag_partial.
Print Assumptions c166_gone.
Print Assumptions c166_capacity.
Print Assumptions c166_failed_refuted.
Print Assumptions c166_caches_refuted.
Print Assumptions c166_negative_refuted.
