(* C160 and C161: the metrics of the range cache. Specification: MeterSpec.v; model: MeterModel.v over CacheModel.v. *)
From Coq Require Import Ascii String List Arith Bool Lia.
From Verif Require Import CacheModel CacheProofs FetchModel FetchProofs MeterModel MeterSpec MeterProofs.
Import ListNotations.
Local Open Scope list_scope.

Lemma sum_forall : forall (R : nat -> nat -> Prop) (f : nat -> nat) is xs, Forall2 R is xs -> (forall i x, R i x -> f i = x) -> sum (map f is) = sum xs.
Proof.
  intros R f is xs F H. induction F as [|i x is xs Rx F IH]; [reflexivity|]. cbn. fold (sum (map f is)) (sum xs). rewrite IH, (H i x Rx). reflexivity.
Qed.
Lemma sum_zero : forall (f : nat -> nat) is, (forall i, f i = 0) -> sum (map f is) = 0.
Proof. intros f is H. induction is as [|i is IH]; [reflexivity|]. cbn. fold (sum (map f is)). rewrite IH, H. reflexivity. Qed.

(* C160: the cache counts every read, once, and the number of bytes that it asks for. *)
Theorem c160_reads : forall h cs o evs is ranges, all_reads (run h cs (init o) evs) is ->
  Forall2 (asks (run h cs (init o) evs)) is ranges ->
  counter m_calls h cs (init o) evs = length is /\
  counter m_requested h cs (init o) evs = sum (map (fun se => snd se - fst se) ranges).
Proof.
  intros h cs o evs is ranges [ND A] F.
  destruct (calls_run h cs evs (init o) is ND (fun i H => proj2 (A i) H)) as [C D].
  rewrite sum_zero in C, D by reflexivity. cbn [Nat.add] in C, D. split.
  - rewrite C. clear - A. assert (H : forall i, In i is -> started (run h cs (init o) evs) i = 1).
    { intros i Hi. unfold started. destruct (readers (run h cs (init o) evs) i) eqn:E; [reflexivity|]. exfalso. exact (proj1 (A i) Hi E). }
    clear A. induction is as [|i is IH]; [reflexivity|]. cbn. fold (sum (map (started (run h cs (init o) evs)) is)).
    rewrite IH by (intros j Hj; apply H; right; exact Hj). rewrite (H i (or_introl eq_refl)). reflexivity.
  - rewrite D. clear - F. induction F as [|i se is ranges (r & R1 & R2 & R3) F IH]; [reflexivity|]. cbn.
    fold (sum (map (wanted (run h cs (init o) evs)) is)) (sum (map (fun se => snd se - fst se) ranges)). rewrite IH. f_equal.
    unfold wanted. rewrite R1, R2, R3. reflexivity.
Qed.
Print Assumptions c160_reads.

(* C160: what reads return has been counted: as read from memory, as read from disk or as downloaded. *)
Theorem c160_delivered : forall h cs o evs is ds, NoDup is -> Forall2 (gave (run h cs (init o) evs)) is ds ->
  sum (map (@length nat) ds) <=
  counter m_memory h cs (init o) evs + counter m_disk h cs (init o) evs + counter m_missed h cs (init o) evs.
Proof.
  intros h cs o evs is ds ND F. pose proof (delivered_run h cs evs (init o) is ND) as D. rewrite counter_got in D.
  rewrite (sum_zero (held_by (init o))) in D by reflexivity.
  assert (E : sum (map (held_by (run h cs (init o) evs)) is) = sum (map (@length nat) ds)); [|lia].
  clear - F. induction F as [|i d is ds (r & R1 & R2) F IH]; [reflexivity|]. cbn.
  fold (sum (map (held_by (run h cs (init o) evs)) is)) (sum (map (@length nat) ds)). rewrite IH. f_equal.
  unfold held_by. rewrite R1. unfold holds. rewrite R2. reflexivity.
Qed.
Print Assumptions c160_delivered.

(* C160: and not much more is counted: beyond what the reads ask for, at most two chunks for each. *)
Theorem c160_overhead : forall h cs o evs is ranges, cs > 0 -> all_reads (run h cs (init o) evs) is ->
  Forall2 (asks (run h cs (init o) evs)) is ranges ->
  counter m_memory h cs (init o) evs + counter m_disk h cs (init o) evs + counter m_missed h cs (init o) evs <=
  sum (map (fun se => (snd se - fst se) + 2 * cs) ranges).
Proof.
  intros h cs o evs is ranges P [ND A] F.
  destruct (overhead_run h cs P evs (init o) is (small_init cs o) (bounded_init cs o)) as [SH D]; [intros i r H; discriminate H|exact ND|exact (fun i H => proj2 (A i) H)|].
  rewrite counter_got in D. rewrite (sum_zero (reached cs (init o))) in D by reflexivity. cbn [Nat.add] in D.
  eapply Nat.le_trans; [exact D|]. clear - F SH P. induction F as [|i se is ranges (r & R1 & R2 & R3) F IH]; [apply Nat.le_refl|]. cbn.
  fold (sum (map (reached cs (run h cs (init o) evs)) is)) (sum (map (fun se => snd se - fst se + (cs + (cs + 0))) ranges)).
  apply Nat.add_le_mono; [|exact IH]. unfold reached. rewrite R1, <- R2, <- R3. exact (reach_le cs P r (SH i r R1)).
Qed.
Print Assumptions c160_overhead.

(* C160: every request to the underlying store is counted once, under its end. *)
Theorem c160_requests : forall h cs o evs,
  counter (m_outbound true) h cs (init o) evs + counter (m_outbound false) h cs (init o) evs = length (requests h cs (init o) evs).
Proof. intros h cs o evs. apply outbound_run. Qed.
Print Assumptions c160_requests.
(* C160: the bytes that are counted as downloaded are those that the requests were answered with. *)
Theorem c160_downloaded : forall h cs o evs, Forall steady evs ->
  counter m_missed h cs (init o) evs = sum (map (fun q => length (part o q)) (requests h cs (init o) evs)).
Proof. intros h cs o evs F. apply missed_run; [reflexivity|exact F]. Qed.
Print Assumptions c160_downloaded.

(* C160: no more is written to disk than is downloaded, as long as reads stay within objects that do not change. Missing: reads
   past the end, see c160_written_refuted; objects that change while they are read. *)
Theorem c160_written_partial : forall h cs o evs, cs > 0 ->
  (forall i p s e, In (ERead i p s e) evs -> exists d, o p = Some d /\ e <= length d /\ Forall (untouched_by p) evs) ->
  counter (m_written h) h cs (init o) evs <= counter m_missed h cs (init o) evs.
Proof.
  intros h cs o evs P H. destruct (reads_list h cs evs o) as (is & ND & A).
  pose proof (written_run h cs P evs (init o) is (small_init cs o) (bounded_init cs o)) as W.
  rewrite (sum_zero (pend_read (init o))) in W by reflexivity. apply W.
  - intros i r E. discriminate E.
  - split; [intros i r E; discriminate E|exact H].
  - exact ND.
  - exact (fun i E => proj2 (A i) E).
Qed.
Print Assumptions c160_written_partial.

(* a read of three chunks of an object that is one byte long *)
Definition m_steps (i n : nat) : list event := repeat (EStep i true true) n.
Definition short : nat -> option (list nat) := fun p => if Nat.eqb p 0 then Some [7] else None.
Definition past_end : list event := ERead 0 0 0 6 :: m_steps 0 12 ++ [EWrite 0; EWrite 1; EWrite 2].
(* C160: reads past the end break this: one byte is downloaded, and it is written as each of three chunks. *)
Theorem c160_written_refuted : exists cs o evs, cs > 0 /\
  counter m_missed (fun x => x) cs (init o) evs = 1 /\ counter (m_written (fun x => x)) (fun x => x) cs (init o) evs = 3.
Proof. exists 2, short, past_end. split; [lia|]. split; vm_compute; reflexivity. Qed.
Print Assumptions c160_written_refuted.

(* C160: the counter of evicted bytes counts exactly the bytes of the entries that go away. *)
Lemma keqb_spec a b : keqb a b = true <-> a = b.
Proof.
  unfold keqb. destruct a as [a1 a2], b as [b1 b2]. cbn [fst snd]. rewrite andb_true_iff, !Nat.eqb_eq. split; [intros [-> ->]; reflexivity|intros E; injection E as -> ->; split; reflexivity].
Qed.
Lemma gone_one (f : nat * nat -> nat) k n ks : NoDup ks -> (n <> 0 -> In k ks) -> (forall j, f j = if keqb j k then n else 0) -> sum (map f ks) = n.
Proof.
  intros ND I F. assert (Z : forall l, ~ In k l -> sum (map f l) = 0).
  { induction l as [|j l IH]; intros H; [reflexivity|]. cbn. fold (sum (map f l)). rewrite IH by (intros J; apply H; right; exact J). rewrite F.
    destruct (keqb j k) eqn:Q; [apply keqb_spec in Q; exfalso; apply H; left; exact Q|reflexivity]. }
  destruct n as [|n].
  - clear I ND Z. induction ks as [|j ks IH]; [reflexivity|]. cbn. fold (sum (map f ks)). rewrite IH, F. destruct (keqb j k); reflexivity.
  - specialize (I (Nat.neq_succ_0 n)). induction ks as [|j ks IH]; [destruct I|]. inversion ND as [|? ? N ND']; subst. cbn. fold (sum (map f ks)). rewrite F.
    destruct (keqb j k) eqn:Q; [apply keqb_spec in Q; subst j; rewrite Z by exact N; lia|]. rewrite IH; [reflexivity|exact ND'|].
    destruct I as [->|I]; [|exact I]. rewrite (proj2 (keqb_spec k k) eq_refl) in Q. discriminate Q.
Qed.
Lemma gone_none st st' ks : (forall k, cache st' k = None -> cache st k = None) -> sum (map (gone st st') ks) = 0.
Proof.
  intros H. induction ks as [|k ks IH]; [reflexivity|]. cbn. fold (sum (map (gone st st') ks)). rewrite IH. unfold gone.
  destruct (cache st' k) eqn:E; [destruct (cache st k) as [[d|f n]|]; reflexivity|]. rewrite (H k E). reflexivity.
Qed.
Lemma chunk_keeps st k d j : cache (cache_chunk_data st k d) j = None -> cache st j = None.
Proof.
  unfold cache_chunk_data. destruct (cache st k) eqn:E; [exact (fun H => H)|]. cbn [cache]. unfold updk. destruct (keqb j k); [discriminate|exact (fun H => H)].
Qed.
Lemma step_keeps h cs st i r net io j : cache (read_step h cs st i r net io) j = None -> cache st j = None.
Proof.
  unfold read_step. destruct (r_pc r) as [|f| |cd|todo cd|d| |].
  - destruct (cache st (r_path r, r_chunk r)) as [[d|f n]|]; exact (fun H => H).
  - destruct (disk st f) as [[o d]|]; exact (fun H => H).
  - destruct (if net then _ else _) as [d|]; [|exact (fun H => H)]. cbn [set_reader cache]. apply chunk_keeps.
  - destruct (_ && _)%bool; [destruct (if net then _ else _) as [d|]|]; exact (fun H => H).
  - destruct todo as [|[k d] todo]; [exact (fun H => H)|]. cbn [set_reader cache]. apply chunk_keeps.
  - exact (fun H => H).
  - exact (fun H => H).
  - exact (fun H => H).
Qed.
Lemma gone_drop st st' k : (forall j, cache st' j = if keqb j k then None else cache st j) -> forall j, gone st st' j = if keqb j k then entry_size (cache st k) else 0.
Proof.
  intros H j. unfold gone. rewrite H. destruct (keqb j k) eqn:Q.
  - apply keqb_spec in Q. subst j. destruct (cache st k) as [[d|f n]|]; reflexivity.
  - destruct (cache st j) as [[d|f n]|]; reflexivity.
Qed.
Lemma gone_step h cs st ev ks : NoDup ks -> (forall k, cache st k <> None -> In k ks) -> sum (map (gone st (step h cs st ev)) ks) = m_evicted cs st ev.
Proof.
  intros ND A. assert (S0 : forall k, entry_size (cache st k) <> 0 -> In k ks) by (intros k N; apply A; intros E; apply N; rewrite E; reflexivity).
  destruct ev as [i p s e|i net io|k|f|t|t|t n|t|t|t|p d|p]; cbn [step m_evicted].
  - apply gone_none. intros k. destruct (readers st i); exact (fun H => H).
  - apply gone_none. intros k. destruct (readers st i) as [r|]; [apply step_keeps|exact (fun H => H)].
  - apply (gone_one _ k); [exact ND|apply S0|]. apply gone_drop. intros j. reflexivity.
  - apply gone_none. intros k. destruct (existsb _ _); exact (fun H => H).
  - apply gone_none. intros k. destruct (tasks st t) as [x|]; [|exact (fun H => H)]. destruct (t_phase x); try exact (fun H => H). destruct (disk st _); exact (fun H => H).
  - apply gone_none. intros k. destruct (tasks st t) as [x|]; [|exact (fun H => H)]. destruct (t_phase x); try exact (fun H => H). destruct (disk st _); exact (fun H => H).
  - apply gone_none. intros k. destruct (tasks st t) as [x|]; [|exact (fun H => H)]. destruct (t_phase x); try exact (fun H => H). destruct (disk st _) as [[o d]|]; exact (fun H => H).
  - apply gone_none. intros k. destruct (tasks st t) as [x|]; [|exact (fun H => H)]. destruct (t_phase x) as [|[|a rest]|]; exact (fun H => H).
  - destruct (tasks st t) as [x|]; [|apply gone_none; exact (fun k H => H)].
    destruct (t_phase x); [| |apply gone_none; exact (fun k H => H)]; (apply (gone_one _ (t_key x)); [exact ND|apply S0|]; apply gone_drop; intros j; reflexivity).
  - apply gone_none. intros k. destruct (tasks st t) as [x|]; [|exact (fun H => H)]. destruct (t_phase x); try exact (fun H => H).
    cbn [cache drop_entry set_task]. unfold updk. destruct (keqb k (t_key x)); [discriminate|exact (fun H => H)].
  - apply gone_none. exact (fun k H => H).
  - apply gone_none. exact (fun k H => H).
Qed.
Theorem c160_evicted : forall h cs o evs ks, NoDup ks -> all_entries h cs ks (init o) evs ->
  counter m_evicted h cs (init o) evs = gone_in h cs ks (init o) evs.
Proof.
  intros h cs o evs ks ND. generalize (init o). induction evs as [|ev evs IH]; intros st A; [reflexivity|].
  cbn [all_entries] in A. destruct A as [A1 A2]. cbn [counter gone_in]. rewrite (gone_step h cs st ev ks ND A1), (IH _ A2). reflexivity.
Qed.
Print Assumptions c160_evicted.

(* C160: the counter of evicted bytes can exceed all that has ever been downloaded: an entry that is evicted before its chunk
   is on disk is entered again by the task that writes the chunk, and can be evicted again. *)
Definition long : nat -> option (list nat) := fun p => if Nat.eqb p 0 then Some [1; 2; 3; 4] else None.
Definition evict_twice : list event := ERead 0 0 0 4 :: m_steps 0 5 ++ [EEvict (0, 0); EWrite 0; EInsert 0; EEvict (0, 0)].
Theorem c160_evicted_refuted : exists cs o evs, cs > 0 /\ Forall steady evs /\
  counter m_missed (fun x => x) cs (init o) evs = 4 /\ counter m_evicted (fun x => x) cs (init o) evs = 8.
Proof.
  exists 4, long, evict_twice. split; [lia|]. split; [repeat constructor|]. split; vm_compute; reflexivity.
Qed.
Print Assumptions c160_evicted_refuted.

Example ex_evicted : all_entries (fun x => x) 4 [(0, 0)] (init long) evict_twice /\ gone_in (fun x => x) 4 [(0, 0)] (init long) evict_twice = 8.
Proof.
  split; [|vm_compute; reflexivity]. unfold evict_twice, m_steps. cbn [app repeat all_entries].
  repeat (split; [let k := fresh in let N := fresh in intros k N; destruct k as [[|a] [|b]]; [left; reflexivity|exfalso; apply N; vm_compute; reflexivity..]|]). exact Logic.I.
Qed.

(* two reads, of which the second finds one chunk on disk, one in memory and one not at all *)
Definition ten : nat -> option (list nat) := fun p => if Nat.eqb p 0 then Some [10; 11; 12; 13; 14; 15; 16; 17; 18; 19] else None.
Definition two_reads : list event :=
  ERead 0 0 0 8 :: m_steps 0 8 ++ [EWrite 0; EInsert 0; ERead 1 0 1 10] ++ m_steps 1 12 ++ [EOpen 1; EMore 1 4; EClose 1].
Example ex_meter :
  let st := run (fun x => x) 4 (init ten) two_reads in
  all_reads st [0; 1] /\ Forall2 (asks st) [0; 1] [(0, 8); (1, 10)] /\
  Forall2 (gave st) [0; 1] [[10; 11; 12; 13; 14; 15; 16; 17]; [11; 12; 13; 14; 15; 16; 17; 18; 19]] /\ Forall steady two_reads /\
  counter m_calls (fun x => x) 4 (init ten) two_reads = 2 /\ counter m_requested (fun x => x) 4 (init ten) two_reads = 17 /\
  counter m_memory (fun x => x) 4 (init ten) two_reads = 4 /\ counter m_disk (fun x => x) 4 (init ten) two_reads = 4 /\
  counter m_missed (fun x => x) 4 (init ten) two_reads = 10 /\ counter (m_outbound true) (fun x => x) 4 (init ten) two_reads = 2 /\
  counter (m_outbound false) (fun x => x) 4 (init ten) two_reads = 0 /\
  counter (m_written (fun x => x)) (fun x => x) 4 (init ten) two_reads = 8.
Proof.
  intros st. split.
  { split; [repeat constructor; cbn; lia|]. intros i. destruct i as [|[|i]].
    - split; [intros _; vm_compute; discriminate|intros _; left; reflexivity].
    - split; [intros _; vm_compute; discriminate|intros _; right; left; reflexivity].
    - split; [intros [H|[H|[] ] ]; discriminate H|]. intros H. exfalso. apply H. vm_compute. reflexivity. }
  split. { repeat constructor; eexists; (split; [vm_compute; reflexivity|split; reflexivity]). }
  split. { repeat constructor; eexists; (split; [vm_compute; reflexivity|reflexivity]). }
  split; [repeat constructor|]. repeat split; vm_compute; reflexivity.
Qed.
Example ex_meter_within : forall i p s e, In (ERead i p s e) two_reads -> exists d, ten p = Some d /\ e <= length d /\ Forall (untouched_by p) two_reads.
Proof.
  intros i p s e H. assert (D : (p = 0) /\ e <= 10).
  { unfold two_reads in H. cbn in H. repeat (destruct H as [H|H]; [first [discriminate H|injection H as <- <- <- <-; lia]|]). destruct H. }
  destruct D as [-> D]. eexists. split; [reflexivity|]. split; [exact D|]. repeat constructor.
Qed.

(* ---- C161 ---- *)
Lemma ends_with_app : forall s x, ends_with s x = true <-> exists q, x = (q ++ s)%string.
Proof.
  intros s x. revert s. induction x as [|c x IH]; intros s; cbn [ends_with].
  - rewrite orb_false_r, String.eqb_eq. split; [intros ->; exists ""%string; reflexivity|]. intros ([|] & H); [exact (eq_sym H)|discriminate].
  - rewrite orb_true_iff, String.eqb_eq, IH. split.
    + intros [->|(q & ->)]; [exists ""%string; reflexivity|exists (String c q); reflexivity].
    + intros ([|d q] & H); [left; exact (eq_sym H)|]. cbn in H. injection H as <- ->. right. exists q. reflexivity.
Qed.
Lemma status_eqb_eq : forall a b, status_eqb a b = true <-> a = b.
Proof. intros [] []; cbn; split; intros; congruence. Qed.
Lemma logged_ordinary : forall c o, ordinary c o -> logged c o = Some (call_name c, end_of o).
Proof.
  intros c o H. destruct c; cbn in H; try contradiction; destruct o as [|p|]; try reflexivity. cbn [logged call_name end_of].
  destruct (ends_with "_last_checkpoint" p) eqn:E; [|reflexivity]. exfalso. apply ends_with_app in E. destruct E as (q & ->). exact (H _ eq_refl q eq_refl).
Qed.
(* C161: calls whose end is known are counted once, under their name and their end. Missing: the calls of the theorems below. *)
Theorem c161_counted_partial : forall calls name s n, Forall (fun co => ordinary (fst co) (snd co)) calls ->
  made name s calls n -> requests_total calls name s = n.
Proof.
  intros calls name s n F M. induction M as [|c o l n Hn He M IH|c o l n Hno M IH]; [reflexivity| |]; inversion F as [|? ? F1 F2]; subst;
    unfold requests_total; cbn [filter fst snd]; rewrite (logged_ordinary c o F1).
  - rewrite String.eqb_refl. rewrite (proj2 (status_eqb_eq _ _) eq_refl). cbn [andb length]. f_equal. exact (IH F2).
  - destruct (String.eqb_spec (call_name c) name) as [E|E]; [|exact (IH F2)]. cbn [andb].
    destruct (status_eqb (end_of o) s) eqn:E2; [|exact (IH F2)]. apply status_eqb_eq in E2. destruct Hno; contradiction.
Qed.
Print Assumptions c161_counted_partial.
(* C161: a multipart upload that is begun with options is not counted at all, however it ends. *)
Theorem c161_multipart_refuted : forall calls o name s, requests_total (calls ++ [(PutMultipartOpts, o)]) name s = requests_total calls name s.
Proof. intros calls o name s. unfold requests_total. rewrite filter_app. cbn. rewrite app_nil_r. reflexivity. Qed.
Print Assumptions c161_multipart_refuted.
(* C161: a GET of a path that ends in "_last_checkpoint" that is not there counts as a success. *)
Theorem c161_checkpoint_refuted : forall calls path q, 
  requests_total (calls ++ [(Get path, NotFound (q ++ "_last_checkpoint"))]) "get" SSuccess = S (requests_total calls "get" SSuccess) /\
  requests_total (calls ++ [(Get path, NotFound (q ++ "_last_checkpoint"))]) "get" SError = requests_total calls "get" SError.
Proof.
  intros calls path q. unfold requests_total. rewrite !filter_app, !app_length. cbn [filter fst snd logged].
  rewrite (proj2 (ends_with_app "_last_checkpoint" (q ++ "_last_checkpoint")) (ex_intro _ q eq_refl)). cbn. lia.
Qed.
Print Assumptions c161_checkpoint_refuted.
(* C161: lists and bulk deletions are counted under "unknown", whatever becomes of them. *)
Theorem c161_streams_refuted : forall calls c o, c = DeleteStream \/ c = MeterModel.List ->
  requests_total (calls ++ [(c, o)]) (call_name c) SUnknown = S (requests_total calls (call_name c) SUnknown) /\
  (forall s, s <> SUnknown -> requests_total (calls ++ [(c, o)]) (call_name c) s = requests_total calls (call_name c) s).
Proof.
  intros calls c o [-> | ->]; (split; [unfold requests_total; rewrite filter_app, app_length; cbn; lia|]);
    intros s H; unfold requests_total; rewrite filter_app, app_length; destruct s; cbn; try lia; congruence.
Qed.
Print Assumptions c161_streams_refuted.
(* C161: no call is counted twice. *)
Theorem c161_once : forall c o name s, requests_total [(c, o)] name s <= 1 /\
  (forall name' s', requests_total [(c, o)] name s = 1 -> requests_total [(c, o)] name' s' = 1 -> name' = name /\ s' = s).
Proof.
  intros c o name s. unfold requests_total. cbn [filter fst snd]. destruct (logged c o) as [[op x]|]; cbn [length].
  2:{ split; [lia|]. intros; discriminate. }
  split; [destruct (_ && _); cbn; lia|]. intros name' s' H H'.
  destruct (String.eqb op name && status_eqb x s) eqn:A; [|discriminate H]. destruct (String.eqb op name' && status_eqb x s') eqn:B; [|discriminate H'].
  apply andb_true_iff in A, B. destruct A as [A1 A2], B as [B1 B2]. apply String.eqb_eq in A1, B1. apply status_eqb_eq in A2, B2. split; congruence.
Qed.
Print Assumptions c161_once.
Example ex_calls :
  let calls := [(Put, Success); (Get "t/_delta_log/0.json", NotFound "t/_delta_log/0.json"); (Put, OtherError); (Head, Success); (Put, Success)] in
  Forall (fun co => ordinary (fst co) (snd co)) calls /\ made "put" SSuccess calls 2 /\ requests_total calls "get" SError = 1.
Proof.
  split; [|split; [|reflexivity]].
  - repeat constructor. cbn. intros p E q X. injection E as <-. symmetry in X.
    pose proof (proj2 (ends_with_app "_last_checkpoint" "t/_delta_log/0.json") (ex_intro _ q (eq_sym X))) as Y. vm_compute in Y. discriminate Y.
  - apply made_one; [reflexivity|reflexivity|]. apply made_other; [left; discriminate|]. apply made_other; [right; discriminate|].
    apply made_other; [left; discriminate|]. apply made_one; [reflexivity|reflexivity|]. apply made_none.
Qed.
