(* Properties C131 - C135: leftovers, requests and the size of the range cache. The model is in CacheModel.v and FetchModel.v
   (src/object_store/cache.rs), the notions used in the statements are in CacheSpec.v and FetchSpec.v. [h] names the cache
   files after the object's path, [cs] is the chunk size (min_fetch_size). *)
From Coq Require Import List Arith Bool Lia NArith.
From Verif Require Import CacheModel CacheSpec CacheProofs CacheProps FetchModel FetchSpec FetchProofs.
Import ListNotations.

(* What [requests] lists is what goes to the store: a step without a request does the same whether or not the store can be
   reached; a step with a request fails if it cannot, and does not fail if the store has the range. *)
Theorem c133_requests_are_real : forall h cs st i r net io,
  readers st i = Some r ->
  match read_request cs r with
  | None => read_step h cs st i r net io = read_step h cs st i r true io
  | Some (q, a, b) => failed (read_step h cs st i r false io) i /\
                      (inner_get (objs st) q a b <> None -> ~ failed (read_step h cs st i r true io) i)
  end.
Proof.
  intros h cs st i r net io Hr. destruct (read_request cs r) as [[[q a] b]|] eqn:E.
  - exact (request_some h cs st i r io (q, a, b) Hr E).
  - exact (request_none h cs st i r net io E).
Qed.
Print Assumptions c133_requests_are_real.

(* C131. Every file in the cache directory is known: an entry refers to it, a task is at it, or it is about to be removed. It
   holds for histories in which writes to the directory take place at once or fail without leaving a file, and for histories
   in which no write fails. Missing: a write that fails half way. *)
Theorem c131_no_orphans_partial : forall h cs o evs f,
  Forall whole_write evs \/ Forall no_failure evs ->
  disk (run h cs (init o) evs) f <> None -> accounted h (run h cs (init o) evs) f.
Proof.
  intros h cs o evs f H. destruct (acc_init h o) as (A & B & C).
  refine (acc_run h cs evs (init o) A B _ f). destruct H; auto.
Qed.
Print Assumptions c131_no_orphans_partial.
(* when nothing is under way, every file belongs to an entry *)
Theorem c131_quiescent_partial : forall h cs o evs f,
  Forall whole_write evs \/ Forall no_failure evs -> quiescent (run h cs (init o) evs) ->
  disk (run h cs (init o) evs) f <> None -> exists k n, cache (run h cs (init o) evs) k = Some (File f n).
Proof.
  intros h cs o evs f H (Q1 & Q2) D. destruct (c131_no_orphans_partial h cs o evs f H D) as [C|[(t & x & T & _)|R]].
  - exact C.
  - rewrite Q1 in T. discriminate.
  - rewrite Q2 in R. destruct R.
Qed.
Print Assumptions c131_quiescent_partial.
(* two chunks written, one of them evicted and removed; the third chunk's write fails *)
Definition tidy_history : list event :=
  [ERead 7 0 0 10] ++ go 7 20 ++ [EWrite 0; EInsert 0; EWrite 1; EInsert 1; EFail 2; EEvict (0, 1); ERemove (0, 1)].
Example c131_nonvacuous :
  let st := run (fun x => x) 4 (init store1) tidy_history in
  Forall whole_write tidy_history /\ rem st = [] /\ (forall t, t < 5 -> tasks st t = None) /\
  disk st (0, 0) = Some (0, [10; 11; 12; 13]) /\ disk st (0, 1) = None /\ cache st (0, 0) = Some (File (0, 0) 4).
Proof.
  split; [repeat constructor|]. split; [reflexivity|]. split; [|vm_compute; auto].
  intros t H. destruct t as [|[|[|[|[|t]]]]]; try (vm_compute; reflexivity).
Qed.
Print Assumptions c131_nonvacuous.
(* A write that fails half way leaves a file that no entry, task or listener knows, and that stays: whatever happens, as
   long as this object is not read again, the file is there and unaccounted for. *)
Theorem c131_refuted :
  exists cs o evs0 f v, cs > 0 /\
    forall evs, Forall (fun ev => match ev with ERead _ q _ _ => q <> 0 | _ => True end) evs ->
      disk (run (fun x => x) cs (init o) (evs0 ++ evs)) f = Some v /\
      ~ accounted (fun x => x) (run (fun x => x) cs (init o) (evs0 ++ evs)) f.
Proof.
  set (evs0 := [ERead 0 0 0 4] ++ go 0 6 ++ [EOpen 0; EMore 0 2; EFail 0]).
  exists 4, store1, evs0, (0, 0), (0, [10; 11]). split; [lia|]. intros evs N.
  unfold run. rewrite fold_left_app.
  set (st := fold_left (step (fun x => x) 4) evs0 (init store1)).
  change (fold_left (step (fun x => x) 4) evs st) with (run (fun x => x) 4 st evs).
  assert (F0 : forgotten 0 (0, 0) st (0, [10; 11])).
  { split; [vm_compute; reflexivity|]. split; [vm_compute; tauto|]. split.
    - intros [a b] n H. revert H. unfold st, evs0. destruct a as [|a], b as [|b]; vm_compute; discriminate.
    - split.
      + intros t x H. revert H. destruct t as [|t]; vm_compute; discriminate.
      + intros j x H. revert H. destruct j as [|j]; vm_compute; [|discriminate]. intros [= <-]. right. reflexivity. }
  assert (O : own_todo st) by (apply (own_run (fun x => x) (fun a b E => E) 4 evs0), own_init).
  destruct (forgotten_run (fun x => x) (fun a b E => E) 4 0 (0, 0) eq_refl evs st _ O N F0) as (A1 & A2 & A3 & A4 & A5).
  split; [exact A1|]. intros [(k & n & C)|[(t & x & T1 & T2 & T3)|I]].
  - exact (A3 k n C).
  - apply (A4 t x T1). unfold file_of in T2. injection T2 as T2 _. exact T2.
  - exact (A2 I).
Qed.
Print Assumptions c131_refuted.

(* C132. A range all of whose chunks are held by the cache is served without the underlying store. In any state in which the
   chunks are held, a read sends no request and does not fail, whatever other reads, writers and tasks do, as long as
   nothing leaves the cache meanwhile. *)
Theorem c132_no_request : forall h cs st i p s e evs,
  cs > 0 -> s < e -> readers st i = None ->
  (forall c, first_chunk cs s <= c <= last_chunk cs e -> missing st (p, c) = false) ->
  Forall keeps_entries evs -> Forall (offline i) evs ->
  let st1 := step h cs st (ERead i p s e) in
  ~ failed (run h cs st1 evs) i /\
  forall evs1 evs2 net io, evs = evs1 ++ EStep i net io :: evs2 -> event_request cs (run h cs st1 evs1) (EStep i net io) = [].
Proof.
  intros h cs st i p s e evs Hcs H1 Hi Hm K O st1.
  destruct (held_start h cs st i p s e Hcs H1 Hi Hm) as (A & B & C). fold st1 in A, B, C.
  assert (OI : Forall (own_io i) evs).
  { eapply Forall_impl; [|exact O]. intros ev. destruct ev; cbn; auto. intros X E. apply X, E. }
  destruct (served_run h cs i p (s / cs) ((e - 1) / cs) evs st1 K OI A ltac:(rewrite B; discriminate) C) as (S & Q).
  split.
  - intros (r & R1 & R2). exact (proj2 (served_quiet cs i p (s / cs) ((e - 1) / cs) _ r S R1) R2).
  - intros evs1 evs2 net io E. exact (Q evs1 evs2 (EStep i net io) E eq_refl).
Qed.
Print Assumptions c132_no_request.
(* With the network down, a cached range of an unchanged object is still returned, byte for byte. Missing: histories in which a
   cache file can be seen half written (as in C22). *)
Theorem c132_offline_partial : forall h cs o p D evs0 i s e evs,
  (forall a b, h a = h b -> a = b) -> cs > 0 ->
  o p = Some D -> Forall (leaves p) evs0 -> Forall whole_write evs0 ->
  readers (run h cs (init o) evs0) i = None -> s < e -> e <= length D ->
  (forall c, first_chunk cs s <= c <= last_chunk cs e -> missing (run h cs (init o) evs0) (p, c) = false) ->
  Forall (leaves p) evs -> Forall whole_write evs -> Forall keeps_entries evs -> Forall (offline i) evs ->
  6 * (last_chunk cs e - first_chunk cs s + 1) <= steps_of i evs ->
  returned (run h cs (init o) (evs0 ++ ERead i p s e :: evs)) i p s e (slice D s e).
Proof.
  intros h cs o p D evs0 i s e evs Hh Hcs Ho L0 W0 Hi H1 H2 Hm L W K O Hn.
  set (st := run h cs (init o) evs0) in *.
  destruct (c132_no_request h cs st i p s e evs Hcs H1 Hi Hm K O) as (NF & _).
  assert (E : run h cs (init o) (evs0 ++ ERead i p s e :: evs) = run h cs (step h cs st (ERead i p s e)) evs).
  { unfold run, st, run. rewrite fold_left_app. reflexivity. }
  assert (B : readers (step h cs st (ERead i p s e)) i = Some (start_read cs p s e)) by (cbn [step]; rewrite Hi; apply upd_eq).
  destruct (run_reader h cs evs _ i _ B) as (r & R1 & R2 & R3 & R4 & R5).
  assert (P : r_path (start_read cs p s e) = p /\ r_start (start_read cs p s e) = s /\ r_end (start_read cs p s e) = e).
  { unfold start_read. destruct (_ || _); [auto|]. destruct (Nat.ltb _ _); auto. }
  destruct P as (P1 & P2 & P3).
  pose proof (mu_start cs p s e Hcs H1) as MS. unfold first_chunk, last_chunk in Hn.
  destruct (c22_no_spurious_failure_partial h cs o p D (evs0 ++ ERead i p s e :: evs) i r Hh Hcs Ho) as (NP & _).
  - apply Forall_app. split; [exact L0|]. constructor; [exact Logic.I|exact L].
  - apply Forall_app. split; [exact W0|]. constructor; [exact Logic.I|exact W].
  - rewrite E. exact R1.
  - congruence.
  - lia.
  - lia.
  - assert (RT : exists d, returned (run h cs (init o) (evs0 ++ ERead i p s e :: evs)) i p s e d).
    { rewrite E in NP |- *. destruct (mu_zero r ltac:(lia)) as [[d Pd]|[Pe|Pp]].
      - exists d, r. repeat split; auto; congruence.
      - exfalso. apply NF. exists r. auto.
      - exfalso. apply NP. exists r. auto. }
    destruct RT as (d & RT).
    assert (d = slice D s e).
    { apply (c22_range_reads_partial h cs o p D (evs0 ++ ERead i p s e :: evs) i s e d); auto.
      - apply Forall_app. split; [exact L0|]. constructor; [exact Logic.I|exact L].
      - apply Forall_app. split; [exact W0|]. constructor; [exact Logic.I|exact W]. }
    subst d. exact RT.
Qed.
Print Assumptions c132_offline_partial.
(* object 0 is read once, its first chunk goes to disk; then it is read with the network down, while object 1 is read *)
Definition warm : list event := [ERead 7 0 0 10] ++ go 7 20 ++ [EWrite 0; EInsert 0].
Definition down : list event := [ERead 3 1 0 5; EStep 3 true true; EStep 3 true true] ++ repeat (EStep 2 false true) 18 ++ go 3 6.
Example c132_nonvacuous :
  let st := run (fun x => x) 4 (init store1) warm in
  (forall c, first_chunk 4 1 <= c <= last_chunk 4 9 -> missing st (0, c) = false) /\
  Forall (leaves 0) warm /\ Forall whole_write warm /\ readers st 2 = None /\
  Forall (leaves 0) down /\ Forall whole_write down /\ Forall keeps_entries down /\ Forall (offline 2) down /\
  6 * (last_chunk 4 9 - first_chunk 4 1 + 1) <= steps_of 2 down /\
  returned (run (fun x => x) 4 (init store1) (warm ++ ERead 2 0 1 9 :: down)) 2 0 1 9 [11; 12; 13; 14; 15; 16; 17; 18].
Proof.
  split; [intros c; destruct c as [|[|[|c]]]; intros Hc; try (vm_compute; reflexivity); vm_compute in Hc; lia|].
  split; [repeat constructor|]. split; [repeat constructor|]. split; [reflexivity|]. split; [repeat constructor; cbn; lia|].
  split; [repeat constructor|]. split; [repeat constructor|].
  split; [unfold down; repeat constructor; cbn; intros; lia|]. split; [vm_compute; lia|].
  eexists; (split; [vm_compute; reflexivity|]); vm_compute; auto.
Qed.
Print Assumptions c132_nonvacuous.

(* C133. A read that runs by itself asks the store for exactly those of its chunks that the cache lacks, each once, and for no
   other; in any state. *)
Theorem c133_each_missing_once : forall h cs st i p s e D n c,
  cs > 0 -> readers st i = None -> objs st p = Some D -> s < e -> e <= length D ->
  6 * (last_chunk cs e - first_chunk cs s + 1) <= n ->
  length (filter (covers cs p c) (requests h cs st (ERead i p s e :: repeat (EStep i true true) n))) =
  if Nat.leb (first_chunk cs s) c && Nat.leb c (last_chunk cs e) && missing st (p, c) then 1 else 0.
Proof. intros. apply (alone_total h cs st i p s e D n c); assumption. Qed.
Print Assumptions c133_each_missing_once.
(* a range of which nothing is cached is fetched with one request *)
Theorem c133_one_request : forall h cs st i p s e D n,
  cs > 0 -> readers st i = None -> objs st p = Some D -> s < e -> e <= length D ->
  (forall c, first_chunk cs s <= c <= last_chunk cs e -> cache st (p, c) = None) ->
  6 * (last_chunk cs e - first_chunk cs s + 1) <= n ->
  requests h cs st (ERead i p s e :: repeat (EStep i true true) n) =
    [(p, first_chunk cs s * cs, (last_chunk cs e + 1) * cs)].
Proof. intros. apply (cold_total h cs st i p s e D n); assumption. Qed.
Print Assumptions c133_one_request.
(* chunk 1 is cached, chunks 0 and 2 are not: two requests; with nothing cached, one *)
Example c133_nonvacuous :
  let st := run (fun x => x) 4 (init store1) ([ERead 7 0 4 8] ++ go 7 12) in
  requests (fun x => x) 4 st (ERead 1 0 0 10 :: repeat (EStep 1 true true) 18) = [(0, 0, 4); (0, 8, 12)] /\
  requests (fun x => x) 4 (init store1) (ERead 1 0 1 10 :: repeat (EStep 1 true true) 18) = [(0, 0, 12)].
Proof. vm_compute. auto. Qed.
Print Assumptions c133_nonvacuous.
(* Two reads of the same chunks at the same time both fetch them: the chunk is asked for twice. *)
Theorem c133_concurrent_refuted :
  exists cs o p D s e evs c, cs > 0 /\ o p = Some D /\ s < e /\ e <= length D /\
    Forall (fun ev => match ev with ERead _ _ _ _ => True | EStep _ net io => net = true /\ io = true | _ => False end) evs /\
    1 < length (filter (covers cs p c) (requests (fun x => x) cs (init o) evs)).
Proof.
  exists 4, store1, 0, obj10, 0, 10, ([ERead 0 0 0 10; ERead 1 0 0 10] ++ go 0 2 ++ go 1 2 ++ go 0 18 ++ go 1 18), 0.
  split; [lia|]. split; [reflexivity|]. split; [lia|]. split; [cbn; lia|]. split; [repeat constructor|]. vm_compute. lia.
Qed.
Print Assumptions c133_concurrent_refuted.

(* C134. An entry whose file is gone is not repaired: in any state in which it has come about, and whatever happens then - any
   number of reads of the same chunk, too - the entry stays and the file stays away, until the entry is evicted or expires. *)
Theorem c134_never_repaired : forall h cs st k n evs,
  (forall a b, h a = h b -> a = b) ->
  cache st k = Some (File (file_of h k) n) -> disk st (file_of h k) = None -> (forall t x, tasks st t = Some x -> t_key x <> k) ->
  ~ In (EEvict k) evs ->
  missing (run h cs st evs) k = true /\ cache (run h cs st evs) k = Some (File (file_of h k) n).
Proof.
  intros h cs st k n evs Hh H1 H2 H3 N.
  destruct (dangling_run h Hh cs k n evs st N (conj H1 (conj H2 H3))) as (A & B & _).
  split; [|exact A]. unfold missing. rewrite A, B. reflexivity.
Qed.
Print Assumptions c134_never_repaired.
(* It comes about by itself, with a store and a disk that work: the chunk is read again between its eviction and the removal of
   its file. From then on every read of the chunk goes to the store. *)
Theorem c134_refuted :
  exists cs o p D evs0, cs > 0 /\ o p = Some D /\
    Forall (fun ev => match ev with EFail _ => False | EStep _ net io => net = true /\ io = true | _ => True end) evs0 /\
    Forall (leaves p) evs0 /\ Forall whole_write evs0 /\ quiescent (run (fun x => x) cs (init o) evs0) /\
    forall evs i n, ~ In (EEvict (p, 0)) evs -> objs (run (fun x => x) cs (init o) (evs0 ++ evs)) p = Some D ->
      readers (run (fun x => x) cs (init o) (evs0 ++ evs)) i = None -> 6 <= n ->
      requests (fun x => x) cs (run (fun x => x) cs (init o) (evs0 ++ evs)) (ERead i p 0 cs :: repeat (EStep i true true) n) <> [].
Proof.
  set (evs0 := [ERead 0 0 0 4] ++ go 0 6 ++ [EWrite 0; EInsert 0; EEvict (0, 0); ERead 1 0 0 4] ++ go 1 6 ++
               [EWrite 1; ERemove (0, 0); EInsert 1]).
  exists 4, store1, 0, obj10, evs0. split; [lia|]. split; [reflexivity|].
  split; [repeat constructor|]. split; [repeat constructor|]. split; [repeat constructor|].
  assert (Q : quiescent (run (fun x => x) 4 (init store1) evs0)).
  { split; [|reflexivity]. intros t. destruct t as [|[|t]]; vm_compute; reflexivity. }
  split; [exact Q|]. intros evs i n N Ho Hi Hn.
  assert (E : run (fun x => x) 4 (init store1) (evs0 ++ evs) = run (fun x => x) 4 (run (fun x => x) 4 (init store1) evs0) evs).
  { unfold run. apply fold_left_app. }
  destruct (c134_never_repaired (fun x => x) 4 (run (fun x => x) 4 (init store1) evs0) (0, 0) 4 evs) as (M & _); auto.
  { intros t x H. rewrite (proj1 Q) in H. discriminate. }
  rewrite <- E in M.
  pose proof (c133_each_missing_once (fun x => x) 4 _ i 0 0 4 obj10 n 0 ltac:(lia) Hi Ho ltac:(lia) ltac:(cbn; lia)) as C.
  change (first_chunk 4 0) with 0 in C. change (last_chunk 4 4) with 0 in C. rewrite M in C. cbn [Nat.leb andb Nat.sub Nat.add Nat.mul] in C.
  specialize (C Hn). intros X. rewrite X in C. discriminate.
Qed.
Print Assumptions c134_refuted.
(* If evictions are in good order - only entries on disk are evicted, and the file is gone before anything else happens - no
   entry is ever without its file. Missing: evictions that overlap with reads and write tasks. *)
Theorem c134_orderly_partial : forall h cs o evs k f n,
  (forall a b, h a = h b -> a = b) -> orderly h cs (init o) evs ->
  cache (run h cs (init o) evs) k = Some (File f n) -> disk (run h cs (init o) evs) f <> None.
Proof.
  intros h cs o evs k f n Hh O H.
  exact (proj1 (proj2 (td_file h _ (tidy_run h Hh cs (init o) evs O (tidy_init h o)) k f n H))).
Qed.
Print Assumptions c134_orderly_partial.
Example c134_nonvacuous :
  orderly (fun x => x) 4 (init store1) (tidy_history ++ [ERead 8 0 0 10] ++ go 8 18 ++ [EWrite 3; EInsert 3]) /\
  let st := run (fun x => x) 4 (init store1) (tidy_history ++ [ERead 8 0 0 10] ++ go 8 18 ++ [EWrite 3; EInsert 3]) in
  cache st (0, 1) = Some (File (0, 1) 4) /\ missing st (0, 1) = false.
Proof.
  split; [|vm_compute; auto].
  unfold tidy_history, go. cbn [app repeat].
  repeat first [ apply ord_nil | eapply ord_evict; [vm_compute; reflexivity|] | apply ord_other; [exact Logic.I|] ].
Qed.
Print Assumptions c134_nonvacuous.

(* C135. No entry is larger than a chunk, in any history. *)
Theorem c135_entry_size : forall h cs o evs k v, cache (run h cs (init o) evs) k = Some v -> size v <= cs.
Proof. intros h cs o evs k v H. exact (proj1 (small_run h cs evs (init o) (small_init cs o)) k v H). Qed.
Print Assumptions c135_entry_size.
(* So, with chunks below 2^32 bytes, keeping the weights within the capacity keeps the sizes within it. Missing: larger
   chunks; files that are no longer, or not yet, entered. *)
Theorem c135_capacity_partial : forall h cs o evs ks vs capacity,
  (N.of_nat cs < 2 ^ 32)%N ->
  Forall2 (fun k v => cache (run h cs (init o) evs) k = Some v) ks vs ->
  (total weight vs <= capacity)%N -> (total (fun v => N.of_nat (size v)) vs <= capacity)%N.
Proof.
  intros h cs o evs ks vs capacity Hcs F H.
  assert (E : total weight vs = total (fun v => N.of_nat (size v)) vs); [|rewrite <- E; exact H].
  clear H. induction F as [|k v ks vs H F IH]; [reflexivity|].
  cbn [total fold_right]. fold (total weight vs). fold (total (fun v => N.of_nat (size v)) vs). rewrite IH. f_equal.
  unfold weight. apply N.mod_small. pose proof (c135_entry_size h cs o evs k v H). lia.
Qed.
Print Assumptions c135_capacity_partial.
Example c135_nonvacuous :
  let st := run (fun x => x) 4 (init store1) warm in
  Forall2 (fun k v => cache st k = Some v) [(0, 0); (0, 1); (0, 2)] [File (0, 0) 4; Mem [14; 15; 16; 17]; Mem [18; 19]] /\
  total weight [File (0, 0) 4; Mem [14; 15; 16; 17]; Mem [18; 19]] = 10%N.
Proof. split; [repeat constructor|reflexivity]. Qed.
Print Assumptions c135_nonvacuous.
(* With a chunk size of a multiple of 2^32 the weights are zero: for every capacity there is a configuration and a single read
   after which the cache holds an entry beyond the capacity that weighs nothing, so that nothing will be evicted. *)
Theorem c135_refuted : forall capacity : N,
  exists cs o p evs v, cs > 0 /\ evs = ERead 0 p 0 cs :: go 0 4 /\
    cache (run (fun x => x) cs (init o) evs) (p, 0) = Some v /\
    (forall k, k <> (p, 0) -> cache (run (fun x => x) cs (init o) evs) k = None) /\
    weight v = 0%N /\ (capacity < N.of_nat (size v))%N.
Proof.
  intros capacity. set (m := (2 ^ 32 * (capacity + 1))%N). set (cs := N.to_nat m).
  assert (Hm : (capacity < m)%N) by (unfold m; lia).
  assert (Hcs : cs > 0) by (unfold cs; lia).
  set (D := repeat 0 cs). assert (LD : length D = cs) by apply repeat_length.
  exists cs, (fun _ => Some D), 0, (ERead 0 0 0 cs :: go 0 4), (Mem D).
  pose proof (one_chunk cs D Hcs LD) as R.
  split; [exact Hcs|]. split; [reflexivity|]. unfold go. rewrite R.
  assert (W : weight (Mem D) = 0%N).
  { unfold weight, size. rewrite LD. unfold cs. rewrite N2Nat.id. unfold m. rewrite N.mul_comm. apply N.mod_mul. discriminate. }
  assert (Z : (capacity < N.of_nat (size (Mem D)))%N) by (unfold size; rewrite LD; unfold cs; rewrite N2Nat.id; exact Hm).
  split; [apply updk_eq|]. split; [|split; [exact W|exact Z]].
  intros k Hk. rewrite updk_ne by exact Hk. reflexivity.
Qed.
Print Assumptions c135_refuted.
