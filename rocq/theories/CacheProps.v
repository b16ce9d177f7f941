(* Properties C22 - C25: the range cache in front of an object store. The model is in CacheModel.v (src/object_store/cache.rs),
   what a read must return in CacheSpec.v. Throughout, [h] is the hash that names the cache files after the object's path,
   assumed without collisions, and [cs] the chunk size (min_fetch_size). A history is a list of events: reads that begin,
   single steps of reads, evictions, removals of cache files, writes to the cache directory, and changes of the store. *)
From Coq Require Import List Arith Lia.
From Verif Require Import CacheModel CacheSpec CacheProofs.
Import ListNotations.

(* C22. A read within an object that does not change returns exactly the object's bytes. Missing for the full property:
   histories in which a cache file can be seen half written (see c25_torn_write_refuted, c25_write_race_refuted). *)
Theorem c22_range_reads_partial : forall h cs o p D evs i s e d,
  (forall a b, h a = h b -> a = b) -> cs > 0 ->
  o p = Some D -> Forall (leaves p) evs -> Forall whole_write evs ->
  s < e -> e <= length D ->
  returned (run h cs (init o) evs) i p s e d -> d = slice D s e.
Proof.
  intros h cs o p D evs i s e d Hh Hcs Ho Hl Hw H1 H2 (r & R1 & R2 & R3 & R4 & R5).
  pose proof (Inv_run h Hh cs Hcs p D False evs (init o) (Inv_init h cs p D False o Ho) (own_init o) Hl Hw ltac:(tauto)) as I.
  pose proof (i_read h cs p D False _ I i r R1 R2) as R. unfold RInv in R. rewrite R5 in R.
  rewrite <- R3, <- R4. apply R. split; lia.
Qed.
Print Assumptions c22_range_reads_partial.

(* such a read does not panic, and it fails only if a request to the underlying store failed *)
Theorem c22_no_spurious_failure_partial : forall h cs o p D evs i r,
  (forall a b, h a = h b -> a = b) -> cs > 0 ->
  o p = Some D -> Forall (leaves p) evs -> Forall whole_write evs ->
  readers (run h cs (init o) evs) i = Some r -> r_path r = p -> r_start r < r_end r -> r_end r <= length D ->
  ~ panicked (run h cs (init o) evs) i /\ (Forall net_ok evs -> ~ failed (run h cs (init o) evs) i).
Proof.
  intros h cs o p D evs i r Hh Hcs Ho Hl Hw Hr Hp H1 H2. split.
  - intros (r' & E & P). rewrite Hr in E. injection E as <-.
    pose proof (Inv_run h Hh cs Hcs p D False evs (init o) (Inv_init h cs p D False o Ho) (own_init o) Hl Hw ltac:(tauto)) as I.
    pose proof (i_read h cs p D False _ I i r Hr Hp) as R. unfold RInv in R. rewrite P in R. apply R. split; assumption.
  - intros Hn (r' & E & P). rewrite Hr in E. injection E as <-.
    pose proof (Inv_run h Hh cs Hcs p D True evs (init o) (Inv_init h cs p D True o Ho) (own_init o) Hl Hw ltac:(auto)) as I.
    pose proof (i_read h cs p D True _ I i r Hr Hp) as R. unfold RInv in R. rewrite P in R. apply R; [exact Logic.I|]. split; assumption.
Qed.
Print Assumptions c22_no_spurious_failure_partial.

(* every read, in every state and whatever happens meanwhile, comes to an end: after at most six of its own steps for every
   chunk in its range *)
Theorem c22_reads_finish : forall h cs st i p s e evs,
  cs > 0 -> s < e -> readers st i = None ->
  6 * ((e - 1) / cs - s / cs + 1) <= steps_of i evs ->
  finished (run h cs (step h cs st (ERead i p s e)) evs) i.
Proof.
  intros h cs st i p s e evs Hcs Hse Hi Hn.
  assert (E : readers (step h cs st (ERead i p s e)) i = Some (start_read cs p s e)).
  { cbn [step]. rewrite Hi. apply upd_eq. }
  destruct (run_reader h cs evs _ i _ E) as (r' & F1 & F2 & F3 & F4 & F5).
  pose proof (mu_start cs p s e Hcs Hse).
  destruct (mu_zero r' ltac:(lia)) as [[d P]|[P|P]].
  - left. exists d, (r_path r'), (r_start r'), (r_end r'), r'. auto.
  - right; left. exists r'. auto.
  - right; right. exists r'. auto.
Qed.
Print Assumptions c22_reads_finish.

(* an object of ten bytes in chunks of four, read twice, with a write task, an eviction and a removed file in between *)
Definition obj10 : list nat := [10; 11; 12; 13; 14; 15; 16; 17; 18; 19].
Definition store1 (p : nat) : option (list nat) := match p with 0 => Some obj10 | 1 => Some [1; 2; 3; 4; 5] | _ => None end.
Definition go (i n : nat) : list event := repeat (EStep i true true) n.
Definition history1 : list event :=
  [ERead 7 0 5 9] ++ go 7 8 ++ [EWrite 0; EInsert 0; EFail 1; ERead 8 0 3 10] ++ go 8 3 ++
  [EEvict (0, 1); ERemove (0, 1); ERead 9 1 0 20] ++ go 9 4 ++ go 8 12 ++ go 9 6.
Example c22_nonvacuous :
  Forall (leaves 0) history1 /\ Forall whole_write history1 /\ Forall net_ok history1 /\
  returned (run (fun x => x) 4 (init store1) history1) 7 0 5 9 [15; 16; 17; 18] /\
  returned (run (fun x => x) 4 (init store1) history1) 8 0 3 10 [13; 14; 15; 16; 17; 18; 19].
Proof.
  split; [repeat constructor|]. split; [repeat constructor|]. split; [repeat constructor|].
  split; eexists; (split; [vm_compute; reflexivity|]); vm_compute; auto.
Qed.
Print Assumptions c22_nonvacuous.

(* C23. A read past the end of the object does not make any read within the object wrong, before or after. *)
Theorem c23_later_reads_right_partial : forall h cs o p D evs1 evs2 j s' e' i s e d,
  (forall a b, h a = h b -> a = b) -> cs > 0 ->
  o p = Some D -> Forall (leaves p) (evs1 ++ evs2) -> Forall whole_write (evs1 ++ evs2) ->
  length D < e' ->                                            (* the read j goes past the end *)
  s < e -> e <= length D ->
  returned (run h cs (init o) (evs1 ++ ERead j p s' e' :: evs2)) i p s e d -> d = slice D s e.
Proof.
  intros h cs o p D evs1 evs2 j s' e' i s e d Hh Hcs Ho Hl Hw _ H1 H2 R.
  apply Forall_app in Hl. apply Forall_app in Hw.
  apply (c22_range_reads_partial h cs o p D (evs1 ++ ERead j p s' e' :: evs2) i s e d); auto.
  - apply Forall_app. split; [tauto|]. constructor; [exact Logic.I|tauto].
  - apply Forall_app. split; [tauto|]. constructor; [exact Logic.I|tauto].
Qed.
Print Assumptions c23_later_reads_right_partial.
Example c23_nonvacuous :
  let evs := [ERead 0 1 0 12] ++ go 0 20 ++ [ERead 1 1 1 5] ++ go 1 20 in
  returned (run (fun x => x) 4 (init store1) evs) 1 1 1 5 [2; 3; 4; 5].
Proof. eexists; (split; [vm_compute; reflexivity|]); vm_compute; auto. Qed.
Print Assumptions c23_nonvacuous.

(* But the read itself can panic: one byte at offset 7 of an object of five bytes. *)
Theorem c23_past_end_refuted :
  exists cs o p D s e evs i, cs > 0 /\ o p = Some D /\ length D <= s /\ s < e /\
    evs = ERead i p s e :: go i 20 /\ panicked (run (fun x => x) cs (init o) evs) i.
Proof.
  exists 4, store1, 1, [1; 2; 3; 4; 5], 7, 8, (ERead 0 1 7 8 :: go 0 20), 0.
  split; [lia|]. split; [reflexivity|]. split; [cbn; lia|]. split; [lia|]. split; [reflexivity|].
  eexists. split; [vm_compute; reflexivity|reflexivity].
Qed.
Print Assumptions c23_past_end_refuted.
(* and repeating a read that goes past the end gives more bytes than the object has: bytes 0..12 of five bytes *)
Theorem c23_repeated_read_refuted :
  exists cs o p D s e evs i d, cs > 0 /\ o p = Some D /\ Forall (leaves p) evs /\ Forall whole_write evs /\
    returned (run (fun x => x) cs (init o) evs) i p s e d /\ length D < length d.
Proof.
  exists 4, store1, 1, [1; 2; 3; 4; 5], 0, 12, ([ERead 0 1 0 12] ++ go 0 20 ++ [ERead 1 1 0 12] ++ go 1 20), 1, [1; 2; 3; 4; 5; 5].
  split; [lia|]. split; [reflexivity|]. split; [repeat constructor|]. split; [repeat constructor|].
  split; [|cbn; lia]. eexists; (split; [vm_compute; reflexivity|]); vm_compute; auto.
Qed.
Print Assumptions c23_repeated_read_refuted.
(* the empty range 0..0 is not served either *)
Theorem c23_empty_range_refuted :
  exists cs o p D i, cs > 0 /\ o p = Some D /\ panicked (run (fun x => x) cs (init o) [ERead i p 0 0]) i.
Proof.
  exists 4, store1, 0, obj10, 0. split; [lia|]. split; [reflexivity|]. eexists. split; [vm_compute; reflexivity|reflexivity].
Qed.
Print Assumptions c23_empty_range_refuted.

(* C24. After an object is overwritten (or deleted) through the store, reads keep returning the old bytes. *)
Theorem c24_overwrite_refuted :
  exists cs o p D D' evs i s e d, cs > 0 /\ o p = Some D /\ length D' = length D /\
    (* the whole of one read comes after the overwrite *)
    evs = [ERead 0 p s e] ++ go 0 20 ++ [EPut p D'] ++ [ERead i p s e] ++ go i 20 /\ i <> 0 /\
    returned (run (fun x => x) cs (init o) evs) i p s e d /\ e <= length D' /\ d <> slice D' s e.
Proof.
  exists 4, store1, 1, [1; 2; 3; 4; 5], [6; 7; 8; 9; 10],
    ([ERead 0 1 0 5] ++ go 0 20 ++ [EPut 1 [6; 7; 8; 9; 10]] ++ [ERead 1 1 0 5] ++ go 1 20), 1, 0, 5, [1; 2; 3; 4; 5].
  split; [lia|]. split; [reflexivity|]. split; [reflexivity|]. split; [reflexivity|]. split; [lia|].
  split; [eexists; (split; [vm_compute; reflexivity|]); vm_compute; auto|]. split; [cbn; lia|]. vm_compute. discriminate.
Qed.
Print Assumptions c24_overwrite_refuted.
Theorem c24_delete_refuted :
  exists cs o p D evs i s e d, cs > 0 /\ o p = Some D /\
    evs = [ERead 0 p s e] ++ go 0 20 ++ [EDelete p] ++ [ERead i p s e] ++ go i 20 /\ i <> 0 /\
    objs (run (fun x => x) cs (init o) evs) p = None /\ returned (run (fun x => x) cs (init o) evs) i p s e d.
Proof.
  exists 4, store1, 1, [1; 2; 3; 4; 5], ([ERead 0 1 0 5] ++ go 0 20 ++ [EDelete 1] ++ [ERead 1 1 0 5] ++ go 1 20), 1, 0, 5, [1; 2; 3; 4; 5].
  split; [lia|]. split; [reflexivity|]. split; [reflexivity|]. split; [lia|]. split; [reflexivity|].
  eexists; (split; [vm_compute; reflexivity|]); vm_compute; auto.
Qed.
Print Assumptions c24_delete_refuted.
(* What does hold: if at the time of the write nothing of the object is cached and nobody reads it, all later reads return the
   new bytes, until the next change. Missing: objects that are cached when they are overwritten. *)
Theorem c24_uncached_overwrite_partial : forall h cs o p D evs0 evs i s e d,
  (forall a b, h a = h b -> a = b) -> cs > 0 ->
  untouched h (run h cs (init o) evs0) p ->                   (* any history up to the write *)
  Forall (leaves p) evs -> Forall whole_write evs ->
  s < e -> e <= length D ->
  returned (run h cs (init o) (evs0 ++ EPut p D :: evs)) i p s e d -> d = slice D s e.
Proof.
  intros h cs o p D evs0 evs i s e d Hh Hcs U Hl Hw H1 H2 R.
  unfold run in R. rewrite fold_left_app in R. cbn [fold_left] in R. destruct R as (r & R1 & R2 & R3 & R4 & R5).
  pose proof (Inv_put h cs p D False _ U) as I0.
  pose proof (own_step h Hh cs _ (EPut p D) (own_run h Hh cs evs0 (init o) (own_init o))) as O0.
  pose proof (Inv_run h Hh cs Hcs p D False evs _ I0 O0 Hl Hw ltac:(tauto)) as I.
  pose proof (i_read h cs p D False _ I i r R1 R2) as R. unfold RInv in R. rewrite R5 in R.
  rewrite <- R3, <- R4. apply R. split; lia.
Qed.
Print Assumptions c24_uncached_overwrite_partial.
(* object 0 is read and cached while object 2 is written, overwritten and read *)
Example c24_nonvacuous :
  let evs0 := [ERead 0 0 0 10] ++ go 0 5 ++ [EWrite 0; EPut 2 [1; 1; 1]] in
  untouched (fun x => x) (run (fun x => x) 4 (init store1) evs0) 2 /\
  returned (run (fun x => x) 4 (init store1) (evs0 ++ EPut 2 [4; 5; 6; 7; 8] :: [ERead 1 2 2 5] ++ go 1 12)) 1 2 2 5 [6; 7; 8].
Proof.
  split.
  - split; [|split; [|split]].
    + intros c. vm_compute. reflexivity.
    + intros c. destruct c as [|[|[|c]]]; vm_compute; reflexivity.
    + intros t x. destruct t as [|[|[|t]]]; vm_compute; intros [= <-]; discriminate.
    + intros i r. destruct i as [|i]; vm_compute; [intros [= <-]; discriminate|discriminate].
  - eexists; (split; [vm_compute; reflexivity|]); vm_compute; auto.
Qed.
Print Assumptions c24_nonvacuous.

(* C25. A write to the cache directory fails (disk full) or is interrupted after two of four bytes. The file stays, the next
   task finds it and takes it for complete; reads return two bytes instead of four. The object never changed. *)
Theorem c25_torn_write_refuted :
  exists cs o p D evs i s e d, cs > 0 /\ o p = Some D /\ Forall (leaves p) evs /\ s < e /\ e <= length D /\
    returned (run (fun x => x) cs (init o) evs) i p s e d /\ d <> slice D s e.
Proof.
  exists 4, store1, 0, obj10,
    ([ERead 0 0 0 4] ++ go 0 6 ++ [EOpen 0; EMore 0 2; EFail 0] ++              (* the write fails half way *)
     [ERead 1 0 0 4] ++ go 1 6 ++ [EOpen 1; EInsert 1] ++                       (* the file exists: skipped *)
     [ERead 2 0 0 4] ++ go 2 6), 2, 0, 4, [10; 11].
  split; [lia|]. split; [reflexivity|]. split; [repeat constructor|]. split; [lia|]. split; [cbn; lia|].
  split; [eexists; (split; [vm_compute; reflexivity|]); vm_compute; auto|]. vm_compute. discriminate.
Qed.
Print Assumptions c25_torn_write_refuted.
(* The same without any failure: the entry is evicted while its file is being written, and a second task for the same chunk
   takes the unfinished file for complete. *)
Theorem c25_write_race_refuted :
  exists cs o p D evs i s e d, cs > 0 /\ o p = Some D /\ Forall (leaves p) evs /\
    Forall (fun ev => match ev with EFail _ => False | EStep _ net io => net = true /\ io = true | _ => True end) evs /\
    s < e /\ e <= length D /\ returned (run (fun x => x) cs (init o) evs) i p s e d /\ d <> slice D s e.
Proof.
  exists 4, store1, 0, obj10,
    ([ERead 0 0 0 4] ++ go 0 6 ++ [EOpen 0; EMore 0 2; EEvict (0, 0)] ++
     [ERead 1 0 0 4] ++ go 1 6 ++ [EOpen 1; EInsert 1] ++
     [ERead 2 0 0 4] ++ go 2 6), 2, 0, 4, [10; 11].
  split; [lia|]. split; [reflexivity|]. split; [repeat constructor|]. split; [repeat constructor|]. split; [lia|]. split; [cbn; lia|].
  split; [eexists; (split; [vm_compute; reflexivity|]); vm_compute; auto|]. vm_compute. discriminate.
Qed.
Print Assumptions c25_write_race_refuted.
(* A write that fails without leaving a file behind is harmless, at any point of any history. Missing: writes that leave
   part of the file. *)
Theorem c25_failed_write_partial : forall h cs o p D evs1 evs2 t i s e d,
  (forall a b, h a = h b -> a = b) -> cs > 0 ->
  o p = Some D -> Forall (leaves p) (evs1 ++ evs2) -> Forall whole_write (evs1 ++ evs2) ->
  s < e -> e <= length D ->
  returned (run h cs (init o) (evs1 ++ EFail t :: evs2)) i p s e d -> d = slice D s e.
Proof.
  intros h cs o p D evs1 evs2 t i s e d Hh Hcs Ho Hl Hw H1 H2 R.
  apply Forall_app in Hl. apply Forall_app in Hw.
  apply (c22_range_reads_partial h cs o p D (evs1 ++ EFail t :: evs2) i s e d); auto.
  - apply Forall_app. split; [tauto|]. constructor; [exact Logic.I|tauto].
  - apply Forall_app. split; [tauto|]. constructor; [exact Logic.I|tauto].
Qed.
Print Assumptions c25_failed_write_partial.
Example c25_nonvacuous :
  let st := run (fun x => x) 4 (init store1) ([ERead 0 0 0 4] ++ go 0 6 ++ EFail 0 :: [ERead 1 0 0 4] ++ go 1 6) in
  returned st 1 0 0 4 [10; 11; 12; 13] /\ cache st (0, 0) = Some (Mem [10; 11; 12; 13]) /\ tasks st 0 = None.
Proof. split; [eexists; (split; [vm_compute; reflexivity|]); vm_compute; auto|]. vm_compute. auto. Qed.
Print Assumptions c25_nonvacuous.
