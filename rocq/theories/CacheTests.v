(* The vectors of the project's own tests of the range cache (/repo/src/object_store/cache.rs:875-1045), replayed through
   CacheModel.v and FetchModel.v. These are tests of the models, not proofs.

   The body of the mock server is a Parquet file of an unknown length of at least 485 bytes and at most 496: the case
   "goes beyond the end" asks for 490 and the requests end at 496. Here it is 488 bytes long. *)
From Coq Require Import List Arith Bool.
From Verif Require Import CacheModel FetchModel.
Import ListNotations.

Definition t_body : list nat := seq 1000 488.
Definition t_cs : nat := 16.
Definition t_h (p : nat) : nat := p.
Definition t_init : state := init (fun p => if Nat.eqb p 7 then Some t_body else None).
Definition t_steps (i n : nat) : list event := repeat (EStep i true true) n.
Definition t_read (i s e : nat) : list event := ERead i 7 s e :: t_steps i 130.
Definition t_result (st : state) (i : nat) : option (list nat) :=
  match readers st i with Some r => match r_pc r with PDone d => Some d | _ => None end | None => None end.
(* CACHE_MISS_BYTES counts the bytes asked of the underlying store *)
Definition t_missed (l : list (nat * nat * nat)) : nat := fold_right (fun '(_, s, e) n => (e - s) + n) 0 l.

(* cache.rs:875-917 test_range_coalescing *)
Definition t_coalescing (s e fetched : nat) : Prop :=
  t_result (run t_h t_cs t_init (t_read 0 s e)) 0 = Some (firstn (e - s) (skipn s t_body)) /\
  t_missed (requests t_h t_cs t_init (t_read 0 s e)) = fetched.
Example t_skip_0_partial_1_full_2_3 : t_coalescing 25 64 48. Proof. vm_compute. split; reflexivity. Qed.
Example t_part_of_chunk_0 : t_coalescing 1 2 16. Proof. vm_compute. split; reflexivity. Qed.
Example t_nothing_at_the_boundary : t_coalescing 16 16 0. Proof. vm_compute. split; reflexivity. Qed.
Example t_one_byte_at_the_boundary : t_coalescing 16 17 16. Proof. vm_compute. split; reflexivity. Qed.
Example t_part_of_0_part_of_1 : t_coalescing 10 20 32. Proof. vm_compute. split; reflexivity. Qed.
Example t_reaches_the_end : t_coalescing 10 484 (31 * 16). Proof. vm_compute. split; reflexivity. Qed.
Example t_beyond_the_end : t_coalescing 400 490 96. Proof. vm_compute. split; reflexivity. Qed.

(* cache.rs:935-1045 test_cache_caching_eviction: every step of the test, with the number of requests that the server has
   received, the entries of the index and the files on disk *)
Definition t_files (st : state) : list nat :=
  filter (fun c => match disk st (t_h 7, c) with Some _ => true | None => false end) (seq 0 20).
Definition t_entries (st : state) : list nat :=
  filter (fun c => match cache st (7, c) with Some _ => true | None => false end) (seq 0 20).
Definition t_on_disk (st : state) : list nat :=
  filter (fun c => match cache st (7, c) with Some (File _ _) => true | _ => false end) (seq 0 20).
(* wait_all_ranges_on_disk *)
Definition t_persist (from n : nat) : list event := flat_map (fun t => [EWrite t; EInsert t]) (seq from n).
Definition t_1 := t_read 0 25 64.
Definition t_2 := t_1 ++ t_persist 0 3.
Definition t_3 := t_2 ++ t_read 1 26 30.
Definition t_4 := t_3 ++ t_read 2 33 66.
Definition t_5 := t_4 ++ t_persist 3 1.
(* chunk 5 takes the place of chunk 1 *)
Definition t_6 := t_5 ++ t_read 3 80 85 ++ [EEvict (7, 1); ERemove (7, 1)] ++ t_persist 4 1.
(* the entries expire *)
Definition t_7 := t_6 ++ flat_map (fun c => [EEvict (7, c); ERemove (7, c)]) [2; 3; 4; 5].
Definition t_see (evs : list event) (i : nat) :=
  let st := run t_h t_cs t_init evs in
  (t_result st i, length (requests t_h t_cs t_init evs), t_missed (requests t_h t_cs t_init evs),
   t_entries st, t_on_disk st, t_files st).
Definition t_part (s e : nat) : option (list nat) := Some (firstn (e - s) (skipn s t_body)).
Example t_ev_1 : t_see t_1 0 = (t_part 25 64, 1, 48, [1; 2; 3], [], []). Proof. vm_compute. reflexivity. Qed.
Example t_ev_2 : t_see t_2 0 = (t_part 25 64, 1, 48, [1; 2; 3], [1; 2; 3], [1; 2; 3]). Proof. vm_compute. reflexivity. Qed.
Example t_ev_3 : t_see t_3 1 = (t_part 26 30, 1, 48, [1; 2; 3], [1; 2; 3], [1; 2; 3]). Proof. vm_compute. reflexivity. Qed.
Example t_ev_4 : t_see t_4 2 = (t_part 33 66, 2, 64, [1; 2; 3; 4], [1; 2; 3], [1; 2; 3]). Proof. vm_compute. reflexivity. Qed.
Example t_ev_5 : t_see t_5 2 = (t_part 33 66, 2, 64, [1; 2; 3; 4], [1; 2; 3; 4], [1; 2; 3; 4]). Proof. vm_compute. reflexivity. Qed.
Example t_ev_6 : t_see t_6 3 = (t_part 80 85, 3, 80, [2; 3; 4; 5], [2; 3; 4; 5], [2; 3; 4; 5]). Proof. vm_compute. reflexivity. Qed.
Example t_ev_7 : t_see t_7 3 = (t_part 80 85, 3, 80, [], [], []). Proof. vm_compute. reflexivity. Qed.
