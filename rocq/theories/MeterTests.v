(* The metrics that the project's own tests of the range cache look at (/repo/src/object_store/cache.rs:875-1050), replayed
   through MeterModel.v with the histories of CacheTests.v. These are tests of the model, not proofs. The gauge of the usage is
   not modelled. *)
From Coq Require Import List Arith Bool.
From Verif Require Import CacheModel FetchModel MeterModel CacheTests.
Import ListNotations.

(* calls, requested bytes, bytes read from memory and from disk, downloaded, written and evicted *)
Definition t_metrics (evs : list event) : list nat :=
  map (fun m => counter m t_h t_cs t_init evs) [m_calls; m_requested; m_memory; m_disk; m_missed; m_written t_h; m_evicted].
(* test_range_coalescing: INBOUND_REQUESTS 1, REQUESTED_BYTES end - start, CACHE_MISS_BYTES, CACHE_DISK_READ 0. The two cases that
   reach the end of the body are left out: they depend on its length, which the test does not tell. *)
Example t_coalescing_metrics :
  map (fun se => t_metrics (t_read 0 (fst se) (snd se))) [(25, 64); (1, 2); (16, 16); (16, 17); (10, 20)] =
  [[1; 39; 0; 0; 48; 0; 0]; [1; 1; 0; 0; 16; 0; 0]; [1; 0; 0; 0; 0; 0; 0]; [1; 1; 0; 0; 16; 0; 0]; [1; 10; 0; 0; 32; 0; 0]].
Proof. vm_compute. reflexivity. Qed.
(* test_cache_caching_eviction *)
Example t_eviction_metrics_1 : t_metrics t_1 = [1; 39; 0; 0; 48; 0; 0]. Proof. vm_compute. reflexivity. Qed.
Example t_eviction_metrics_3 : t_metrics t_3 = [2; 43; 0; 16; 48; 48; 0]. Proof. vm_compute. reflexivity. Qed.
Example t_eviction_metrics_4 : t_metrics t_4 = [3; 76; 0; 48; 64; 48; 0]. Proof. vm_compute. reflexivity. Qed.
(* before chunk 5 is on disk: CACHE_WRITES 64, CACHE_EVICTED 16 *)
Example t_eviction_metrics_6 : t_metrics (t_5 ++ t_read 3 80 85 ++ [EEvict (7, 1); ERemove (7, 1)]) = [4; 81; 0; 48; 80; 64; 16].
Proof. vm_compute. reflexivity. Qed.
Example t_eviction_metrics_7 : t_metrics t_7 = [4; 81; 0; 48; 80; 80; 80]. Proof. vm_compute. reflexivity. Qed.
