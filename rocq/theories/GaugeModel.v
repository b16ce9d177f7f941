(* Model of the metrics of the data sync writer, kept beside the queue of SyncWriterModel.v.
   Source: /repo/src/sync/metrics.rs and the calls on [self.metrics] in /repo/src/sync/writer.rs.

   Every function below computes the metrics after the function of SyncWriterModel.v of the same name, from
   the state and the arguments that function receives: metrics never influence the writer.

   Simplifications:
   - counters are unbounded naturals instead of u64;
   - gauges that are incremented and decremented are integers instead of f64: the two agree as long as
     no sum exceeds 2^53 in absolute value. Gauges that are set to a sequence number
     go through [f64], which is exact about rounding;
   - histograms (times) and the time of the last flush are left out: nothing is claimed about them. *)
From Coq Require Import List Arith NArith ZArith Bool Lia.
From Verif Require Import SyncWriterModel.
Import ListNotations.
Open Scope N_scope.

(* metrics.rs:29-44 SyncWriterMetrics, and the labelled gauges of lines 116-124.
   [g_more_rows], [g_more_bytes] are ghosts: what squashing added (see [g_squash_one]). *)
Record meters := {
  g_req_bytes : N; g_req_rows : N;
  g_mem_bytes : Z; g_mem_rows : Z;
  g_oldest : N;
  g_sq_bytes : N; g_sq_rows : N;
  g_fl_bytes : N; g_fl_rows : N;
  g_seq_mem : list (origin * N); g_seq_dur : list (origin * N);
  g_more_bytes : N; g_more_rows : N
}.

(* metrics.rs:98-113: a fresh process *)
Definition meters_new : meters :=
  {| g_req_bytes := 0; g_req_rows := 0; g_mem_bytes := 0%Z; g_mem_rows := 0%Z; g_oldest := 0;
     g_sq_bytes := 0; g_sq_rows := 0; g_fl_bytes := 0; g_fl_rows := 0;
     g_seq_mem := []; g_seq_dur := []; g_more_bytes := 0; g_more_rows := 0 |}.

(* `as f64` on a u64 (metrics.rs:118, 123): round to a multiple of 2^k with a 53 bit significand,
   to nearest, ties to even *)
Definition f64 (n : N) : N :=
  let k := N.size n - 53 in
  if k =? 0 then n
  else
    let q := n / 2 ^ k in
    let r := n mod 2 ^ k in
    let half := 2 ^ (k - 1) in
    (if r <? half then q else if half <? r then q + 1 else if N.even q then q else q + 1) * 2 ^ k.

(* `syncs.first().map(insertion_time).unwrap_or(0.0)` (writer.rs:274-278 and 326-331) *)
Definition first_time (l : list (url * coll)) : N :=
  match l with [] => 0 | (_, c) :: _ => c_time c end.

Definition set_oldest (x : N) (g : meters) : meters :=
  {| g_req_bytes := g_req_bytes g; g_req_rows := g_req_rows g; g_mem_bytes := g_mem_bytes g;
     g_mem_rows := g_mem_rows g; g_oldest := x; g_sq_bytes := g_sq_bytes g; g_sq_rows := g_sq_rows g;
     g_fl_bytes := g_fl_bytes g; g_fl_rows := g_fl_rows g; g_seq_mem := g_seq_mem g;
     g_seq_dur := g_seq_dur g; g_more_bytes := g_more_bytes g; g_more_rows := g_more_rows g |}.

(* writer.rs:226-228: the request counters, before the queue is touched *)
Definition g_request (m : msg) (g : meters) : meters :=
  {| g_req_bytes := g_req_bytes g + m_size m; g_req_rows := g_req_rows g + m_rows m;
     g_mem_bytes := g_mem_bytes g; g_mem_rows := g_mem_rows g; g_oldest := g_oldest g;
     g_sq_bytes := g_sq_bytes g; g_sq_rows := g_sq_rows g;
     g_fl_bytes := g_fl_bytes g; g_fl_rows := g_fl_rows g; g_seq_mem := g_seq_mem g;
     g_seq_dur := g_seq_dur g; g_more_bytes := g_more_bytes g; g_more_rows := g_more_rows g |}.

(* writer.rs:269-279 *)
Definition g_added (m : msg) (w' : writer) (g : meters) : meters :=
  {| g_req_bytes := g_req_bytes g; g_req_rows := g_req_rows g;
     g_mem_bytes := (g_mem_bytes g + Z.of_N (m_size m))%Z;
     g_mem_rows := (g_mem_rows g + Z.of_N (m_rows m))%Z;
     g_oldest := first_time (w_syncs w');
     g_sq_bytes := g_sq_bytes g; g_sq_rows := g_sq_rows g;
     g_fl_bytes := g_fl_bytes g; g_fl_rows := g_fl_rows g; g_seq_mem := g_seq_mem g;
     g_seq_dur := g_seq_dur g; g_more_bytes := g_more_bytes g; g_more_rows := g_more_rows g |}.

(* writer.rs:284 and metrics.rs:121-124 sequence_memory *)
Definition g_memory (o : origin) (s : seqno) (g : meters) : meters :=
  {| g_req_bytes := g_req_bytes g; g_req_rows := g_req_rows g; g_mem_bytes := g_mem_bytes g;
     g_mem_rows := g_mem_rows g; g_oldest := g_oldest g; g_sq_bytes := g_sq_bytes g; g_sq_rows := g_sq_rows g;
     g_fl_bytes := g_fl_bytes g; g_fl_rows := g_fl_rows g; g_seq_mem := put o (f64 s) (g_seq_mem g);
     g_seq_dur := g_seq_dur g; g_more_bytes := g_more_bytes g; g_more_rows := g_more_rows g |}.

(* writer.rs:156-289 enqueue_sync: [w] before and [w'], [st] after the call. A refused message counts
   nothing; a panic inside and_modify comes after the request counters. *)
Definition g_enqueue (m : msg) (w' : writer) (st : status) (g : meters) : meters :=
  match st with
  | SErr => g
  | SPanic => g_request m g
  | SOk =>
      let g1 := if m_rows m =? 0 then g else g_added m w' (g_request m g) in
      match m_seq m with Some s => g_memory (m_origin m) s g1 | None => g1 end
  end.

(* writer.rs:542-559: the metrics of squashing one item from (os, or) to (s, r) bytes and rows.
   squashed_* use saturating_sub; in_memory_bytes is decremented by the signed difference, in_memory_rows
   is incremented by it. *)
Definition g_squash_one (os orows s r : N) (g : meters) : meters :=
  {| g_req_bytes := g_req_bytes g; g_req_rows := g_req_rows g;
     g_mem_bytes := (g_mem_bytes g - (Z.of_N os - Z.of_N s))%Z;
     g_mem_rows := (g_mem_rows g + (Z.of_N orows - Z.of_N r))%Z;
     g_oldest := g_oldest g;
     g_sq_bytes := g_sq_bytes g + (os - s); g_sq_rows := g_sq_rows g + (orows - r);
     g_fl_bytes := g_fl_bytes g; g_fl_rows := g_fl_rows g; g_seq_mem := g_seq_mem g;
     g_seq_dur := g_seq_dur g;
     g_more_bytes := g_more_bytes g + (s - os); g_more_rows := g_more_rows g + (r - orows) |}.

(* writer.rs:534-570: the loop; a failing item ends it *)
Fixpoint g_squash_items (sq : nat -> option (N * N)) (i : nat) (items : list item) (g : meters) : meters :=
  match items with
  | [] => g
  | it :: rest =>
      if i_squashed it then g_squash_items sq (S i) rest g
      else
        match sq i with
        | None => g
        | Some (s, r) =>
            g_squash_items sq (S i) rest (g_squash_one (sum_size (i_data it)) (sum_rows (i_data it)) s r g)
        end
  end.

(* writer.rs:528-580 physical_squashing *)
Definition g_squash (sq : nat -> option (N * N)) (u : url) (w : writer) (g : meters) : meters :=
  match get u (w_syncs w) with
  | None => g
  | Some c => g_squash_items sq 0 (c_items c) g
  end.

(* writer.rs:340-387 flush_ready: squashing is tried only when the size limit is reached and no
   table is overdue *)
Definition g_ready (cf : config) (now : N) (sq : nat -> option (N * N)) (w : writer) (g : meters) : meters :=
  let second :=
    if cf_bytes cf <=? w_size w then
      match max_by_size (w_syncs w) with
      | Some (u, _) => g_squash sq u w g
      | None => g
      end
    else g in
  match w_syncs w with
  | (_, c) :: _ => if cf_lag cf <=? lag_of now (c_time c) then g else second
  | [] => second
  end.

(* writer.rs:650-656 remove_sync *)
Definition g_remove (u : url) (w : writer) (g : meters) : meters :=
  match get u (w_syncs w) with
  | None => g
  | Some c =>
      {| g_req_bytes := g_req_bytes g; g_req_rows := g_req_rows g;
         g_mem_bytes := (g_mem_bytes g - Z.of_N (c_size c))%Z;
         g_mem_rows := (g_mem_rows g - Z.of_N (c_rows c))%Z;
         g_oldest := g_oldest g; g_sq_bytes := g_sq_bytes g; g_sq_rows := g_sq_rows g;
         g_fl_bytes := g_fl_bytes g; g_fl_rows := g_fl_rows g; g_seq_mem := g_seq_mem g;
         g_seq_dur := g_seq_dur g; g_more_bytes := g_more_bytes g; g_more_rows := g_more_rows g |}
  end.

(* writer.rs:513-522: after a successful flush of a table with [size] bytes and [rows] rows; the
   durable sequences of all origins are published. origin_durable is a HashMap: its iteration order
   does not matter because every origin occurs once. *)
Definition g_flushed (size rows : N) (dur : list (origin * seqno)) (g : meters) : meters :=
  {| g_req_bytes := g_req_bytes g; g_req_rows := g_req_rows g; g_mem_bytes := g_mem_bytes g;
     g_mem_rows := g_mem_rows g; g_oldest := g_oldest g; g_sq_bytes := g_sq_bytes g; g_sq_rows := g_sq_rows g;
     g_fl_bytes := g_fl_bytes g + size; g_fl_rows := g_fl_rows g + rows; g_seq_mem := g_seq_mem g;
     g_seq_dur := fold_right (fun p a => put (fst p) (f64 (snd p)) a) (g_seq_dur g) dur;
     g_more_bytes := g_more_bytes g; g_more_rows := g_more_rows g |}.

(* writer.rs:390-525 flush_syncs: [w] before and [w'] after the call, [st] its status, [T] the tables before. Squashing
   always counts. Size and rows are read after squashing (lines 408-410). If the table had
   no items it is removed without further metrics (lines 429-433). *)
Definition g_flush_syncs (sq : nat -> option (N * N)) (u : url) (w w' : writer) (st : status)
           (g : meters) : meters :=
  let g1 := g_squash sq u w g in
  let w1 := fst (physical_squashing sq u w) in
  match st with
  | SOk =>
      match get u (w_syncs w1) with
      | None => g1
      | Some c =>
          match c_items c with
          | [] => g_remove u w1 g1
          | _ => g_flushed (c_size c) (c_rows c) (w_dur w') (g_remove u w1 g1)
          end
      end
  | _ => g1
  end.

(* writer.rs:321-323: the loop of flush *)
Fixpoint g_loop (cf : config) (e : env) (fuel i : nat) (w : writer) (T : tables) (g : meters) : meters :=
  match fuel with
  | O => g
  | S fuel' =>
      let g1 := g_ready cf (e_now e i) (e_sq_ready e i) w g in
      match flush_ready cf (e_now e i) (e_sq_ready e i) w with
      | (w1, Some (Some u)) =>
          match flush_syncs (e_sq_flush e i) (e_out e i) u w1 T with
          | (w2, T2, st) =>
              let g2 := g_flush_syncs (e_sq_flush e i) u w1 w2 st g1 in
              match st with
              | SOk => g_loop cf e fuel' (S i) w2 T2 g2
              | _ => g2
              end
          end
      | _ => g1
      end
  end.

(* writer.rs:321-334 flush: the age gauge is set only if the loop ended without an error *)
Definition g_flush (cf : config) (e : env) (w : writer) (T : tables) (g : meters) : meters :=
  let g1 := g_loop cf e (S (length (w_syncs w))) 0 w T g in
  match flush cf e w T with
  | Some (w', _, SOk) => set_oldest (first_time (w_syncs w')) g1
  | _ => g1
  end.

(* one event of the service, beside [step] *)
Definition g_step (cf : config) (wd : world) (ev : event) (g : meters) : meters :=
  match ev with
  | EMsg m lock now0 e =>
      (* handler.rs:153-164 *)
      if (m_rows m =? 0) && (match m_seq m with None => true | Some _ => false end) then g
      else if negb lock then g
      else
        match enqueue_sync cf now0 (wd_id wd) m (wd_w wd) with
        | (w1, st) =>
            let g1 := g_enqueue m w1 st g in
            match st with SOk => g_flush cf e w1 (wd_T wd) g1 | _ => g1 end
        end
  | ETick e => g_flush cf e (wd_w wd) (wd_T wd) g
  | EOther _ => g
  end.
