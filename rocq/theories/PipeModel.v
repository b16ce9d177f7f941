(* One synchronised table from its messages to its files: the rows in the queue of SyncWriterModel.v, squashed and flushed as in SyncDataModel.v.
   Source: /repo/src/sync/writer.rs 226-289 (enqueue_sync), 340-387 (flush_ready), 390-525 (flush_syncs), 528-580 (physical_squashing).
   Simplified: one table; transactions and sequence numbers are left out (SyncWriterModel.v); what triggers a squashing or a flush (limits, other tables, the
   timer) is left open: they happen at any time. *)
From Coq Require Import List Arith ZArith Bool.
From Verif Require Import SyncDataModel.
Import ListNotations.

(* writer.rs 118-129 DataSyncItem *)
Record pend := { p_squashed : bool; p_schema : list column; p_data : list rbatch }.
Definition rows_of (bs : list rbatch) : nat := fold_right (fun b n => length (rb_rows b) + n) 0 bs.
Definition p_rows (p : pend) : list (list value) := flat_map rb_rows (p_data p).

(* writer.rs 226-255; a message without rows is not queued (line 226) *)
Fixpoint enqueue (max_rows : nat) (sch : list column) (bs : list rbatch) (q : list pend) : list pend :=
  match q with
  | [] => [{| p_squashed := false; p_schema := sch; p_data := bs |}]
  | [prev] =>
      if (compatible (p_schema prev) sch && Nat.leb (rows_of (p_data prev) + rows_of bs) max_rows)%bool
      then [{| p_squashed := false; p_schema := p_schema prev; p_data := p_data prev ++ bs |}]
      else [prev; {| p_squashed := false; p_schema := sch; p_data := bs |}]
  | p :: q => p :: enqueue max_rows sch bs q
  end.
Definition receive (max_rows : nat) (sch : list column) (bs : list rbatch) (q : list pend) : list pend :=
  if Nat.eqb (rows_of bs) 0 then q else enqueue max_rows sch bs q.

(* writer.rs 528-580: the items that are not squashed yet; false: it failed or panicked at the first item that remains *)
Fixpoint squash_queue (q : list pend) : list pend * bool :=
  match q with
  | [] => ([], true)
  | p :: q =>
      if p_squashed p then let (q', ok) := squash_queue q in (p :: q', ok)
      else match squash_batches (p_schema p) (p_data p) with
           | None => (p :: q, false)
           | Some rows =>
               let (q', ok) := squash_queue q in
               ({| p_squashed := true; p_schema := p_schema p; p_data := [{| rb_width := length (p_schema p); rb_rows := rows |}] |} :: q', ok)
           end
  end.

Record state := { files : list (list (list value)); queue : list pend }.
(* What can happen: a message; a squashing; a flush that gets as far as the commit, with the way in which the writer cuts the new rows into files; a flush
   that stops between the squashing and the commit *)
Inductive event := Message (sch : list column) (bs : list rbatch) | Squash | Flush (cut : list (list value) -> list (list (list value))) | Stopped.

Section Pipe.
(* the row limit of an item (writer.rs 29), the boolean type and the columns of the table; the statistics of its files and DataFusion's pruning *)
Variable max_rows bool_type : nat.
Variable tcols : list nat.
Variable stats : list (list (list value)) -> fstats.
Variable prune : list (list (list value)) -> list (list (nat * (value * value))) -> list bool.

(* writer.rs 390-525; the boolean: the call succeeded *)
Definition step (s : state) (e : event) : state * bool :=
  match e with
  | Message sch bs => ({| files := files s; queue := receive max_rows sch bs (queue s) |}, true)
  | Squash => let (q, ok) := squash_queue (queue s) in ({| files := files s; queue := q |}, ok)
  | Stopped => let (q, ok) := squash_queue (queue s) in ({| files := files s; queue := q |}, false)
  | Flush cut =>
      match queue s with
      | [] => (s, true)                                    (* writer.rs 393-399: nothing to do *)
      | _ =>
          let (q, ok) := squash_queue (queue s) in
          if ok then
            match plan_delta_syncs bool_type (prune (files s)) (stats (files s)) tcols (files s) (map (fun p => (p_schema p, p_rows p)) q) with
            | Some (old, new) => ({| files := old ++ cut new; queue := [] |}, true)
            | None => ({| files := files s; queue := q |}, false)
            end
          else ({| files := files s; queue := q |}, false)
      end
  end.
Definition run (s : state) (es : list event) : state := fold_left (fun s e => fst (step s e)) es s.
End Pipe.
