(* What the metrics of the data sync writer should show, without reference to how they are updated. *)
From Coq Require Import List Arith NArith ZArith Bool Lia.
From Verif Require Import SyncWriterModel SyncWriterSpec GaugeModel.
Import ListNotations.
Open Scope N_scope.

(* a process and its metrics, reachable from a start with arbitrary existing tables *)
Inductive metered (cf : config) (T0 : tables) : world -> meters -> Prop :=
| metered_init : forall id0, metered cf T0 (init T0 id0) meters_new
| metered_step : forall wd g ev wd' r, metered cf T0 wd g -> step cf wd ev = (wd', r) ->
                 metered cf T0 wd' (g_step cf wd ev g).

(* the same, with a clock that is never set back and now shows at most [t] *)
Inductive metered_at (cf : config) (T0 : tables) : N -> world -> meters -> Prop :=
| metered_at_init : forall id0 t, metered_at cf T0 t (init T0 id0) meters_new
| metered_at_step : forall t wd g ev wd' r t', metered_at cf T0 t wd g -> clocked t ev t' ->
                    step cf wd ev = (wd', r) -> metered_at cf T0 t' wd' (g_step cf wd ev g).

(* rows of all batches held in memory, as [pending_bytes] does for bytes *)
Definition pending_rows (w : writer) : N :=
  fold_right (fun p a => sum_rows (flat_map i_data (c_items (snd p))) + a) 0 (w_syncs w).

(* [x] is the earliest insertion time among the pending tables, or 0 if nothing is pending *)
Definition shows_oldest (w : writer) (x : N) : Prop :=
  (w_syncs w = [] /\ x = 0) \/
  ((exists u c, In (u, c) (w_syncs w) /\ c_time c = x) /\
   forall u c, In (u, c) (w_syncs w) -> x <= c_time c).

(* every flush that the event attempted succeeded *)
Definition flushes_succeed (cf : config) (wd : world) (ev : event) (r : reply) : Prop :=
  match ev with
  | EMsg m _ _ _ => ~ is_probe m /\ exists a b, r = RSeqs a b
  | ETick e => exists w T, flush cf e (wd_w wd) (wd_T wd) = Some (w, T, SOk)
  | EOther _ => False
  end.

(* the integers a 64 bit float can hold, below its overflow *)
Definition double (d : N) : Prop := exists q k, q <= 2 ^ 53 /\ d = q * 2 ^ k.

Definition distance (a b : N) : Z := Z.abs (Z.of_N a - Z.of_N b).
