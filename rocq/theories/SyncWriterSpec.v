(* Small specification vocabulary for the sync writer: everything is phrased in terms of the
   log of accepted messages, the commits of the tables and the replies. *)
From Coq Require Import List Arith NArith Bool.
From Verif Require Import SyncWriterModel.
Import ListNotations.
Open Scope N_scope.

(* the batches of an accepted message, by number *)
Definition tags (e : entry) : list prov :=
  map (fun k => (l_id e, k)) (seq 0 (length (m_batches (l_msg e)))).

(* the message carries rows *)
Definition has_rows (e : entry) : bool := negb (m_rows (l_msg e) =? 0).

(* the batches accepted for a table, in order of acceptance *)
Definition accepted_for (u : url) (log : list entry) : list prov :=
  flat_map tags (filter (fun e => has_rows e && Nat.eqb (m_url (l_msg e)) u) log).

(* the batches that the commits of a table contain *)
Definition committed (cs : list commit) : list prov := flat_map k_prov cs.

(* the batches still held in memory for a table *)
Definition pending (w : writer) (u : url) : list prov :=
  match get u (w_syncs w) with
  | Some c => flat_map b_prov (flat_map i_data (c_items c))
  | None => []
  end.

(* the message was sent by [o] and closes a transaction with number [n] *)
Definition closes (o : origin) (n : seqno) (e : entry) : Prop :=
  m_origin (l_msg e) = o /\ m_seq (l_msg e) = Some n.

(* the commits made to a table since the process started with the tables [T0] *)
Definition new_commits (T0 T : tables) (u : url) : list commit := skipn (length (T0 u)) (T u).

(* every row of the message is in a commit made to its table since the start *)
Definition durable_entry (T0 T : tables) (e : entry) : Prop :=
  has_rows e = true -> incl (tags e) (committed (new_commits T0 T (m_url (l_msg e)))).

(* sequence number carried by the last closing message of [o] *)
Definition last_seq (o : origin) (log : list entry) : option seqno :=
  fold_left (fun acc e => if Nat.eqb (m_origin (l_msg e)) o
                          then match m_seq (l_msg e) with Some s => Some s | None => acc end
                          else acc) log None.

(* [e] is the last message of the log that carries rows for [u] *)
Definition last_rows_for (u : url) (log : list entry) (e : entry) : Prop :=
  exists l1 l2, log = l1 ++ e :: l2 /\ m_url (l_msg e) = u /\ has_rows e = true /\
    forall e', In e' l2 -> m_url (l_msg e') = u -> has_rows e' = false.

(* the transaction of [e] has not been closed by any message of the log *)
Definition tx_open (log : list entry) (e : entry) : Prop :=
  forall e', In e' log -> l_tx e' = l_tx e -> m_seq (l_msg e') = None.

(* what the info of a commit to [u] says when it is made after the accepted messages [log]: let [e]
   be the last message with rows for [u]. If its transaction is still open this is flagged (or there is
   no info at all); otherwise the info names its number. *)
Definition info_ok (u : url) (log : list entry) (info : option commit_info_t) : Prop :=
  exists e, last_rows_for u log e /\
    match info with
    | None => tx_open log e
    | Some i => (k_new_tx i = true <-> tx_open log e) /\
                (k_new_tx i = false ->
                   exists e', In e' log /\ l_tx e' = l_tx e /\ closes (k_origin i) (k_seq i) e')
    end.

(* states reachable from a fresh process over arbitrary existing tables *)
Inductive reachable (cf : config) (T0 : tables) : world -> Prop :=
| reach_init : forall id0, reachable cf T0 (init T0 id0)
| reach_step : forall wd ev wd' r, reachable cf T0 wd -> step cf wd ev = (wd', r) ->
                                   reachable cf T0 wd'.

(* total pending size as the sum over all batches held *)
Definition pending_bytes (w : writer) : N :=
  fold_right (fun p a => sum_size (flat_map i_data (c_items (snd p))) + a) 0 (w_syncs w).

(* an event in which no flush ends in "committed, but reported as failed" *)
Definition clean_event (ev : event) : Prop :=
  match ev with
  | EMsg _ _ _ e | ETick e => forall i, e_out e i <> FCommitFail
  | EOther _ => True
  end.

(* a message without rows and sequence number only asks for the sequence numbers *)
Definition is_probe (m : msg) : Prop := m_rows m = 0 /\ m_seq m = None.

(* the messages that must be refused after the accepted messages [log]: those of another origin
   while a transaction is open, and empty transactions *)
Definition must_refuse (log : list entry) (m : msg) : Prop :=
  (exists l e, log = l ++ [e] /\ m_seq (l_msg e) = None /\ m_origin m <> m_origin (l_msg e)) \/
  ((log = [] \/ exists l e, log = l ++ [e] /\ m_seq (l_msg e) <> None) /\
   m_rows m = 0 /\ m_seq m <> None).

(* order on optional sequence numbers: nothing reported yet is below everything *)
Definition opt_le (a b : option seqno) : Prop :=
  match a with None => True | Some x => exists y, b = Some y /\ x <= y end.

(* the origin sends non-decreasing sequence numbers *)
Definition nondecreasing (o : origin) (log : list entry) : Prop :=
  forall l1 e1 l2 e2 l3 n1 n2, log = l1 ++ e1 :: l2 ++ e2 :: l3 ->
    closes o n1 e1 -> closes o n2 e2 -> n1 <= n2.

(* clock readings of one event: not before [t], in order, and all at most [t'] *)
Definition clocked (t : N) (ev : event) (t' : N) : Prop :=
  match ev with
  | EMsg _ _ now e => t <= now /\ now <= e_now e 0 /\ (forall i, e_now e i <= e_now e (S i)) /\ (forall i, e_now e i <= t')
  | ETick e => t <= e_now e 0 /\ (forall i, e_now e i <= e_now e (S i)) /\ (forall i, e_now e i <= t')
  | EOther _ => t <= t'
  end.
(* reachable by events with a monotone clock that now shows at most [t] *)
Inductive reachable_at (cf : config) (T0 : tables) : N -> world -> Prop :=
| reach_at_init : forall id0 t, reachable_at cf T0 t (init T0 id0)
| reach_at_step : forall t wd ev wd' r t', reachable_at cf T0 t wd -> clocked t ev t' ->
                  step cf wd ev = (wd', r) -> reachable_at cf T0 t' wd'.
