(* The metrics of the range cache (src/object_store/cache.rs), over the histories of CacheModel.v: what each event adds to
   a counter, and the counters of the calls to the underlying store.

   Simplifications: the gauges of usage and capacity, the counters of warnings and all latencies are left out; counters do
   not overflow; a read of an inverted range panics before it is counted (overflow checks are on). *)
From Coq Require Import Ascii String List Arith Bool.
From Verif Require Import CacheModel FetchModel.
Import ListNotations.

(* cache.rs:660 get_range_calls.increment(1) *)
Definition m_calls (cs : nat) (st : state) (ev : event) : nat :=
  match ev with ERead i _ _ _ => match readers st i with None => 1 | Some _ => 0 end | _ => 0 end.
(* cache.rs:661-663 get_range_bytes.increment(range.end - range.start) *)
Definition m_requested (cs : nat) (st : state) (ev : event) : nat :=
  match ev with ERead i _ s e => match readers st i with None => e - s | Some _ => 0 end | _ => 0 end.
(* cache.rs:477 log_cache_memory_read(data.len()), lines 272-274 *)
Definition m_memory (cs : nat) (st : state) (ev : event) : nat :=
  match ev with
  | EStep i _ _ =>
      match readers st i with
      | Some r => match r_pc r with
                  | PLook => match cache st (r_path r, r_chunk r) with Some (Mem d) => length d | _ => 0 end
                  | _ => 0
                  end
      | None => 0
      end
  | _ => 0
  end.
(* cache.rs:67-73 read_file: log_cache_disk_read(v.len()) if the file could be read, lines 276-280 *)
Definition m_disk (cs : nat) (st : state) (ev : event) : nat :=
  match ev with
  | EStep i _ io =>
      match readers st i with
      | Some r => match r_pc r with
                  | PFile f => match disk st f with Some (_, d) => if io then length d else 0 | None => 0 end
                  | _ => 0
                  end
      | None => 0
      end
  | _ => 0
  end.
(* cache.rs:419-428 get_range_inner, lines 255-265 log_get_range_outbound_request: the bytes of a response *)
Definition response (st : state) (net : bool) (q : nat * nat * nat) : option (list nat) :=
  match q with (p, a, b) => if net then inner_get (objs st) p a b else None end.
Definition m_missed (cs : nat) (st : state) (ev : event) : nat :=
  match ev with
  | EStep i net _ =>
      match readers st i with
      | Some r => match read_request cs r with
                  | Some q => match response st net q with Some d => length d | None => 0 end
                  | None => 0
                  end
      | None => 0
      end
  | _ => 0
  end.
(* cache.rs:260 log_object_store_outbound_request(start, "get_range", Some(result.is_ok())): one request, with its status *)
Definition m_outbound (ok : bool) (cs : nat) (st : state) (ev : event) : nat :=
  match ev with
  | EStep i net _ =>
      match readers st i with
      | Some r => match read_request cs r with
                  | Some q => match response st net q with
                              | Some _ => if ok then 1 else 0
                              | None => if ok then 0 else 1
                              end
                  | None => 0
                  end
      | None => 0
      end
  | _ => 0
  end.
(* cache.rs:59-63 write_file: log_cache_disk_write(data.len()) once the whole chunk has been written *)
Definition m_written (h : nat -> nat) (cs : nat) (st : state) (ev : event) : nat :=
  match ev with
  | EWrite t =>
      match tasks st t with
      | Some x => match t_phase x with
                  | Queued => match disk st (file_of h (t_key x)) with Some _ => 0 | None => length (t_data x) end
                  | _ => 0
                  end
      | None => 0
      end
  | EClose t =>
      match tasks st t with
      | Some x => match t_phase x with Writing [] => length (t_data x) | _ => 0 end
      | None => 0
      end
  | _ => 0
  end.
(* cache.rs:325-333 on_evict: cache_evicted, unless the entry was replaced. Line 576: invalidate removes the entry for good. *)
Definition entry_size (v : option cval) : nat := match v with Some v => size v | None => 0 end.
Definition m_evicted (cs : nat) (st : state) (ev : event) : nat :=
  match ev with
  | EEvict k => entry_size (cache st k)
  | EFail t => match tasks st t with
               | Some x => match t_phase x with Ready => 0 | _ => entry_size (cache st (t_key x)) end
               | None => 0
               end
  | _ => 0
  end.
(* the value of a counter after a history *)
Fixpoint counter (m : nat -> state -> event -> nat) (h : nat -> nat) (cs : nat) (st : state) (evs : list event) : nat :=
  match evs with
  | [] => 0
  | ev :: evs' => m cs st ev + counter m h cs (step h cs st ev) evs'
  end.

(* ---- the calls that are passed on, cache.rs:592-780 ---- *)
Local Open Scope string_scope.
Inductive call := Put | PutMultipart | PutMultipartOpts | Get (path : string) | Head | Delete | DeleteStream | List
                | ListWithDelimiter | Copy | CopyIfNotExists.
(* how the underlying store answers. The streams of delete_stream and list are handed over unread. *)
Inductive outcome := Success | NotFound (path : string) | OtherError.
Inductive status := SSuccess | SError | SUnknown.
(* str::ends_with *)
Fixpoint ends_with (suffix s : string) : bool :=
  String.eqb suffix s || match s with EmptyString => false | String _ s' => ends_with suffix s' end.
Definition is_ok (o : outcome) : bool := match o with Success => true | _ => false end.
Definition status_of (ok : bool) : status := if ok then SSuccess else SError.
(* cache.rs:236-254 log_object_store_outbound_request: the operation and the status that a call is counted under, if it is *)
Definition logged (c : call) (o : outcome) : option (string * status) :=
  match c with
  | Put => Some ("put", status_of (is_ok o))                                             (* lines 593-607 *)
  | PutMultipart => Some ("put_multipart", status_of (is_ok o))                          (* lines 609-621 *)
  | PutMultipartOpts => None                                                             (* lines 623-629 *)
  | Get _ => Some ("get", match o with                                                   (* lines 631-652 *)
                          | Success => SSuccess
                          | NotFound p => if ends_with "_last_checkpoint" p then SSuccess else SError
                          | OtherError => SError
                          end)
  | Head => Some ("head", status_of (is_ok o))
  | Delete => Some ("delete", status_of (is_ok o))
  | DeleteStream => Some ("delete_stream", SUnknown)
  | List => Some ("list", SUnknown)
  | ListWithDelimiter => Some ("list_with_delimiter", status_of (is_ok o))
  | Copy => Some ("copy", status_of (is_ok o))
  | CopyIfNotExists => Some ("copy_if_not_exists", status_of (is_ok o))
  end.
Definition status_eqb (a b : status) : bool :=
  match a, b with SSuccess, SSuccess | SError, SError | SUnknown, SUnknown => true | _, _ => false end.
(* seafowl_object_store_requests_total{operation, status} after these calls *)
Definition requests_total (calls : list (call * outcome)) (operation : string) (s : status) : nat :=
  length (filter (fun co => match logged (fst co) (snd co) with
                            | Some (op, s') => String.eqb op operation && status_eqb s' s
                            | None => false
                            end) calls).
