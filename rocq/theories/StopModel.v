(* How the server stops: /repo/src/main.rs (169-262), /repo/src/frontend/flight/mod.rs (22-50), /repo/src/frontend/http.rs (656-669),
   /repo/src/frontend/postgres.rs (77-94) and /repo/src/sync/mod.rs (90-109).

   Third-party behaviour: tokio-graceful-shutdown ends the program when all subsystems are over or when the time is up after a
   request to stop (a signal, or a subsystem that panics); warp and tonic take no more connections once they are told to stop, and are over when their running
   requests are; convergence runs each connection in a task of its own, so dropping its server does not stop the running statements; the end of the program stops everything.

   Simplifications: time passes in ticks, of which [limit] are five seconds; changes of the sync clients are numbers; flushes of the
   background task succeed at once. *)
From Coq Require Import List Arith Bool.
Import ListNotations.

Inductive frontend := Http | Flight | Postgres.
Inductive reason := Clean | Panicked | TimedOut.     (* the last two: handle_shutdown_requests fails, and unwrap panics *)
Inductive phase := Running | Stopping (elapsed : nat) | Exited (r : reason).
Record config := { http : bool; flight : bool; postgres : bool; gc : bool (* gc_interval > 0 and an internal object store: main.rs:240-256 *) }.
Record state := {
  now : phase;
  failed : bool;                     (* a subsystem has panicked *)
  busy : list (frontend * nat);      (* running requests *)
  answered : list (frontend * nat);
  cut : list (frontend * nat);       (* requests that were running when the program ended *)
  pending : list nat;                (* changes that the sync writer holds in memory *)
  durable : list nat;
  lost : list nat                    (* changes that were in memory when the program ended *)
}.
Inductive event :=
| Arrive (f : frontend) (id : nat)
| Answer (f : frontend) (id : nat)
| Change (c : nat)                   (* a running DoPut has put a change into memory *)
| Flush                              (* flush_task *)
| Signal
| Fail (f : frontend)                (* the subsystem panics, for instance as its port is taken *)
| Tick.

Section Server.
Variable limit : nat.                (* main.rs:259 *)
Variable cfg : config.

Definition enabled (f : frontend) : bool := match f with Http => http cfg | Flight => flight cfg | Postgres => postgres cfg end.
Definition frontend_eqb (a b : frontend) : bool := match a, b with Http, Http | Flight, Flight | Postgres, Postgres => true | _, _ => false end.
Definition same (a b : frontend * nat) : bool := frontend_eqb (fst a) (fst b) && Nat.eqb (snd a) (snd b).
Definition mem (x : frontend * nat) (l : list (frontend * nat)) : bool := existsb (same x) l.
Definition exited (st : state) : bool := match now st with Exited _ => true | _ => false end.
Definition exit (st : state) (r : reason) : state :=
  {| now := Exited r; failed := failed st; busy := []; answered := answered st; cut := cut st ++ busy st; pending := []; durable := durable st; lost := lost st ++ pending st |}.
(* the subsystems that are left after a request to stop: the servers of HTTP and Flight wait for their requests; that of Postgres is
   dropped (main.rs:201-204); the garbage collection has no end (main.rs:248-251) *)
Definition all_over (st : state) : bool :=
  negb (gc cfg) && forallb (fun r => match fst r with Postgres => true | _ => false end) (busy st).
Definition settle (st : state) : state :=
  match now st with
  | Stopping _ => if all_over st then exit st (if failed st then Panicked else Clean) else st
  | _ => st
  end.
(* main.rs:231-237 *)
Definition init : state :=
  {| now := if http cfg || flight cfg || postgres cfg then Running else Exited Panicked; failed := false; busy := []; answered := []; cut := []; pending := []; durable := []; lost := [] |}.
Definition with_now (st : state) (p : phase) (fl : bool) : state :=
  {| now := p; failed := fl; busy := busy st; answered := answered st; cut := cut st; pending := pending st; durable := durable st; lost := lost st |}.
Definition act (st : state) (e : event) : state :=
  match e with
  | Arrive f id =>
      match now st with
      | Running => if enabled f && negb (mem (f, id) (busy st))
                   then {| now := now st; failed := failed st; busy := busy st ++ [(f, id)]; answered := answered st; cut := cut st; pending := pending st; durable := durable st; lost := lost st |}
                   else st
      | _ => st
      end
  | Answer f id =>
      if mem (f, id) (busy st)
      then {| now := now st; failed := failed st; busy := filter (fun x => negb (same (f, id) x)) (busy st); answered := answered st ++ [(f, id)]; cut := cut st;
              pending := pending st; durable := durable st; lost := lost st |}
      else st
  | Change c =>
      if existsb (fun x => frontend_eqb (fst x) Flight) (busy st)
      then {| now := now st; failed := failed st; busy := busy st; answered := answered st; cut := cut st; pending := pending st ++ [c]; durable := durable st; lost := lost st |}
      else st
  | Flush =>
      {| now := now st; failed := failed st; busy := busy st; answered := answered st; cut := cut st; pending := []; durable := durable st ++ pending st; lost := lost st |}
  | Signal => match now st with Running => with_now st (Stopping 0) (failed st) | _ => st end
  | Fail f =>
      if enabled f then
        match now st with
        | Running => with_now st (Stopping 0) true
        | p => with_now st p true
        end
      else st
  | Tick =>
      match now st with
      | Stopping n => if Nat.leb limit (S n) then exit st TimedOut else with_now st (Stopping (S n)) (failed st)
      | _ => st
      end
  end.
Definition step (st : state) (e : event) : state := if exited st then st else settle (act st e).
Definition run (es : list event) : state := fold_left step es init.
End Server.
