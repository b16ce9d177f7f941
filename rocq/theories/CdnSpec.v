(* What the property of HTTP caches means. Of CdnModel.v the requests, the settings and the server's own answers are used. *)
From Coq Require Import Ascii String List Arith NArith Bool.
From Verif Require Import HttpModel HttpSpec CdnModel.
Import ListNotations.
Open Scope list_scope.

(* the settings let a request with this header read *)
Definition may_read (hash : list ascii -> list ascii) (p : policy) (header : option (list ascii)) : Prop :=
  read p <> Off /\
  ((header = None /\ read p = Any) \/ exists t, presents header t /\ (right_token hash t (read p) \/ right_token hash t (write p))).
(* the server is not restarted with other settings *)
Definition same_settings {world : Type} (evs : list (event world)) : Prop := forall p, ~ In (Restart world p) evs.
(* no request brings its query in its body *)
Definition no_bodies {world : Type} (evs : list (event world)) : Prop := forall q, In (Get world q) evs -> body q = None.
(* equal ETags of one query mean equal results *)
Definition tags_identify {world rows : Type} (plan_of : world -> list ascii -> list ascii -> option plan) (rows_of : world -> list ascii -> list ascii -> option rows)
  (tag : list N -> list ascii) : Prop :=
  forall w w' db t pl pl', plan_of w db t = Some pl -> plan_of w' db t = Some pl' -> plan_to_etag (list ascii) tag pl = plan_to_etag (list ascii) tag pl' ->
    rows_of w db t = rows_of w' db t.
(* the time that passes *)
Definition ticks {world : Type} (evs : list (event world)) : nat := List.length (filter (fun ev => match ev with Tick _ => true | _ => false end) evs).
(* the data and the settings after some events *)
Definition data_after {world : Type} (w : world) (evs : list (event world)) : world :=
  fold_left (fun w ev => match ev with Change _ w' => w' | _ => w end) evs w.
Definition settings_after {world : Type} (p : policy) (evs : list (event world)) : policy :=
  fold_left (fun p ev => match ev with Restart _ p' => p' | _ => p end) evs p.
(* queries read Delta tables only (at locations without zero bytes and versions below 2^32, without subqueries in expressions), and their results
   depend on the versions of these tables only *)
Definition delta_only {world : Type} (plan_of : world -> list ascii -> list ascii -> option plan) : Prop :=
  forall w db t pl, plan_of w db t = Some pl -> no_subqueries pl /\ Forall plain_delta (sources pl).
Definition results_of_versions {world rows : Type} (plan_of : world -> list ascii -> list ascii -> option plan) (rows_of : world -> list ascii -> list ascii -> option rows) : Prop :=
  forall w w' db t pl pl', plan_of w db t = Some pl -> plan_of w' db t = Some pl' -> sources pl = sources pl' -> rows_of w db t = rows_of w' db t.
(* queries read no Delta tables *)
Definition no_delta {world : Type} (plan_of : world -> list ascii -> list ascii -> option plan) : Prop :=
  forall w db t pl uri v, plan_of w db t = Some pl -> ~ In (Delta uri v) (sources pl).
