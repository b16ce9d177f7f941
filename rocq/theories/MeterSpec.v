(* What somebody who reads the metrics of the range cache expects of them. *)
From Coq Require Import Ascii String List Arith.
From Verif Require Import CacheModel MeterModel.
Import ListNotations.

Definition sum (l : list nat) : nat := fold_right Nat.add 0 l.
(* these are all the reads that have been started, each once *)
Definition all_reads (st : state) (is : list nat) : Prop := NoDup is /\ forall i, In i is <-> readers st i <> None.
(* the read [i] asks for the bytes s..e *)
Definition asks (st : state) (i : nat) (se : nat * nat) : Prop :=
  exists r, readers st i = Some r /\ r_start r = fst se /\ r_end r = snd se.
(* the read [i] has returned [d] *)
Definition gave (st : state) (i : nat) (d : list nat) : Prop := exists r, readers st i = Some r /\ r_pc r = PDone d.
(* the bytes a..b of the object [p], as far as there are any *)
Definition part (o : nat -> option (list nat)) (q : nat * nat * nat) : list nat :=
  match q with (p, a, b) => match o p with Some d => firstn (b - a) (skipn a d) | None => [] end end.
(* the bytes of the entry [k] if it goes away from one moment to the next, and nothing takes its place *)
Definition gone (st st' : state) (k : nat * nat) : nat :=
  match cache st k, cache st' k with Some (Mem d), None => length d | Some (File _ n), None => n | _, _ => 0 end.
(* what goes away from these entries in a history *)
Fixpoint gone_in (h : nat -> nat) (cs : nat) (ks : list (nat * nat)) (st : state) (evs : list event) : nat :=
  match evs with
  | [] => 0
  | ev :: evs' => sum (map (gone st (step h cs st ev)) ks) + gone_in h cs ks (step h cs st ev) evs'
  end.
(* these entries are all that there are in a history *)
Fixpoint all_entries (h : nat -> nat) (cs : nat) (ks : list (nat * nat)) (st : state) (evs : list event) : Prop :=
  (forall k, cache st k <> None -> In k ks) /\
  match evs with [] => True | ev :: evs' => all_entries h cs ks (step h cs st ev) evs' end.
(* no object changes, and the network works *)
Definition steady (ev : event) : Prop :=
  match ev with EPut _ _ | EDelete _ => False | EStep _ net _ => net = true | _ => True end.
Definition untouched_by (p : nat) (ev : event) : Prop :=
  match ev with EPut q _ => q <> p | EDelete q => q <> p | _ => True end.

(* the name of a call, and what became of it *)
Local Open Scope string_scope.
Definition call_name (c : call) : string :=
  match c with
  | Put => "put" | PutMultipart => "put_multipart" | PutMultipartOpts => "put_multipart" | Get _ => "get" | Head => "head"
  | Delete => "delete" | DeleteStream => "delete_stream" | MeterModel.List => "list"
  | ListWithDelimiter => "list_with_delimiter" | Copy => "copy" | CopyIfNotExists => "copy_if_not_exists"
  end.
Definition end_of (o : outcome) : status := match o with Success => SSuccess | NotFound _ | OtherError => SError end.
(* how many of the calls are called [name] and ended like [s] *)
Inductive made (name : string) (s : status) : list (call * outcome) -> nat -> Prop :=
| made_none : made name s [] 0
| made_one : forall c o l n, call_name c = name -> end_of o = s -> made name s l n -> made name s ((c, o) :: l) (S n)
| made_other : forall c o l n, call_name c <> name \/ end_of o <> s -> made name s l n -> made name s ((c, o) :: l) n.
(* calls whose end is known when they return, and whose failure is not part of normal operation *)
Definition ordinary (c : call) (o : outcome) : Prop :=
  match c with
  | PutMultipartOpts | DeleteStream | MeterModel.List => False
  | Get _ => forall p, o = NotFound p -> forall q, p <> q ++ "_last_checkpoint"
  | _ => True
  end.
