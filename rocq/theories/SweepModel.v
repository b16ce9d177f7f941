(* The clean-up of dropped tables, object by object (src/object_store/wrapped.rs delete_in_prefix, src/utils.rs gc_databases), with several
   clean-ups and other writers at the same time. See SweepSpec.v for what the property means and SweepProps.v for the theorems.

   Simplifications: an object is a directory (the number of a table's uuid) and a name: LocModel.v has the paths; the objects of a directory
   are listed at one moment. *)
From Coq Require Import List Arith Bool.
Import ListNotations.

(* interface.rs 72-78 *)
Inductive status := Pending | Retry | Failed.
(* utils.rs 66: filter *)
Definition live (r : nat * status) : bool := match snd r with Failed => false | _ => true end.
(* utils.rs 83-87 *)
Definition next_status (s : status) : status := match s with Pending => Failed | _ => Retry end.

(* A running clean-up: the tables it has still to clean, the table it is at with the rest of the listing (None: the store reported an
   error in place of an object) *)
Record cleaner := { todo : list (nat * status); now : option (nat * status * list (option (nat * nat))) }.
Record state := { objs : list (nat * nat); rows : list (nat * status); cleaners : nat -> option cleaner }.
(* [strict]: deleting an object that is not there is an error (local files, memory, Google), otherwise a success (S3);
   [refused]: the catalog does not take the new status of a row (SysModel.v) *)
Record setup := { strict : bool; refused : bool }.

Definition keqb (a b : nat * nat) : bool := (Nat.eqb (fst a) (fst b) && Nat.eqb (snd a) (snd b))%bool.
Definition without (k : nat * nat) (l : list (nat * nat)) : list (nat * nat) := filter (fun j => negb (keqb j k)) l.
Definition set_cleaner (st : state) (i : nat) (c : option cleaner) : state :=
  {| objs := objs st; rows := rows st; cleaners := fun j => if Nat.eqb j i then c else cleaners st j |}.
Definition with_objs (st : state) (o : list (nat * nat)) : state := {| objs := o; rows := rows st; cleaners := cleaners st |}.
Definition with_rows (st : state) (r : list (nat * status)) : state := {| objs := objs st; rows := r; cleaners := cleaners st |}.
(* default.rs 574-583 *)
Definition update_dropped_table (c : setup) (u : nat) (s : status) (l : list (nat * status)) : list (nat * status) :=
  if refused c then l else map (fun r => if Nat.eqb (fst r) u then (u, s) else r) l.
(* default.rs 585-593 *)
Definition delete_dropped_table (u : nat) (l : list (nat * status)) : list (nat * status) := filter (fun r => negb (Nat.eqb (fst r) u)) l.

Inductive event :=
| Begin (i : nat) (chosen : nat -> bool)             (* clean-up i starts: utils.rs 56-68; [chosen]: the tables of the given database (VACUUM DATABASE,
                                                        physical.rs 708-716), all (main.rs 159, 250), or none if the metastore fails *)
| Listing (i : nat) (l : list (option (nat * nat)))  (* it lists the directory of the next table: wrapped.rs 126 *)
| Next (i : nat) (ok : bool)                         (* it goes on with what was listed; [ok]: the store takes the deletion *)
| Crash (i : nat)
| Put (k : nat * nat)                                (* somebody writes an object *)
| Drop (u : nat).                                    (* a table is dropped: a row is added *)

Definition step (c : setup) (st : state) (ev : event) : state :=
  match ev with
  | Begin i chosen =>
      match cleaners st i with
      | None => set_cleaner st i (Some {| todo := filter live (filter (fun r => chosen (fst r)) (rows st)); now := None |})
      | Some _ => st
      end
  | Listing i l =>
      match cleaners st i with
      | Some {| todo := (u, s) :: rest; now := None |} => set_cleaner st i (Some {| todo := rest; now := Some (u, s, l) |})
      | _ => st
      end
  | Next i ok =>
      match cleaners st i with
      | None => st
      | Some x =>
          match now x with
          | None => match todo x with [] => set_cleaner st i None | _ => st end
          (* wrapped.rs 128: only Ok is looked at *)
          | Some (u, s, None :: l) => set_cleaner st i (Some {| todo := todo x; now := Some (u, s, l) |})
          (* wrapped.rs 129 *)
          | Some (u, s, Some k :: l) =>
              if (ok && (existsb (keqb k) (objs st) || negb (strict c)))%bool
              then set_cleaner (with_objs st (without k (objs st))) i (Some {| todo := todo x; now := Some (u, s, l) |})
              (* utils.rs 78-99 *)
              else set_cleaner (with_rows st (update_dropped_table c u (next_status s) (rows st))) i (Some {| todo := todo x; now := None |})
          (* wrapped.rs 132, utils.rs 100-110 *)
          | Some (u, s, []) => set_cleaner (with_rows st (delete_dropped_table u (rows st))) i (Some {| todo := todo x; now := None |})
          end
      end
  | Crash i => set_cleaner st i None
  | Put k => with_objs st (k :: without k (objs st))
  | Drop u => if existsb (fun r => Nat.eqb (fst r) u) (rows st) then st else with_rows st (rows st ++ [(u, Pending)])
  end.
Definition init (o : list (nat * nat)) (rs : list (nat * status)) : state := {| objs := o; rows := rs; cleaners := fun _ => None |}.
Definition run (c : setup) (st : state) (evs : list event) : state := fold_left (step c) evs st.
