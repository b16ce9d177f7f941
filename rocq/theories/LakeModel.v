(* Commits: the object store calls that create a file only if it is absent (src/object_store/wrapped.rs), commits to a Delta log by
   means of them, and inserts into an Iceberg table (src/context/iceberg.rs). *)
From Coq Require Import List Arith Bool.
Import ListNotations.

Definition upd {A} (k : nat) (v : A) (f : nat -> A) : nat -> A := fun x => if Nat.eqb x k then v else f x.

(* 1. The object store. A path is a number, a store maps it to the object's contents. Every call is atomic. *)
Section Store.
Context {D : Type}.
Notation store := (nat -> option D) (only parsing).
Inductive mode := Create | Overwrite.
(* the stores of the object_store crate: what the methods of the trait promise. The Boolean is whether the call succeeds. *)
Definition inner_put (s : store) (p : nat) (d : D) (m : mode) : store * bool :=
  match m, s p with
  | Create, Some _ => (s, false)                                 (* AlreadyExists *)
  | _, _ => (upd p (Some d) s, true)
  end.
Definition inner_copy (s : store) (from to : nat) : store * bool :=
  match s from with Some d => (upd to (Some d) s, true) | None => (s, false) end.
Definition inner_rename (s : store) (from to : nat) : store * bool :=
  match s from with
  | Some d => if Nat.eqb from to then (s, true) else (upd from None (upd to (Some d) s), true)
  | None => (s, false)
  end.
Definition inner_copy_if_not_exists (s : store) (from to : nat) : store * bool :=
  match s to with Some _ => (s, false) | None => inner_copy s from to end.
Definition inner_rename_if_not_exists (s : store) (from to : nat) : store * bool :=
  match s to with Some _ => (s, false) | None => inner_rename s from to end.

(* object_store_factory/src/lib.rs ObjectStoreConfig; for local stores the option disable_hardlinks. S3 is built with
   S3ConditionalPut::ETagMatch (aws.rs:150, 220), so put_opts with PutMode::Create is supported by all four. *)
Inductive config := Local (disable_hardlinks : bool) | Memory | AmazonS3 | GoogleCloudStorage.

(* wrapped.rs:149-173 *)
Definition put_opts (cfg : config) (s : store) (p : nat) (d : D) (m : mode) : store * bool :=
  match cfg with
  | Local true => inner_put s p d Overwrite
  | _ => inner_put s p d m
  end.
(* wrapped.rs:259-268. The S3 store without S3CopyIfNotExists returns NotImplemented. *)
Definition copy_if_not_exists (cfg : config) (s : store) (from to : nat) : store * bool :=
  match cfg with
  | Local true => inner_copy s from to
  | AmazonS3 => (s, false)
  | _ => inner_copy_if_not_exists s from to
  end.
(* wrapped.rs:273-290 *)
Definition rename_if_not_exists (cfg : config) (s : store) (from to : nat) : store * bool :=
  match cfg with
  | AmazonS3 => inner_rename s from to
  | Local true => inner_rename s from to
  | _ => inner_rename_if_not_exists s from to
  end.

(* the three calls as one type *)
Inductive create_call := PutNew (p : nat) (d : D) | CopyNew (from to : nat) | RenameNew (from to : nat).
Definition call_store (cfg : config) (s : store) (c : create_call) : store * bool :=
  match c with
  | PutNew p d => put_opts cfg s p d Create
  | CopyNew from to => copy_if_not_exists cfg s from to
  | RenameNew from to => rename_if_not_exists cfg s from to
  end.
End Store.

(* 2. Commits to a Delta log: any number of writers, each of which looks up the next version (delta.rs:429-440 by way of delta-rs,
   DeltaTable::update_state and CommitBuilder) and then puts the entry of that version with PutMode::Create (wrapped.rs:112-122 gives
   delta-rs a log store on top of put_opts). A writer whose put fails gets an error, or looks again; both are covered, as it may
   look again at any time. The entry of version v is at path v. *)
Section Log.
Context {D : Type}.
Inductive lev := LLook (w n : nat) | LCommit (w : nat) (d : D).
Record lstate := { log : nat -> option D; next : nat -> nat; done : list (nat * nat * D) }.
Definition lempty : lstate := {| log := fun _ => None; next := fun _ => 0; done := [] |}.
Definition lstep (cfg : config) (st : lstate) (e : lev) : lstate :=
  match e with
  | LLook w n =>                                                 (* a listing shows version n as the last one *)
      match log st n with
      | Some _ => {| log := log st; next := upd w (S n) (next st); done := done st |}
      | None => st
      end
  | LCommit w d =>
      let r := put_opts cfg (log st) (next st w) d Create in
      {| log := fst r; next := next st;
         done := if snd r then (w, next st w, d) :: done st else done st |}
  end.
Definition lrun (cfg : config) (st : lstate) (es : list lev) : lstate := fold_left (lstep cfg) es st.
End Log.
Arguments lev D : clear implicits. Arguments lstate D : clear implicits.

(* 3. Inserts into an Iceberg table: iceberg.rs record_batches_to_iceberg, one insert for each number. *)
Record field := { required : bool; ftype : nat }.                (* names play no part in the comparison *)
(* iceberg.rs:91-119 is_schema_aligned *)
Fixpoint fields_ok (old new : list field) : bool :=
  match old, new with
  | o :: old', n :: new' => negb (required o && negb (required n)) && Nat.eqb (ftype o) (ftype n) && fields_ok old' new'
  | _, _ => true                                                 (* izip! stops at the shorter *)
  end.
Definition is_schema_aligned (new old : list field) : bool :=
  if negb (Nat.eqb (length old) (length new)) then false else fields_ok old new.

(* the metadata of a version: its schema and the inserts in the manifests of its snapshot *)
Record meta := { schema : list field; contents : list nat }.
Inductive ipc :=
| Idle
| HintRead (h : option nat)                                      (* after lines 166-193 *)
| Based (h : option nat) (base : meta)                           (* after lines 194-232: the previous metadata, or an empty one *)
| MetaWritten (v : nat)                                          (* after lines 356-374 *)
| Succeeded (v : nat)                                            (* after lines 377-383 *)
| Failed.
Record istate := { metas : nat -> option meta; hint : option nat; inserts : nat -> ipc }.
Definition iempty : istate := {| metas := fun _ => None; hint := None; inserts := fun _ => Idle |}.

Inductive iev := IHint (w : nat) | IBase (w : nat) | IMeta (w : nat) | ISetHint (w : nat) | IStop (w : nat).
Definition set_pc (st : istate) (w : nat) (p : ipc) : istate := {| metas := metas st; hint := hint st; inserts := upd w p (inserts st) |}.
Section Iceberg.
Variable sch : nat -> list field.                                (* the schema of the rows of an insert *)
Definition istep (st : istate) (e : iev) : istate :=
  match e with
  | IHint w => match inserts st w with Idle => set_pc st w (HintRead (hint st)) | _ => st end
  | IBase w =>
      match inserts st w with
      | HintRead (Some h) =>
          match metas st h with
          | Some m => if is_schema_aligned (sch w) (schema m) then set_pc st w (Based (Some h) m) else set_pc st w Failed
          | None => set_pc st w Failed
          end
      | HintRead None => set_pc st w (Based None {| schema := sch w; contents := [] |})
      | _ => st
      end
  | IMeta w =>                                                   (* lines 233-374; data, manifest and manifest list have fresh names *)
      match inserts st w with
      | Based h m =>
          let v := match h with Some x => S x | None => 0 end in
          match metas st v with
          | Some _ => set_pc st w Failed                         (* write_exclusive: OptimisticConcurrencyError *)
          | None => {| metas := upd v (Some {| schema := schema m; contents := contents m ++ [w] |}) (metas st);
                       hint := hint st; inserts := upd w (MetaWritten v) (inserts st) |}
          end
      | _ => st
      end
  | ISetHint w =>
      match inserts st w with
      | MetaWritten v => {| metas := metas st; hint := Some v; inserts := upd w (Succeeded v) (inserts st) |}
      | _ => st
      end
  | IStop w =>                                                   (* the server stops, or a request to the store fails *)
      match inserts st w with
      | Succeeded _ => st
      | _ => set_pc st w Failed
      end
  end.
Definition irun (st : istate) (es : list iev) : istate := fold_left istep es st.
End Iceberg.
