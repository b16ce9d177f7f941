(* How the files of a write get from the temporary directory to the object store: /repo/src/context/delta.rs (152-265: the second half of
   plan_to_delta_adds), /repo/src/object_store/utils.rs (8-45: fast_upload), and the commit that follows when all of them are there.
   The tasks of one statement run at the same time; each may fail at any request, the statement may be cancelled (its future is
   dropped, its tasks go on), and the process may stop at any point.

   Simplifications: file names are the numbers of the parts; the turns of the multipart loop that only read are left out (WriteModel.v has
   them); temporary files can be deleted; what has been written is not lost by the machine. *)
From Coq Require Import List Arith Bool.
Import ListNotations.

Section Write.
Variable limit : nat.                       (* PARTITION_FILE_UPLOAD_MAX_CONCURRENCY: delta.rs:51 *)
Variable local : bool.                      (* local_data_dir is given *)
Variable content : nat -> list nat.         (* the temporary files, by part *)
Variable total : nat.                       (* the number of parts *)

Inductive phase := Waiting | Spawned | Sized (size : nat) | Copying (size n : nat) | Copied (size : nat) | Uploading (size n : nat) | Done (size : nat) | Failed.
Record state := {
  phases : nat -> phase;
  temp : nat -> option (list nat);          (* the temporary directory *)
  store : nat -> option (list nat);         (* the objects that can be seen in the store *)
  spawned : nat;                            (* the parts below have been given to tasks *)
  ended : bool;                             (* the statement is over *)
  committed : list (nat * nat)              (* the files that the log has added, with their sizes *)
}.
Definition init : state :=
  {| phases := fun _ => Waiting; temp := fun i => if Nat.ltb i total then Some (content i) else None; store := fun _ => None; spawned := 0; ended := false; committed := [] |}.
Inductive renamed := ROk | RCross | RErr.   (* RCross: error 18, another file system *)
Inductive event :=
| Spawn                       (* delta.rs:161-166: the next part, when there is a permit *)
| Size (i : nat) (ok : bool)  (* 175-181 *)
| Rename (i : nat) (r : renamed)   (* utils.rs:24 *)
| Copy (i k : nat)            (* utils.rs:30: some more bytes *)
| CopyEnd (i : nat) (ok : bool)
| Remove (i : nat) (ok : bool)     (* utils.rs:31 *)
| Open (i : nat) (ok : bool)  (* delta.rs:190-196 *)
| Part (i k : nat) (ok : bool)     (* 213-223 *)
| Complete (i : nat) (ok : bool)   (* 245 *)
| Finish (ok : bool)          (* join_all, and the commit of the statement *)
| Cancel.                     (* the future of the statement is dropped *)

Definition upd {A} (f : nat -> A) (i : nat) (a : A) : nat -> A := fun j => if Nat.eqb j i then a else f j.
Definition active (p : phase) : bool := match p with Waiting | Done _ | Failed => false | _ => true end.
Definition running (st : state) : nat := length (filter (fun i => active (phases st i)) (seq 0 (spawned st))).
Definition set_phase (st : state) (i : nat) (p : phase) : state :=
  {| phases := upd (phases st) i p; temp := temp st; store := store st; spawned := spawned st; ended := ended st; committed := committed st |}.
(* the task of part i is over, and its TempPath is dropped, which deletes what is at that path *)
Definition finish (st : state) (i : nat) (p : phase) : state :=
  {| phases := upd (phases st) i p; temp := upd (temp st) i None; store := store st; spawned := spawned st; ended := ended st; committed := committed st |}.
Definition put (st : state) (i : nat) (o : option (list nat)) : state :=
  {| phases := phases st; temp := temp st; store := upd (store st) i o; spawned := spawned st; ended := ended st; committed := committed st |}.
Definition untemp (st : state) (i : nat) : state :=
  {| phases := phases st; temp := upd (temp st) i None; store := store st; spawned := spawned st; ended := ended st; committed := committed st |}.
Definition size_of (p : phase) : option nat := match p with Done s => Some s | _ => None end.
Definition over (p : phase) : bool := match p with Done _ | Failed => true | _ => false end.
Definition step (st : state) (e : event) : state :=
  match e with
  | Spawn =>
      if negb (ended st) && Nat.ltb (spawned st) total && Nat.ltb (running st) limit
      then {| phases := upd (phases st) (spawned st) Spawned; temp := temp st; store := store st; spawned := S (spawned st); ended := ended st; committed := committed st |}
      else st
  | Size i ok =>
      match phases st i with
      | Spawned =>
          match temp st i with
          | Some c => if ok then set_phase st i (Sized (length c)) else finish st i Failed
          | None => finish st i Failed
          end
      | _ => st
      end
  | Rename i r =>
      match phases st i with
      | Sized s =>
          if local then
            match r with
            | ROk => finish (put st i (temp st i)) i (Done s)        (* in one step, and the temporary path is free *)
            | RCross => set_phase (put st i (Some [])) i (Copying s 0)    (* tokio::fs::copy creates the target *)
            | RErr => finish st i Failed
            end
          else st
      | _ => st
      end
  | Copy i k =>
      match phases st i, temp st i with
      | Copying s n, Some c => set_phase (put st i (Some (firstn (n + k) c))) i (Copying s (n + k))
      | _, _ => st
      end
  | CopyEnd i ok =>
      match phases st i, temp st i with
      | Copying s n, Some c => if ok then (if Nat.leb (length c) n then set_phase st i (Copied s) else st) else finish st i Failed
      | _, _ => st
      end
  | Remove i ok =>
      match phases st i with
      | Copied s => if ok then finish st i (Done s) else finish st i Failed
      | _ => st
      end
  | Open i ok =>
      match phases st i with
      | Sized s =>
          if local then st
          else if ok then set_phase (untemp st i) i (Uploading s 0)   (* AsyncFile::open consumes the TempPath: the open file has no name any more *)
          else finish st i Failed
      | _ => st
      end
  | Part i k ok =>
      match phases st i with
      | Uploading s n => if ok then set_phase st i (Uploading s (n + k)) else finish st i Failed       (* abort: nothing becomes visible *)
      | _ => st
      end
  | Complete i ok =>
      match phases st i with
      | Uploading s n =>
          if Nat.leb (length (content i)) n     (* the loop ends when the file is read and its last part is sent: C28 *)
          then if ok then finish (put st i (Some (firstn n (content i)))) i (Done s) else finish st i Failed
          else st
      | _ => st
      end
  | Finish ok =>
      if negb (ended st) && Nat.eqb (spawned st) total && forallb (fun i => over (phases st i)) (seq 0 total)
      then {| phases := phases st; temp := temp st; store := store st; spawned := spawned st; ended := true;
              committed := if forallb (fun i => match size_of (phases st i) with Some _ => true | None => false end) (seq 0 total) && ok
                           then flat_map (fun i => match size_of (phases st i) with Some s => [(i, s)] | None => [] end) (seq 0 total)
                           else committed st |}
      else st
  | Cancel =>
      if ended st then st
      else {| phases := phases st; temp := fun i => if Nat.ltb i (spawned st) then temp st i else None; store := store st; spawned := spawned st; ended := true; committed := committed st |}
  end.
Definition run (es : list event) : state := fold_left step es init.
End Write.
