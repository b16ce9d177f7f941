(* VACUUM TABLE, with the files of the table, its log and its recorded versions, while other statements write:
   /repo/src/context/physical.rs (717-768: VACUUM, 667-700: TRUNCATE, 216-485: the other writes), /repo/src/context/delta.rs (383-442),
   /repo/src/repository/default.rs (283-328: delete_old_versions, create_new_version), with the vacuum of delta-rs 0.23 (a dependency):
   it deletes the files of the store that the log has removed, and writes two empty versions (VACUUM START and VACUUM END) if there
   are any; /repo/tests/statements/vacuum.rs shows both.

   Simplifications: one table; a data file is a number, new ones are always new (UUIDs); a removal is always older than the vacuum (the
   retention of zero; a removal in the same millisecond is spared by delta-rs); requests to the store succeed. *)
From Coq Require Import List Arith Bool.
Import ListNotations.

Record commit := { adds : list nat; removes : list nat }.
Definition mem (n : nat) (l : list nat) : bool := existsb (Nat.eqb n) l.
Definition added (log : list commit) : list nat := flat_map adds log.
Definition removed (log : list commit) : list nat := flat_map removes log.
(* the files of a version: what its log has added and not removed (names are never used again) *)
Definition files (log : list commit) : list nat := filter (fun f => negb (mem f (removed log))) (added log).

Record state := {
  log : list commit;                      (* _delta_log *)
  store : list nat;                       (* the data files in the object store *)
  next : nat;
  pending : list (nat * (commit * bool)); (* statements that have written their files; true: its version will be recorded *)
  unrecorded : list (nat * nat);          (* statements that have committed a version and will record it *)
  recorded : list nat;                    (* table_version: the versions of the table, oldest row first *)
  vacuums : list (nat * list nat)         (* vacuums that have loaded the table, with the files that they will delete *)
}.
(* CREATE TABLE: version 0 has no files *)
Definition init : state :=
  {| log := [{| adds := []; removes := [] |}]; store := []; next := 0; pending := []; unrecorded := []; recorded := [0]; vacuums := [] |}.
Inductive event :=
| Write (w k : nat) (sel : nat -> bool)   (* INSERT, DELETE, UPDATE, uploads, flushes: the table is loaded, k files are written in place of the selected ones *)
| Truncate (w : nat)                      (* TRUNCATE: the table is loaded *)
| Commit (w : nat)
| Record_ (w : nat)                       (* create_new_version *)
| Load (x : nat)                          (* VACUUM: physical.rs:731-741, VacuumBuilder: which files are there to be deleted *)
| Delete (x : nat)                        (* VacuumPlan::execute *)
| Forget (x : nat).                       (* physical.rs:748-766: delete_old_versions *)
Definition get {A} (n : nat) (l : list (nat * A)) : option A := option_map snd (find (fun x => Nat.eqb (fst x) n) l).
Definition del {A} (n : nat) (l : list (nat * A)) : list (nat * A) := filter (fun x => negb (Nat.eqb (fst x) n)) l.
Definition empty : commit := {| adds := []; removes := [] |}.
Definition step (st : state) (e : event) : state :=
  match e with
  | Write w k sel =>
      match get w (pending st) with
      | Some _ => st
      | None =>
          {| log := log st; store := store st ++ seq (next st) k; next := next st + k;
             pending := (w, ({| adds := seq (next st) k; removes := filter sel (files (log st)) |}, true)) :: pending st;
             unrecorded := unrecorded st; recorded := recorded st; vacuums := vacuums st |}
      end
  | Truncate w =>                         (* physical.rs:697: commit_delta_table, and no create_new_version *)
      match get w (pending st) with
      | Some _ => st
      | None =>
          {| log := log st; store := store st; next := next st;
             pending := (w, ({| adds := []; removes := files (log st) |}, false)) :: pending st;
             unrecorded := unrecorded st; recorded := recorded st; vacuums := vacuums st |}
      end
  | Commit w =>
      match get w (pending st) with
      | None => st
      | Some (c, rec) =>
          (* the conflict check of delta-rs: a file that was removed in the meantime *)
          if existsb (fun f => mem f (removed (log st))) (removes c)
          then {| log := log st; store := store st; next := next st; pending := del w (pending st); unrecorded := unrecorded st; recorded := recorded st; vacuums := vacuums st |}
          else {| log := log st ++ [c]; store := store st; next := next st; pending := del w (pending st);
                  unrecorded := if rec then (w, length (log st)) :: unrecorded st else unrecorded st; recorded := recorded st; vacuums := vacuums st |}
      end
  | Record_ w =>
      match get w (unrecorded st) with
      | None => st
      | Some v => {| log := log st; store := store st; next := next st; pending := pending st; unrecorded := del w (unrecorded st); recorded := recorded st ++ [v]; vacuums := vacuums st |}
      end
  | Load x =>
      match get x (vacuums st) with
      | Some _ => st
      | None =>
          let plan := filter (fun f => mem f (removed (log st)) && negb (mem f (files (log st)))) (store st) in
          {| log := match plan with [] => log st | _ => log st ++ [empty] end;     (* VACUUM START *)
             store := store st; next := next st; pending := pending st; unrecorded := unrecorded st; recorded := recorded st; vacuums := (x, plan) :: vacuums st |}
      end
  | Delete x =>
      match get x (vacuums st) with
      | None => st
      | Some plan =>
          {| log := match plan with [] => log st | _ => log st ++ [empty] end;     (* VACUUM END *)
             store := filter (fun f => negb (mem f plan)) (store st); next := next st; pending := pending st; unrecorded := unrecorded st; recorded := recorded st;
             vacuums := vacuums st |}
      end
  | Forget x =>
      match get x (vacuums st) with
      | None => st
      | Some _ => {| log := log st; store := store st; next := next st; pending := pending st; unrecorded := unrecorded st;
                     recorded := match rev (recorded st) with [] => [] | v :: _ => [v] end; vacuums := del x (vacuums st) |}
      end
  end.
Definition run_from (st : state) (es : list event) : state := fold_left step es st.
Definition run (es : list event) : state := run_from init es.
