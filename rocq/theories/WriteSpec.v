(* What writing a table must achieve, without reference to how it is done. *)
From Coq Require Import List Arith Bool Permutation.
From Verif Require Import WriteModel.
Import ListNotations.

Section S.
Context {R : Type}.
(* the rows a query yields, in order: all partitions, all batches *)
Definition query_rows (parts : list (list (option (list R)))) : list R :=
  concat (map (fun b => match b with Some rs => rs | None => [] end) (concat parts)).
(* no batch is an error *)
Definition no_error (parts : list (list (option (list R)))) : Prop := Forall (fun b => b <> None) (concat parts).
(* the rows of a table, in the order of its files *)
Definition table_rows (t : list (file R)) : list R := flat_map (@rows R) t.
(* no two files of a table have the same path, and none was written by the statement with this uuid before *)
Definition good_table (t : list (file R)) (uuid : nat) : Prop :=
  NoDup (map (@path R) t) /\ Forall (fun f => fst (path f) <> uuid) t.
(* the pruning is sound: a file that is not selected has no row for which the predicate is true *)
Definition prune_ok (p : R -> option bool) (t : list (file R)) (keep : list bool) : Prop :=
  Forall2 (fun f k => k = false -> forall r, In r (rows f) -> p r <> Some true) t keep.
(* the scan of the table yields all rows of the selected files, in any order and any batches, and no others *)
Definition scans_all (t : list (file R)) (keep : list bool) (scan : list (list (option (list R)))) : Prop :=
  Permutation (query_rows scan) (flat_map (fun fk : file R * bool => if snd fk then rows (fst fk) else []) (combine t keep)).
(* what a scan with a filter promises: at least all rows for which the filter is true *)
Definition scan_contract (p : R -> option bool) (t : list (file R)) (scan : list (list (option (list R)))) : Prop :=
  (forall r, In r (query_rows scan) -> In r (table_rows t)) /\ (forall r, In r (table_rows t) -> p r = Some true -> In r (query_rows scan)).
(* DELETE WHERE p keeps a row if p is false or unknown *)
Definition survives (p : R -> option bool) (r : R) : bool := match p r with Some true => false | _ => true end.
End S.

(* UPDATE: the new row *)
Section U.
Context {V : Type}.
Inductive assigned (es : list (list V -> option V)) (r : list V) : list V -> Prop :=
| assigned_ r' : Forall2 (fun e v => e r = Some v) es r' -> assigned es r r'.
Inductive updated (w : option (list V -> option bool)) (es : list (list V -> option V)) (r : list V) : list V -> Prop :=
| upd_sel r' : match w with Some p => p r = Some true | None => True end -> assigned es r r' -> updated w es r r'
| upd_not p : w = Some p -> p r <> Some true -> updated w es r r.
End U.

(* the parts of an upload: what was stored, in order *)
Definition part_of {B} (c : call B) : list (list B) := match c with PutPart d => [d] | _ => [] end.
Definition parts_of {B} (cs : list (call B)) : list (list B) := flat_map part_of cs.
Definition finished {B} (cs : list (call B)) : Prop := In Complete cs \/ In Abort cs.
