(* Iceberg tables as other programs know them. *)
From Coq Require Import List Arith Bool.
From Verif Require Import IceModel.
Import ListNotations.

Section S.
Context {V : Type}.
(* metadata as every Iceberg program writes them: ids of schemas and snapshots are unique, the current schema is one of the
   schemas, the names and ids of its columns are unique, the current snapshot is one of the snapshots, and sequence numbers
   do not exceed the last; a row of a data file has at most one value for a column *)
Record valid (m : metadata V) : Prop := {
  v_schemas : NoDup (map fst (schemas m));
  v_current : exists fs, In (current_schema_id m, fs) (schemas m);
  v_fields : forall i fs, In (i, fs) (schemas m) -> NoDup (map fname fs) /\ NoDup (map fid fs);
  v_snapshots : NoDup (map s_id (snapshots m));
  v_main : forall i, main m = Some i -> In i (map s_id (snapshots m));
  v_seq : Forall (fun s => s_seq s <= last_sequence_number m) (snapshots m);
  v_rows : forall s f r, In s (snapshots m) -> In f (s_files s) -> In r (f_rows f) -> NoDup (map fst r) }.
(* a directory: its files are valid, no two have the same name *)
Definition valid_dir (d : dir V) : Prop := NoDup (map fst (mfiles d)) /\ Forall (fun x => valid (snd x)) (mfiles d).
(* the content of a table, by the names of its columns: what the files of the current snapshot hold for the columns of the
   current schema *)
Inductive holds (m : metadata V) : list (list (option V)) -> Prop :=
| holds_none fs : main m = None -> In (current_schema_id m, fs) (schemas m) -> holds m []
| holds_some i s fs l : main m = Some i -> In s (snapshots m) -> s_id s = i -> In (current_schema_id m, fs) (schemas m) ->
    Forall2 (fun r r' => Forall2 (fun f v => (forall x, v = Some x -> In (fid f, x) r) /\ (v = None -> ~ In (fid f) (map fst r))) fs r')
            (flat_map f_rows (s_files s)) l ->
    holds m l.
(* every data file has one partition value for each field of the spec that it names *)
Definition partitions_fit (m : metadata V) : Prop :=
  forall s f, In s (snapshots m) -> In f (s_files s) -> exists sp, In (f_spec f, sp) (specs m) /\ length sp = length (f_part f).
End S.
