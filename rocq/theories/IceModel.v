(* The content of the metadata that an INSERT into an Iceberg table writes: /repo/src/context/iceberg.rs (54-419), and how
   such a table is found and read: /repo/src/catalog/metastore.rs (209-247).
   One insert at a time; concurrent inserts and crashes are in LakeModel.v. Requests to the store succeed.
   Avro, JSON and Parquet are not modelled: a metadata file holds a record, a manifest list its manifests with their data
   files, a data file its rows, each value with the id of its field. *)
From Coq Require Import List Arith Bool.
Import ListNotations.

Section Ice.
Context {V : Type}.
(* a column: id, name, required, type *)
Record field := { fid : nat; fname : nat; required : bool; ftype : nat }.
(* a data file: the partition spec of its manifest, its partition values, its rows *)
Record dfile := { f_spec : nat; f_part : list nat; f_rows : list (list (nat * V)) }.
Record snapshot := { s_id : nat; s_parent : option nat; s_schema : nat; s_seq : nat; s_files : list dfile }.
Record metadata := {
  schemas : list (nat * list field); current_schema_id : nat;
  specs : list (nat * list nat);                                 (* a spec: the fields it partitions by *)
  snapshots : list snapshot; main : option nat; last_sequence_number : nat }.
(* the names of metadata files: v{n}.metadata.json, which this program writes, and all others, which catalogs write *)
Inductive mname := Vn (n : nat) | Other (n : nat).
Definition mname_eqb (a b : mname) : bool :=
  match a, b with Vn x, Vn y => Nat.eqb x y | Other x, Other y => Nat.eqb x y | _, _ => false end.
Record dir := { hint : option nat; mfiles : list (mname * metadata) }.
Definition get (d : dir) (n : mname) : option metadata :=
  match find (fun x => mname_eqb (fst x) n) (mfiles d) with Some x => Some (snd x) | None => None end.
Definition assoc {A} (k : nat) (l : list (nat * A)) : option A :=
  match find (fun x => Nat.eqb (fst x) k) l with Some x => Some (snd x) | None => None end.
(* TableMetadata::current_schema; the id is always that of one of the schemas *)
Definition current_schema (m : metadata) : list field := match assoc (current_schema_id m) (schemas m) with Some fs => fs | None => [] end.
(* TableMetadata::current_snapshot *)
Definition current_snapshot (m : metadata) : option snapshot :=
  match main m with Some i => find (fun s => Nat.eqb (s_id s) i) (snapshots m) | None => None end.

(* the columns of the rows to be inserted: name, required, type *)
Record column := { c_name : nat; c_required : bool; c_type : nat }.
(* iceberg.rs:69-88 assign_field_ids *)
Fixpoint assign_field_ids (n : nat) (cs : list column) : list field :=
  match cs with
  | [] => []
  | c :: cs' => {| fid := n; fname := c_name c; required := c_required c; ftype := c_type c |} :: assign_field_ids (S n) cs'
  end.
(* iceberg.rs:90-119 is_schema_aligned: count, required, type; nested types are numbers here *)
Fixpoint fields_ok (old new : list field) : bool :=
  match old, new with
  | o :: old', n :: new' => negb (required o && negb (required n)) && Nat.eqb (ftype o) (ftype n) && fields_ok old' new'
  | _, _ => true
  end.
Definition is_schema_aligned (cs : list column) (old : list field) : bool :=
  let new := assign_field_ids 1 cs in
  if negb (Nat.eqb (length old) (length new)) then false else fields_ok old new.
(* iceberg.rs:54-67 create_empty_metadata: one schema and one spec with the id 0, no snapshot *)
Definition create_empty_metadata (fs : list field) : metadata :=
  {| schemas := [(0, fs)]; current_schema_id := 0; specs := [(0, [])]; snapshots := []; main := None; last_sequence_number := 0 |}.
(* iceberg.rs:122-141 update_metadata_snapshot: add_snapshot refuses an id that is there, set_ref "main" *)
Definition update_metadata_snapshot (m : metadata) (s : snapshot) : option metadata :=
  if existsb (fun x => Nat.eqb (s_id x) (s_id s)) (snapshots m) then None
  else Some {| schemas := schemas m; current_schema_id := current_schema_id m; specs := specs m;
               snapshots := snapshots m ++ [s]; main := Some (s_id s); last_sequence_number := s_seq s |}.
(* the Parquet writer takes the ids of the fields of the schema it is given, column by column *)
Definition write_row (fs : list field) (r : list V) : list (nat * V) := combine (map fid fs) r.
(* iceberg.rs:157-384 record_batches_to_iceberg. [id]: the random id of the snapshot. The directory is that of the table's
   location (table.metadata().location()); the metadata of the table itself are not used for anything else. *)
Definition record_batches_to_iceberg (d : dir) (cs : list column) (rows : list (list V)) (id : nat) : dir * bool :=
  let base :=                                                    (* lines 168-231 *)
    match hint d with
    | Some h =>
        match get d (Vn h) with
        | Some m => if is_schema_aligned cs (current_schema m) then Some (m, current_schema m) else None
        | None => None
        end
    | None => let fs := assign_field_ids 1 cs in Some (create_empty_metadata fs, fs)
    end in
  match base with
  | None => (d, false)
  | Some (m, fs) =>
      (* lines 233-301: one data file, partition Struct::empty(), spec id 0 *)
      let new := {| f_spec := 0; f_part := []; f_rows := map (write_row fs) rows |} in
      (* lines 303-345: the manifests of the current snapshot and the new one; schema id DEFAULT_SCHEMA_ID = 0 (line 155); the
         builder of the snapshot is not given a parent *)
      let files := match current_snapshot m with Some s => s_files s ++ [new] | None => [new] end in
      let s := {| s_id := id; s_parent := None; s_schema := 0; s_seq := last_sequence_number m + 1; s_files := files |} in
      match update_metadata_snapshot m s with
      | None => (d, false)
      | Some m' =>
          let v := match hint d with Some h => h + 1 | None => 0 end in
          match get d (Vn v) with
          | Some _ => (d, false)                                 (* write_exclusive *)
          | None => ({| hint := Some v; mfiles := mfiles d ++ [(Vn v, m')] |}, true)
          end
      end
  end.

(* Reading. metastore.rs:232-247: the table is read from the metadata file that the catalog names (StaticTable), not from the
   newest. [read]: IcebergTableProvider has the columns of the current schema; the scan (iceberg-rust, a dependency) takes the
   schema that the snapshot names and finds every column in it by its name. *)
Fixpoint map_err {A B} (f : A -> option B) (l : list A) : option (list B) :=
  match l with
  | [] => Some []
  | a :: l' => match f a, map_err f l' with Some b, Some r => Some (b :: r) | _, _ => None end
  end.
Definition read (m : metadata) : option (list (list (option V))) :=
  match main m with
  | None => Some []
  | Some _ =>
      match current_snapshot m with
      | None => None
      | Some s =>
          match assoc (s_schema s) (schemas m) with
          | None => None
          | Some fs =>
              match map_err (fun c => find (fun f => Nat.eqb (fname f) (fname c)) fs) (current_schema m) with
              | None => None
              | Some sel => Some (map (fun r => map (fun f => assoc (fid f) r) sel) (flat_map f_rows (s_files s)))
              end
          end
      end
  end.
(* SELECT * from a table registered with this metadata file *)
Definition select (d : dir) (n : mname) : option (list (list (option V))) := match get d n with Some m => read m | None => None end.
End Ice.
Arguments dfile : clear implicits. Arguments snapshot : clear implicits. Arguments metadata : clear implicits. Arguments dir : clear implicits.
