(* The integration tests of DDL statements (tests/statements/ddl.rs), run through the model of DdlModel.v. They are tests of the model, not proofs:
   they show that it gives the tables, the objects and the errors the project expects of the code. Statements are finished before the next one;
   the store and the catalog are the ones of make_context_with_pg. The tables of information_schema are left out. *)
From Coq Require Import String List Arith Bool.
From Verif Require Import CatalogModel DdlModel.
Import ListNotations.
Local Open Scope string_scope.

Definition D : string := "default".
Definition pub : string := "public".
(* columns of create_table_and_insert (statements/mod.rs) *)
Definition five : list (string * nat) := [("some_time", 1); ("some_value", 2); ("some_other_value", 3); ("some_bool_value", 4); ("some_int_value", 5)].
Definition key : list (string * nat) := [("key", 5)].
Definition parse_any (s : string) : string * string * string := (D, pub, s).
Definition do (u : nat) (st : stmt) (w : world) : world * bool :=
  let x := exec 100 Postgres (fun l => l) parse_any D u u st w in (after x w, snd x).
(* the world after statements, each of which has the outcome the test expects; statement n makes new tables at the location n *)
Fixpoint script (u : nat) (l : list (stmt * bool)) (w : world) : option world :=
  match l with
  | [] => Some w
  | (st, ok) :: l' => let '(w', ok') := do u st w in if Bool.eqb ok ok' then script (S u) l' w' else None
  end.
Definition start : world := {| cat := empty; data := fun _ => Absent; staged := [] |}.
(* build_context: the default database and its schema *)
Definition booted : world := fst (do 0 (SCreateDatabase D false) start).
Definition tables (s : string) (w : world) : list string := schema_tables D s w.
Definition create_and_insert (s t : string) : list (stmt * bool) := [(SCreateTable D s t false five, true); (SInsert D s t 7, true)].
Definition run_script (l : list (stmt * bool)) (f : world -> Prop) : Prop := match script 1 l booted with Some w => f w | None => False end.

(* ---- 138-290: test_create_table_move_and_drop ---- *)
Definition odd : string := "new_./-~:schema".
Definition two_tables : list (stmt * bool) := (create_and_insert pub "test_table_1" ++ create_and_insert pub "test_table_2")%list.
Definition renamed : list (stmt * bool) :=
  (two_tables ++ [(SRename D pub "test_table_1" D pub "test_table_2", false); (SRename D pub "test_table_1" D pub "test_table_3", true)])%list.
Definition moved : list (stmt * bool) :=
  (renamed ++ [(SRename D pub "test_table_3" D odd "test_table_3", false); (SCreateSchema odd false, true); (SRename D pub "test_table_3" D odd "test_table_3", true)])%list.
Example move_renamed : run_script renamed (fun w => tables pub w = ["test_table_3"; "test_table_2"]).
Proof. vm_compute. reflexivity. Qed.
Example move_moved : run_script moved (fun w => tables odd w = ["test_table_3"] /\ tables pub w = ["test_table_2"] /\
  (* it can be queried: its rows are the ones inserted before the renaming *)
  provider D D odd "test_table_3" w = Some (PDelta 1 1 [7])).
Proof. vm_compute. repeat split; reflexivity. Qed.
Definition dropped : list (stmt * bool) := (moved ++ [(SDropTable D odd "test_table_3" false, true)])%list.
Example move_dropped : run_script dropped (fun w => tables odd w = [] /\ tables pub w = ["test_table_2"]).
Proof. vm_compute. split; reflexivity. Qed.
Example move_dropped_both : run_script (dropped ++ [(SDropTable D pub "test_table_2" false, true)])%list (fun w => tables odd w = [] /\ tables pub w = [] /\ cols (cat w) = []).
Proof. vm_compute. repeat split; reflexivity. Qed.

(* ---- 296-452: test_create_table_drop_schema ---- *)
Definition six_tables : list (stmt * bool) :=
  ((SCreateSchema "new_schema" false, true) ::
   flat_map (fun t => create_and_insert pub t ++ create_and_insert "new_schema" t) ["table_1"; "table_2"; "table_3"])%list.
Definition three : list string := ["table_1"; "table_2"; "table_3"].
Example drop_schema_before : run_script six_tables (fun w => tables pub w = three /\ tables "new_schema" w = three).
Proof. vm_compute. split; reflexivity. Qed.
Definition no_public : list (stmt * bool) := (six_tables ++ [(SDropSchema D pub false, true)])%list.
(* the tables of public were made by the statements 2, 6 and 10, the others by 4, 8 and 12: their objects are gone, or there *)
Example drop_schema_public : run_script no_public (fun w => tables pub w = [] /\ tables "new_schema" w = three /\
  map (data w) [2; 6; 10] = [Absent; Absent; Absent] /\ map (data w) [4; 8; 12] = [Delta 1 [7]; Delta 1 [7]; Delta 1 [7]]).
Proof. vm_compute. repeat split; reflexivity. Qed.
Definition no_schema : list (stmt * bool) := (no_public ++ [(SDropSchema D "new_schema" false, true)])%list.
Example drop_schema_both : run_script no_schema (fun w => tbls (cat w) = [] /\ colls (cat w) = []).
Proof. vm_compute. split; reflexivity. Qed.
Example drop_schema_recreate :
  run_script (no_schema ++ [(SCreateSchema pub false, true); (SCreateTable D pub "table_1" false key, true)])%list (fun w => tables pub w = ["table_1"]).
Proof. vm_compute. reflexivity. Qed.

(* ---- 456-486: test_create_table_schema_already_exists ---- *)
Example already_exists :
  run_script [(SCreateTable D pub "some_table" false key, true); (SCreateTable D pub "some_table" false key, false); (SCreateSchema pub false, false)]
    (fun w => tables pub w = ["some_table"]).
Proof. vm_compute. reflexivity. Qed.

(* ---- 488-515: test_create_table_in_staging_schema ---- *)
Example in_staging :
  run_script [(SCreateTable D pub "some_table" false key, true); (SCreateTable D staging "some_table" false key, false); (SDropSchema D staging false, false);
              (SRename D pub "some_table" D staging "some_table", false)] (fun w => tables pub w = ["some_table"]).
Proof. vm_compute. reflexivity. Qed.

(* ---- tests/statements/convert.rs: Parquet files at the location 50 are converted twice; the second statement does not fail ---- *)
Definition flat : world := {| cat := cat booted; data := fun l => if Nat.eqb l 50 then Raw 9 else data booted l; staged := [] |}.
Definition two_columns : list (string * nat) := [("column1", 5); ("column2", 2)].
Example convert_twice :
  match script 1 [(SConvert 50 D pub "table_converted" two_columns, true); (SConvert 50 D pub "table_converted" two_columns, true)] flat with
  | Some w => tables pub w = ["table_converted"] /\ provider D D pub "table_converted" w = Some (PDelta 50 0 [9])
  | None => False
  end.
Proof. vm_compute. split; reflexivity. Qed.

(* ---- tests/statements/truncate.rs ---- *)
Example truncate_table :
  run_script (create_and_insert pub "table_1" ++ [(STruncate D pub "table_1", true)])%list
    (fun w => provider D D pub "table_1" w = Some (PDelta 1 2 [])).
Proof. vm_compute. reflexivity. Qed.

(* ---- src/context/physical.rs: test_create_table_if_not_exists, test_drop_table_if_exists ---- *)
Example create_if_not_exists :
  run_script [(SCreateTableAs D pub "test_table" false two_columns 7, true); (SCreateTableAs D pub "test_table" false two_columns 7, false);
              (SCreateTableAs D pub "test_table" true two_columns 7, true)] (fun w => provider D D pub "test_table" w = Some (PDelta 1 1 [7])).
Proof. vm_compute. reflexivity. Qed.
Example drop_if_exists :
  run_script [(SDropTable D pub "test_table" false, false); (SDropTable D pub "test_table" true, true)] (fun w => tables pub w = []).
Proof. vm_compute. reflexivity. Qed.
