(* The project's own generic tests of the catalog (/repo/src/repository/interface.rs:235-606), replayed through CatalogModel.v.
   These are tests of the model, not proofs. The id -1 of the tests, which no row has, is 99 here; Uuid::default() is 0. *)
From Coq Require Import String List Arith Bool.
From Verif Require Import CatalogModel.
Import ListNotations.
Local Open Scope string_scope.
Local Open Scope list_scope.

(* the rows of list_collections with ids, versions and columns (sqlite.rs:28-60): a join of the tables of the model *)
Definition t_row : Type := string * option (string * nat * nat * nat) * option (string * nat).
Definition t_listing (d : string) (c : catalog) : list t_row :=
  flat_map (fun k =>
    if in_db d k c then
      match filter (fun r => Nat.eqb (tb_coll r) (co_id k)) (tbls c) with
      | [] => [(co_name k, None, None)]
      | l => flat_map (fun r =>
               flat_map (fun v =>
                 let t := Some (tb_name r, tb_id r, tb_uuid r, ve_id v) in
                 match filter (fun x => Nat.eqb (cl_ver x) (ve_id v)) (cols c) with
                 | [] => [(co_name k, t, None)]
                 | xs => map (fun x => (co_name k, t, Some (cl_name x, cl_type x))) xs
                 end)
               (filter (fun v => Nat.eqb (ve_tbl v) (tb_id r) && is_latest_sqlite v c) (vers c))) l
      end
    else []) (colls c).

Definition t_lim : nat := 100.
Definition t_date64 : nat := 1.
Definition t_float64 : nat := 2.
(* interface.rs:235-274 make_database_with_single_table *)
Definition t_c1 := fst (create_database "testdb" empty).
Definition t_c2 := fst (create_collection 1 "public" t_c1).
Definition t_c3 := fst (create_table t_lim 1 "empty_table" [] 0 10 t_c2).
Definition t_c4 := fst (create_collection 1 "testcol" t_c3).
Definition t_c5 := fst (create_table t_lim 2 "testtable" [("date", t_date64); ("value", t_float64)] 0 11 t_c4).
(* interface.rs:301-339 expected *)
Definition t_expected (version : nat) (coll t : string) : list t_row :=
  [("public", Some ("empty_table", 1, 0, 1), None);
   (coll, Some (t, 2, 0, version), Some ("date", t_date64));
   (coll, Some (t, 2, 0, version), Some ("value", t_float64))].

Example t_tables_empty : t_listing "testdb" empty = []. Proof. reflexivity. Qed.
Example t_created :
  (snd (create_database "testdb" empty), snd (create_collection 1 "public" t_c1),
   snd (create_table t_lim 1 "empty_table" [] 0 10 t_c2), snd (create_collection 1 "testcol" t_c3),
   snd (create_table t_lim 2 "testtable" [("date", t_date64); ("value", t_float64)] 0 11 t_c4))
  = (Ok 1, Ok 1, Ok (1, 1), Ok 2, Ok (2, 2)).
Proof. vm_compute. reflexivity. Qed.
(* interface.rs:341-398 test_create_database_collection_table *)
Example t_all_columns : t_listing "testdb" t_c5 = t_expected 2 "testcol" "testtable". Proof. vm_compute. reflexivity. Qed.
Definition t_c6 := fst (create_new_version 0 1 12 t_c5).
Example t_new_version : snd (create_new_version 0 1 12 t_c5) = Ok 3. Proof. vm_compute. reflexivity. Qed.
Example t_latest_columns : t_listing "testdb" t_c6 = t_expected 3 "testcol" "testtable". Proof. vm_compute. reflexivity. Qed.
Example t_all_versions : map ve_id (filter (fun v => Nat.eqb (ve_tbl v) 2) (vers t_c6)) = [2; 3]. Proof. vm_compute. reflexivity. Qed.
(* interface.rs:400-484 test_create_functions: the details are numbered 7 and 8 *)
Definition t_c7 := fst (create_function 1 "testfun" false 7 t_c6).
Definition t_c8 := fst (create_function 1 "testfun" true 8 t_c7).
Example t_functions :
  (snd (create_function 1 "testfun" false 7 t_c6), get_all_functions 1 t_c7, map fn_id (fns t_c7)) = (Ok tt, [("testfun", 7)], [1]) /\
  (snd (create_function 1 "testfun" true 8 t_c7), get_all_functions 1 t_c8, map fn_id (fns t_c8)) = (Ok tt, [("testfun", 8)], [1]).
Proof. vm_compute. split; reflexivity. Qed.
(* interface.rs:486-544 test_rename_table *)
Definition t_c9 := fst (rename_table 2 "testtable2" None t_c8).
Example t_renamed : t_listing "testdb" t_c9 = t_expected 3 "testcol" "testtable2". Proof. vm_compute. reflexivity. Qed.
Definition t_c10 := fst (create_collection 1 "testcol2" t_c9).
Definition t_c11 := fst (rename_table 2 "testtable2" (Some 3) t_c10).
Example t_moved :
  t_listing "testdb" t_c11
  = [("public", Some ("empty_table", 1, 0, 1), None); ("testcol", None, None);
     ("testcol2", Some ("testtable2", 2, 0, 3), Some ("date", t_date64));
     ("testcol2", Some ("testtable2", 2, 0, 3), Some ("value", t_float64))].
Proof. vm_compute. reflexivity. Qed.
(* interface.rs:546-605 test_error_propagation *)
Definition t_c12 := fst (create_table t_lim 2 "testtable2" [] 0 13 t_c11).
Example t_errors :
  (snd (rename_table 99 "doesntmatter" None t_c11), snd (rename_table 2 "doesntmatter" (Some 99) t_c11),
   get_collection "testdb" "testcol" t_c11, get_collection "testdb" "testcol2" t_c11,
   snd (create_table t_lim 3 "testtable2" [] 0 13 t_c11), snd (create_table t_lim 2 "testtable2" [] 0 13 t_c11),
   snd (rename_table 3 "testtable2" (Some 3) t_c12))
  = (Err RowNotFound, Err FkViolation, Ok 2, Ok 3, Err UniqueViolation, Ok (3, 4), Err UniqueViolation).
Proof. vm_compute. reflexivity. Qed.
