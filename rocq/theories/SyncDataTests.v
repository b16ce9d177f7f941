(* The cases of the project's own unit tests of squashing, merging, normalising, pruning and applying changes (sync/utils.rs, sync/planner.rs,
   sync/writer.rs), run through the model of SyncDataModel.v. They are tests of the model, not proofs: they show that it gives the rows the project
   expects of the code. Floats stand here as integers, ten times as large; rows are compared without their order, which the tests fix by sorting. *)
From Coq Require Import String List Arith ZArith Bool.
From Verif Require Import SyncDataModel.
Import ListNotations.

(* Int32, Utf8, Boolean, Float64; column c<n> has the name n *)
Definition INT : nat := 0.
Definition UTF8 : nat := 1.
Definition BOOL : nat := 2.
Definition FLOAT : nat := 3.
Definition old_pk (n t : nat) : column := {| c_role := OldPk; c_name := n; c_type := t |}.
Definition new_pk (n t : nat) : column := {| c_role := NewPk; c_name := n; c_type := t |}.
Definition val (n t : nat) : column := {| c_role := Value; c_name := n; c_type := t |}.
Definition chg (n : nat) : column := {| c_role := Changed; c_name := n; c_type := BOOL |}.
Definition i (z : Z) : value := VInt z.
Definition t (s : string) : value := VStr s.
Definition yes : value := VBool true.
Definition no : value := VBool false.
Definition N : value := VNull.

Definition mem (r : list value) (l : list (list value)) : bool := existsb (teqb r) l.
Definition same_rows (a b : list (list value)) : bool := Nat.eqb (length a) (length b) && forallb (fun r => mem r b) a && forallb (fun r => mem r a) b.
Open Scope Z_scope.
Open Scope string_scope.

(* ---- utils.rs 483-549: test_batch_squashing ---- *)
Definition squash_schema : list column := [old_pk 1 INT; new_pk 1 INT; val 2 FLOAT; chg 3; val 3 UTF8].
Definition squash_input : list (list value) :=
  [ [N; i 1; i 10; yes; t "one"]; [N; i 2; i 20; no; N]; [N; i 3; i 30; yes; t "three"]; [i 1; i 1; i 11; yes; N]; [i 2; i (-2); i 21; no; N];
    [i 3; i 6; N; no; N]; [i 4; i 4; i 44; yes; t "four"]; [i 5; i 5; i 50; no; t "five"]; [i (-2); i 3; i 30; yes; t "two"];
    [i 6; N; i 55; yes; t "five"]; [i 1; i 2; i 12; no; t "discarded"]; [i 5; N; N; no; N] ].
Example batch_squashing :
  squash_batches squash_schema [ {| rb_width := 5; rb_rows := squash_input |} ] =
  Some [ [N; i 2; i 12; yes; N]; [N; i 3; i 30; yes; t "two"]; [i 4; i 4; i 44; yes; t "four"]; [i 5; N; N; no; t "five"] ].
Proof. vm_compute. reflexivity. Qed.

(* ---- utils.rs 698-733: test_squash_align_nullability ---- *)
Example squash_align_nullability :
  squash_batches [old_pk 1 INT; new_pk 1 INT] [ {| rb_width := 2; rb_rows := [ [N; i 1] ] |}; {| rb_width := 2; rb_rows := [ [i 1; N] ] |} ] = Some [].
Proof. vm_compute. reflexivity. Qed.

(* ---- utils.rs 736-805: test_sync_filter ---- *)
Definition filter_schema : list column := [old_pk 1 INT; old_pk 2 FLOAT; new_pk 1 INT; new_pk 2 FLOAT].
Definition filter_syncs : list (list column * list (list value)) :=
  [ (filter_schema, [ [i 1; i 11; i 2; i 21]; [N; N; i 6; i 22] ]); (filter_schema, [ [i 0; i 31; N; N]; [i 4; i 32; i 3; i 1] ]) ].
Example sync_filter :
  construct_qualifier filter_syncs OldPk = Some [ (1%nat, (i 0, i 4)); (2%nat, (i 11, i 32)) ] /\
  construct_qualifier filter_syncs NewPk = Some [ (1%nat, (i 2, i 6)); (2%nat, (i 1, i 22)) ].
Proof. vm_compute. split; reflexivity. Qed.

(* ---- utils.rs 847-936: test_sync_pruning ---- *)
Definition prune_schema : list column := [old_pk 1 INT; old_pk 2 UTF8; new_pk 1 INT; new_pk 2 UTF8].
Definition prune_syncs : list (list column * list (list value)) :=
  [ (prune_schema, [ [i 20; t "ddd"; i 40; t "ccc"]; [N; N; i 30; t "bbb"] ]); (prune_schema, [ [i 10; t "aaa"; N; N]; [i 50; t "eee"; i 60; t "fff"] ]) ].
Definition prune_stats : fstats :=
  {| st_min := fun n => if Nat.eqb n 1 then Some [i 70; N; i 30] else Some [t "aa"; t "bb"; N];
     st_max := fun n => if Nat.eqb n 1 then Some [i 90; i 40; i 60] else Some [t "rr"; t "gg"; t "a"]; st_rows := [None; None; None] |}.
Example sync_pruning : get_prune_map prune_syncs prune_stats 3 = [false; true; false].
Proof. vm_compute. reflexivity. Qed.

(* ---- planner.rs 654-866: test_sync_merging ---- *)
Definition lower_schema : list column :=
  [old_pk 1 INT; new_pk 1 INT; val 3 UTF8; val 5 UTF8; chg 6; val 6 UTF8; val 7 UTF8; chg 8; val 8 UTF8; chg 10; val 10 UTF8].
Definition upper_schema : list column :=
  [old_pk 1 INT; new_pk 1 INT; val 4 UTF8; val 5 UTF8; val 6 UTF8; chg 7; val 7 UTF8; chg 9; val 9 UTF8; chg 10; val 10 UTF8].
Definition lower_row (o n : value) : list value :=
  [o; n; t "lower_c3"; t "lower_c5"; yes; t "lower_c6"; t "lower_c7"; yes; t "lower_c8"; yes; t "lower_c10"].
Definition upper_row (o n : value) : list value :=
  [o; n; t "upper_c4"; t "upper_c5"; t "upper_c6"; no; t "upper_c7"; no; t "upper_c9"; no; t "upper_c10"].
Definition lower_rows : list (list value) :=
  [lower_row N (i 1); lower_row N (i 2); lower_row N (i 3); lower_row (i 4) (i 5); lower_row (i 6) (i 7); lower_row (i 8) (i 9); lower_row (i 10) N].
Definition merged_schema : list column :=
  [old_pk 1 INT; new_pk 1 INT; chg 3; val 3 UTF8; val 5 UTF8; chg 6; val 6 UTF8; val 7 UTF8; chg 8; val 8 UTF8; chg 10; val 10 UTF8; chg 4; val 4 UTF8;
   chg 7; chg 9; val 9 UTF8].
(* the three kinds of rows of the expected tables: of the lower sync only, of the upper sync only, of both *)
Definition only_lower (o n : value) : list value :=
  [o; n; yes; t "lower_c3"; t "lower_c5"; yes; t "lower_c6"; t "lower_c7"; yes; t "lower_c8"; yes; t "lower_c10"; no; N; yes; no; N].
Definition only_upper (o n : value) : list value :=
  [o; n; no; N; t "upper_c5"; yes; t "upper_c6"; t "upper_c7"; no; N; no; t "upper_c10"; yes; t "upper_c4"; no; no; t "upper_c9"].
Definition of_both (o n : value) : list value :=
  [o; n; yes; t "lower_c3"; t "upper_c5"; yes; t "upper_c6"; t "upper_c7"; no; t "lower_c8"; no; t "upper_c10"; yes; t "upper_c4"; no; no; t "upper_c9"].
Definition union_upper : list (list value) := [upper_row N (i 11); upper_row N (i 12); upper_row N (i 13)].
Definition join_upper : list (list value) :=
  [upper_row N (i 11); upper_row (i 2) (i 12); upper_row (i 7) (i 13); upper_row (i 14) (i 15); upper_row (i 3) N; upper_row (i 9) N; upper_row (i 16) N].
Example sync_merging_union :
  fst (union_syncs BOOL lower_schema upper_schema lower_rows union_upper) = merged_schema /\
  same_rows (snd (union_syncs BOOL lower_schema upper_schema lower_rows union_upper))
    [only_lower N (i 1); only_lower N (i 2); only_lower N (i 3); only_upper N (i 11); only_upper N (i 12); only_upper N (i 13);
     only_lower (i 4) (i 5); only_lower (i 6) (i 7); only_lower (i 8) (i 9); only_lower (i 10) N] = true.
Proof. vm_compute. split; reflexivity. Qed.
Example sync_merging_join :
  fst (join_syncs BOOL lower_schema upper_schema lower_rows join_upper) = merged_schema /\
  same_rows (snd (join_syncs BOOL lower_schema upper_schema lower_rows join_upper))
    [of_both N N; only_lower N (i 1); only_upper N (i 11); of_both N (i 12); only_lower (i 4) (i 5); of_both (i 6) (i 13); of_both (i 8) N;
     only_lower (i 10) N; only_upper (i 14) (i 15); only_upper (i 16) N] = true.
Proof. vm_compute. split; reflexivity. Qed.
(* the code chooses the union for the first upper batch and the join for the second *)
Example sync_merging_choice : append_only upper_schema union_upper = true /\ append_only upper_schema join_upper = false.
Proof. vm_compute. split; reflexivity. Qed.

(* ---- planner.rs 869-916: test_sync_normalizing ---- *)
Definition norm_schema : list column := [old_pk 1 INT; new_pk 1 INT; val 2 UTF8].
Example sync_normalizing :
  same_rows
    (map (fun s => (n_pk s ++ [cell 2 (n_src s); VBool (n_upsert s)])%list)
         (normalize norm_schema [ [N; i 1; t "insert"]; [i 2; i 2; t "pk-preserving-update"]; [i 3; i 4; t "pk-changing-update"]; [i 5; N; t "delete"] ]))
    [ [i 1; t "insert"; yes]; [i 2; t "pk-preserving-update"; yes]; [i 3; t "pk-changing-update"; no]; [i 4; t "pk-changing-update"; yes];
      [i 5; t "delete"; no] ] = true.
Proof. vm_compute. reflexivity. Qed.

(* ---- writer.rs 929-1065: test_bulk_changes. Every range is a tenth of the one in the test. ---- *)
Definition bulk_schema : list column := [old_pk 1 INT; new_pk 1 INT; val 2 FLOAT].
Definition range (a n : nat) : list Z := map Z.of_nat (seq a n).
(* one sync: the old keys (None: NULLs) and the new keys, from a start, of a length *)
Definition bulk_batch (n : nat) (o : option nat) (s : nat) : rbatch :=
  {| rb_width := 3;
     rb_rows := map (fun p => [fst p; snd p; N]) (combine (match o with None => repeat N n | Some a => map i (range a n) end) (map i (range s n))) |}.
Definition no_stats : fstats := {| st_min := fun _ => None; st_max := fun _ => None; st_rows := [] |}.
(* one flush: the pending batches have one schema, so they are one item (writer.rs 232-255); every file is rewritten *)
Definition flush_bulk (sch : list column) (tcols : list nat) (table : list (list value)) (pending : list rbatch) : option (list (list value)) :=
  match pending with [] => Some table | _ => flush_rows BOOL (fun _ => [true]) no_stats tcols [table] [(sch, pending)] end.
Fixpoint bulk (freq : nat) (k : nat) (l : list rbatch) (pending : list rbatch) (table : list (list value)) : option (list (list value)) :=
  match l with
  | [] => flush_bulk bulk_schema [1; 2]%nat table pending
  | b :: l' =>
      let pending := (pending ++ [b])%list in
      if Nat.eqb (Nat.modulo (S k) freq) 0 then
        match flush_bulk bulk_schema [1; 2]%nat table pending with Some table' => bulk freq (S k) l' [] table' | None => None end
      else bulk freq (S k) l' pending table
  end.
(* COUNT, COUNT(DISTINCT), MIN and MAX: the keys are exactly a range *)
Definition keys_are (a n : nat) (r : option (list (list value))) : bool :=
  match r with Some rows => same_rows (map (fun r => [cell 0 r]) rows) (map (fun z => [i z]) (range a n)) | None => false end.
Definition every_freq (l : list rbatch) (a n : nat) : bool := forallb (fun f => keys_are a n (bulk f 0 l [] [])) [1; 2; 3; 4; 5]%nat.
Example bulk_insert_basic : every_freq [bulk_batch 50 None 0; bulk_batch 50 None 50] 0 100 = true.
Proof. vm_compute. reflexivity. Qed.
Definition insert_update : list rbatch := [bulk_batch 50 None 0; bulk_batch 30 (Some 0%nat) 100; bulk_batch 50 None 50; bulk_batch 70 (Some 30%nat) 130].
Example bulk_insert_update : every_freq insert_update 100 100 = true.
Proof. vm_compute. reflexivity. Qed.
Example bulk_insert_idempotent_update_idempotent : every_freq (insert_update ++ insert_update)%list 100 100 = true.
Proof. vm_compute. reflexivity. Qed.

(* ---- writer.rs 1069-1175: test_sync_pk_cycles ---- *)
Definition cycle_schema : list column := [old_pk 1 INT; new_pk 1 INT; chg 2; val 2 UTF8].
Definition cycle_batch (l : list (Z * Z * option string)) : rbatch :=
  {| rb_width := 4; rb_rows := map (fun p => [i (fst (fst p)); i (snd (fst p)); match snd p with Some _ => yes | None => no end;
                                              match snd p with Some s => t s | None => N end]) l |}.
Definition cycle_table : list (list value) := [ [i 1; t "a"]; [i 2; t "b"] ].
Definition cycled (l : list rbatch) : bool :=
  match flush_bulk cycle_schema [1; 2]%nat cycle_table l with Some rows => same_rows rows cycle_table | None => false end.
Example pk_cycle_1 : cycled [cycle_batch [(1, 1, None); (2, 2, None)]] = true. Proof. vm_compute. reflexivity. Qed.
Example pk_cycle_2 :
  cycled [cycle_batch [(1, 3, Some "a"); (2, 1, Some "b"); (3, 2, Some "a")]; cycle_batch [(1, 3, Some "b"); (2, 1, Some "a"); (3, 2, Some "b")]] = true.
Proof. vm_compute. reflexivity. Qed.
Example pk_cycle_3 :
  cycled [cycle_batch [(2, 3, Some "b")]; cycle_batch [(1, 2, Some "a")]; cycle_batch [(3, 1, Some "b")]; cycle_batch [(2, 3, Some "a")];
          cycle_batch [(1, 2, Some "b")]; cycle_batch [(3, 1, Some "a")]] = true.
Proof. vm_compute. reflexivity. Qed.
