(* C41-C44, C48, C49, C66, C72: the catalog. Model: CatalogModel.v; what the statements mean: CatalogSpec.v. *)
From Coq Require Import String List Arith Bool Lia Permutation.
Import ListNotations.
From Verif Require Import CatalogModel CatalogSpec CatalogProofs CatalogEffects.
Open Scope list_scope.
Open Scope string_scope.

(* C41: after any history there is at most one object of each name ... *)
Theorem c41_unique_names c : reachable c ->
  (forall d b b', has_db c d b -> has_db c d b' -> b = b') /\
  (forall d s k k', has_schema c d s k -> has_schema c d s k' -> k = k') /\
  (forall d s t i u i' u', has_table c d s t i u -> has_table c d s t i' u' -> i = i' /\ u = u') /\
  (forall d f x x', has_function c d f x -> has_function c d f x' -> x = x').
Proof.
  intros R. pose proof (wf_reachable c R) as W. split; [intros ? ? ?; apply (has_db_fun c W)|]. split; [intros ? ? ? ?; apply (has_schema_fun c W)|].
  split; [intros ? ? ? ? ? ? ?; apply (has_table_fun c W)|intros ? ? ? ?; apply (has_function_fun c W)].
Qed.
Print Assumptions c41_unique_names.
(* ... each object has one name ... *)
Theorem c41_one_name c : reachable c ->
  (forall d d' b, has_db c d b -> has_db c d' b -> d = d') /\
  (forall d s d' s' k, has_schema c d s k -> has_schema c d' s' k -> d = d' /\ s = s') /\
  (forall d s t i u d' s' t' u', has_table c d s t i u -> has_table c d' s' t' i u' -> d = d' /\ s = s' /\ t = t' /\ u = u').
Proof.
  intros R. pose proof (wf_reachable c R) as W. split; [intros ? ? ?; apply (has_db_name c W)|]. split; [intros ? ? ? ? ?; apply (has_schema_name c W)|].
  intros ? ? ? ? ? ? ? ? ?; apply (has_table_name c W).
Qed.
Print Assumptions c41_one_name.
(* ... and lookups find exactly what is there *)
Theorem c41_lookup c : reachable c ->
  (forall d, (exists b, get_database d c = Ok b /\ has_db c d b) \/ (get_database d c = Err RowNotFound /\ forall b, ~ has_db c d b)) /\
  (forall d s, (exists k, get_collection d s c = Ok k /\ has_schema c d s k) \/ (get_collection d s c = Err RowNotFound /\ forall k, ~ has_schema c d s k)) /\
  (forall d s t, (exists i u, get_table d s t c = Ok i /\ has_table c d s t i u) \/ (get_table d s t c = Err RowNotFound /\ forall i u, ~ has_table c d s t i u)).
Proof.
  intros R. pose proof (wf_reachable c R) as W. split; [|split].
  - intros d. destruct (get_database d c) as [b|e] eqn:E; [left; exists b; split; [reflexivity|apply (get_database_ok c W), E]|right].
    split; [|intros b B; apply (get_database_ok c W) in B; congruence]. unfold get_database in E. destruct (find _ _); congruence.
  - intros d s. destruct (get_collection d s c) as [b|e] eqn:E; [left; exists b; split; [reflexivity|apply (get_collection_ok c W), E]|right].
    split; [|intros b B; apply (get_collection_ok c W) in B; congruence]. unfold get_collection in E. destruct (find _ _); congruence.
  - intros d s t. destruct (get_table d s t c) as [i|e] eqn:E.
    + left. pose proof (proj1 (get_table_ok c W d s t i) E) as [u U]. exists i, u. split; [reflexivity|exact U].
    + right. split; [unfold get_table in E; destruct (find _ _); congruence|].
      intros i u U. pose proof (proj2 (get_table_ok c W d s t i) (ex_intro _ u U)). congruence.
Qed.
Print Assumptions c41_lookup.
(* creation succeeds exactly if the parent exists and the name is free, adds exactly the object, under a new identity; a failure changes
   nothing, but for a table whose columns cannot be stored: the table is there without columns *)
Theorem c41_create_database lim be d c c' ok : reachable c -> cstep lim be (CreateDb d) c = (c', ok) ->
  (ok = true <-> ~ exists b, has_db c d b) /\ (ok = false -> c' = c) /\
  (ok = true -> exists b, (forall d', ~ has_db c d' b) /\
     (forall d' b', has_db c' d' b' <-> has_db c d' b' \/ (d' = d /\ b' = b)) /\
     same_schemas c c' /\ same_tables c c' /\ same_functions c c' /\ same_versions c c' /\ same_columns c c').
Proof. intros R. exact (create_db_effect lim be d c c' ok (wf_reachable c R)). Qed.
Print Assumptions c41_create_database.
Theorem c41_create_schema lim be d s c c' ok : reachable c -> cstep lim be (CreateSchema d s) c = (c', ok) ->
  (ok = true <-> s <> "staging" /\ (exists b, has_db c d b) /\ ~ exists k, has_schema c d s k) /\ (ok = false -> c' = c) /\
  (ok = true -> exists k, (forall d' s', ~ has_schema c d' s' k) /\
     (forall d' s' k', has_schema c' d' s' k' <-> has_schema c d' s' k' \/ (d' = d /\ s' = s /\ k' = k)) /\
     same_dbs c c' /\ same_tables c c' /\ same_functions c c' /\ same_versions c c' /\ same_columns c c').
Proof. intros R. exact (create_schema_effect lim be d s c c' ok (wf_reachable c R)). Qed.
Print Assumptions c41_create_schema.
Theorem c41_create_table lim be d s t fields u now c c' ok : reachable c -> cstep lim be (CreateTable d s t fields u now) c = (c', ok) ->
  let free := s <> "staging" /\ (exists k, has_schema c d s k) /\ ~ exists i u', has_table c d s t i u' in
  (ok = true <-> free /\ fields_ok lim fields) /\ (~ free -> c' = c) /\
  (free -> exists i v, adds_table c c' d s t i u v now /\ same_dbs c c' /\ same_schemas c c' /\ same_functions c c' /\
     (forall v' name type, has_column c' v' name type <-> has_column c v' name type \/ (ok = true /\ v' = v /\ In (name, type) fields)) /\
     (forall name type, ~ has_column c v name type)).
Proof. intros R. exact (create_table_effect lim be d s t fields u now c c' ok (wf_reachable c R)). Qed.
Print Assumptions c41_create_table.

(* C42 *)
Theorem c42_drop_table lim be d s t c c' ok : reachable c -> cstep lim be (DropTable d s t) c = (c', ok) ->
  (ok = true <-> exists i u, has_table c d s t i u) /\ (ok = false -> c' = c) /\
  (ok = true -> removes_tables c c' (fun i => exists u, has_table c d s t i u) /\ same_dbs c c' /\ same_schemas c c' /\ same_functions c c').
Proof. intros R. exact (drop_table_effect lim be d s t c c' ok (wf_reachable c R)). Qed.
Print Assumptions c42_drop_table.
Theorem c42_drop_schema lim be d s c c' ok : reachable c -> cstep lim be (DropSchema d s) c = (c', ok) ->
  (ok = true <-> s <> "staging" /\ exists k, has_schema c d s k) /\ (ok = false -> c' = c) /\
  (ok = true -> removes_tables c c' (fun i => exists t u, has_table c d s t i u) /\
     (forall d' s' k, has_schema c' d' s' k <-> has_schema c d' s' k /\ ~ (d' = d /\ s' = s)) /\ same_dbs c c' /\ same_functions c c').
Proof. intros R. exact (drop_schema_effect lim be d s c c' ok (wf_reachable c R)). Qed.
Print Assumptions c42_drop_schema.
Theorem c42_drop_database lim be d c c' ok : reachable c -> cstep lim be (DropDb d) c = (c', ok) ->
  (ok = true <-> exists b, has_db c d b) /\ (ok = false -> c' = c) /\
  (ok = true -> removes_tables c c' (fun i => exists s t u, has_table c d s t i u) /\
     (forall d' b, has_db c' d' b <-> has_db c d' b /\ d' <> d) /\
     (forall d' s k, has_schema c' d' s k <-> has_schema c d' s k /\ d' <> d) /\
     (forall d' f x, has_function c' d' f x <-> has_function c d' f x /\ d' <> d)).
Proof. intros R. exact (drop_db_effect lim be d c c' ok (wf_reachable c R)). Qed.
Print Assumptions c42_drop_database.

(* C43 *)
Theorem c43_rename lim be d s t s' t' c c' ok : reachable c -> cstep lim be (Rename d s t s' t') c = (c', ok) ->
  (ok = true <-> (s' = s \/ s' <> "staging") /\ (exists k, has_schema c d s' k) /\ exists i u, has_table c d s t i u /\ target_free c d s' t' i) /\
  (ok = false -> c' = c) /\
  (ok = true -> exists i u, has_table c d s t i u /\
     (forall d1 s1 t1 i1 u1, has_table c' d1 s1 t1 i1 u1 <->
        (has_table c d1 s1 t1 i1 u1 /\ i1 <> i) \/ (d1 = d /\ s1 = s' /\ t1 = t' /\ i1 = i /\ u1 = u)) /\
     same_dbs c c' /\ same_schemas c c' /\ same_functions c c' /\ same_versions c c' /\ same_columns c c').
Proof. intros R. exact (rename_effect lim be d s t s' t' c c' ok (wf_reachable c R)). Qed.
Print Assumptions c43_rename.

(* C44: of the table exactly the newest version by recorded time (then identity) stays, with its columns; everything else is untouched *)
Theorem c44_vacuum lim be d s t c c' ok : reachable c -> cstep lim be (Vacuum d s t) c = (c', ok) ->
  (ok = true <-> exists i u, has_table c d s t i u) /\ (ok = false -> c' = c) /\
  (forall i u, has_table c d s t i u ->
     (forall i' v time n, has_version c' i' v time n <-> has_version c i' v time n /\ (i' = i -> newest_version c i v)) /\
     (forall v name type, has_column c' v name type <-> has_column c v name type /\ (forall time n, has_version c i v time n -> newest_version c i v)) /\
     same_dbs c c' /\ same_schemas c c' /\ same_tables c c' /\ same_functions c c').
Proof. intros R. exact (vacuum_effect lim be d s t c c' ok (wf_reachable c R)). Qed.
Print Assumptions c44_vacuum.
Theorem c44_one_newest c d s t i u : reachable c -> has_table c d s t i u -> exists v, newest_version c i v /\ forall v', newest_version c i v' -> v' = v.
Proof. exact (newest_exists c d s t i u). Qed.
Print Assumptions c44_one_newest.
(* if the clock did not go back, it is the version recorded last ... *)
Theorem c44_keeps_last_partial c d s t i u v : reachable c -> has_table c d s t i u -> clock_ok c i -> last_version c i v -> newest_version c i v.
Proof.
  intros R T C (time & n & V & L). exists time, n. split; [exact V|]. intros w time' n' Hw N. pose proof (L w time' n' Hw) as Le.
  assert (w < v) as Lt by lia. pose proof (C w time' n' v time n Hw V Lt). lia.
Qed.
Print Assumptions c44_keeps_last_partial.
(* ... and if it did, the version recorded last is removed *)
Theorem c44_clock_refuted lim be d s t c c' ok i u v w time n time' n' : reachable c -> has_table c d s t i u -> last_version c i v ->
  has_version c i v time n -> has_version c i w time' n' -> time < time' ->
  cstep lim be (Vacuum d s t) c = (c', ok) -> ok = true /\ forall time0 n0, ~ has_version c' i v time0 n0.
Proof.
  intros R T _ V Hw Lt E. pose proof (wf_reachable c R) as W. destruct (vacuum_effect lim be d s t c c' ok W E) as (H1 & _ & H2).
  split; [apply H1; exists i, u; exact T|]. destruct (H2 i u T) as (H3 & _). intros time0 n0 C. apply H3 in C as [_ C]. destruct (C eq_refl) as (time1 & n1 & V1 & N).
  assert (Ev : {| ve_id := v; ve_tbl := i; ve_time := time; ve_version := n |} = {| ve_id := v; ve_tbl := i; ve_time := time1; ve_version := n1 |}).
  { apply (NoDup_map_inj ve_id (vers c)); [exact (wf_ve_id c W)|exact V|exact V1|reflexivity]. }
  injection Ev as <- <-. destruct (Nat.eq_dec w v) as [->|Nw].
  - assert (Ev : {| ve_id := v; ve_tbl := i; ve_time := time; ve_version := n |} = {| ve_id := v; ve_tbl := i; ve_time := time'; ve_version := n' |}).
    { apply (NoDup_map_inj ve_id (vers c)); [exact (wf_ve_id c W)|exact V|exact Hw|reflexivity]. }
    injection Ev as <- <-. lia.
  - specialize (N w time' n' Hw Nw). lia.
Qed.
Print Assumptions c44_clock_refuted.

(* C48: one function *)
Theorem c48_drop_one_partial lim be d ie n c c' ok : reachable c -> cstep lim be (DropFn d ie [n]) c = (c', ok) ->
  (ok = true <-> (exists b, has_db c d b) /\ (ie = true \/ exists x, has_function c d n x)) /\ (ok = false -> c' = c) /\
  (ok = true -> (forall d' f x, has_function c' d' f x <-> has_function c d' f x /\ ~ (d' = d /\ f = n)) /\
     same_dbs c c' /\ same_schemas c c' /\ same_tables c c' /\ same_versions c c' /\ same_columns c c').
Proof. intros R. exact (drop_one_effect lim be d ie n c c' ok (wf_reachable c R)). Qed.
Print Assumptions c48_drop_one_partial.
(* two or more: the second function is never removed, although the statement succeeds on SQLite if the first one exists *)
Theorem c48_drop_two_refuted lim be d ie n1 n2 ns c c' ok x : reachable c -> n1 <> n2 -> has_function c d n2 x ->
  cstep lim be (DropFn d ie (n1 :: n2 :: ns)) c = (c', ok) -> has_function c' d n2 x /\ (be = Postgres -> ok = false).
Proof.
  intros R N H E. pose proof (wf_reachable c R) as W. split.
  - apply (drop_many_keeps lim be d ie n1 n2 ns c c' ok W E); [exact H|]. intros [_ C]. congruence.
  - exact (proj1 (drop_many_effect lim d ie n1 n2 ns c c' ok be W E)).
Qed.
Print Assumptions c48_drop_two_refuted.
(* but never a function that is not named *)
Theorem c48_drop_only_named lim be d ie names c c' ok : reachable c -> cstep lim be (DropFn d ie names) c = (c', ok) ->
  forall d' f x, has_function c d' f x -> ~ (d' = d /\ In f names) -> has_function c' d' f x.
Proof.
  intros R E d' f x H N. pose proof (wf_reachable c R) as W. destruct names as [|n1 [|n2 ns]].
  - cbn in E. unfold function_delete in E. destruct (get_database d c) as [b|e]; cbn [bind] in E.
    + destruct be; cbn in E; destruct ie; injection E as <- <-; exact H.
    + injection E as <- <-. exact H.
  - destruct (drop_one_effect lim be d ie n1 c c' ok W E) as (_ & H1 & H2). destruct ok; [|rewrite (H1 eq_refl); exact H].
    apply (proj1 (H2 eq_refl)). split; [exact H|]. intros [-> ->]. apply N. split; [reflexivity|left; reflexivity].
  - apply (drop_many_keeps lim be d ie n1 n2 ns c c' ok W E); [exact H|]. intros [-> ->]. apply N. split; [reflexivity|left; reflexivity].
Qed.
Print Assumptions c48_drop_only_named.

(* C49 *)
Theorem c49_create_function lim be d f or_replace x c c' ok : reachable c -> cstep lim be (CreateFn d f or_replace x) c = (c', ok) ->
  (ok = true <-> (exists b, has_db c d b) /\ (or_replace = true \/ ~ exists y, has_function c d f y)) /\ (ok = false -> c' = c) /\
  (ok = true -> (forall d' f' y, has_function c' d' f' y <-> (has_function c d' f' y /\ ~ (d' = d /\ f' = f)) \/ (d' = d /\ f' = f /\ y = x)) /\
     same_dbs c c' /\ same_schemas c c' /\ same_tables c c' /\ same_versions c c' /\ same_columns c c').
Proof. intros R. exact (create_fn_effect lim be d f or_replace x c c' ok (wf_reachable c R)). Qed.
Print Assumptions c49_create_function.

(* C66: rows of the query in any order that sorts by schema and table *)
Theorem c66_listing c o d mult rows : reachable c -> sorted o rows -> Permutation rows (query_rows d mult c) ->
  NoDup (map fst (schema_list rows)) /\ (forall s, In s (map fst (schema_list rows)) <-> exists k, has_schema c d s k) /\
  (forall s ts, In (s, ts) (schema_list rows) -> NoDup (map fst ts) /\ forall t u, In (t, u) ts <-> exists i, has_table c d s t i u).
Proof. intros R. exact (listing c o d mult rows (wf_reachable c R)). Qed.
Print Assumptions c66_listing.

(* C72: recording a version of a table whose location no other table has *)
Theorem c72_new_version lim be d s t i u ver now c c' ok : reachable c -> has_table c d s t i u ->
  (forall d' s' t' i', has_table c d' s' t' i' u -> i' = i) -> cstep lim be (NewVersion u ver now) c = (c', ok) ->
  ok = true /\ exists l n, last_version c i l /\ (forall i' v time m, has_version c i' v time m -> v < n) /\
    (forall i' v time m, has_version c' i' v time m <-> has_version c i' v time m \/ (i' = i /\ v = n /\ time = now /\ m = ver)) /\
    (forall v name type, has_column c' v name type <-> has_column c v name type \/ (v = n /\ has_column c l name type)) /\
    same_dbs c c' /\ same_schemas c c' /\ same_tables c c' /\ same_functions c c'.
Proof. exact (new_version_effect lim be d s t i u ver now c c' ok). Qed.
Print Assumptions c72_new_version.

(* Examples: two databases with tables, versions and functions *)
Definition ex_ops : list cop :=
  [CreateDb "default"; CreateSchema "default" "public"; CreateSchema "default" "other"; CreateDb "second"; CreateSchema "second" "public";
   CreateTable "default" "public" "t" [("a", 1); ("b", 2)] 100 10; CreateTable "default" "public" "x" [("a", 1)] 101 11;
   CreateTable "second" "public" "t" [("c", 3)] 102 12; NewVersion 100 1 13; CreateFn "default" "f" false 7; CreateFn "default" "g" false 8].
Definition ex_cat : catalog := crun 20 Sqlite ex_ops.
Example ex_reachable : reachable ex_cat.
Proof. exists 20, Sqlite, ex_ops. reflexivity. Qed.
Example ex_names : has_table ex_cat "default" "public" "t" 1 100 /\ has_table ex_cat "second" "public" "t" 3 102 /\ has_function ex_cat "default" "g" 8.
Proof.
  split; [|split].
  - exists 1, {| tb_id := 1; tb_coll := 1; tb_name := "t"; tb_uuid := 100 |}. split; [|split; [vm_compute; auto|repeat split]].
    exists 1, {| co_id := 1; co_db := 1; co_name := "public" |}. split; [|split; [vm_compute; auto|repeat split]].
    exists {| db_id := 1; db_name := "default" |}. split; [vm_compute; auto|repeat split].
  - exists 3, {| tb_id := 3; tb_coll := 3; tb_name := "t"; tb_uuid := 102 |}. split; [|split; [vm_compute; auto|repeat split]].
    exists 2, {| co_id := 3; co_db := 2; co_name := "public" |}. split; [|split; [vm_compute; auto|repeat split]].
    exists {| db_id := 2; db_name := "second" |}. split; [vm_compute; auto|repeat split].
  - exists 1, {| fn_id := 2; fn_db := 1; fn_name := "g"; fn_details := 8 |}. split; [|split; [vm_compute; auto|repeat split]].
    exists {| db_id := 1; db_name := "default" |}. split; [vm_compute; auto|repeat split].
Qed.
Example ex_steps :
  snd (cstep 20 Sqlite (CreateTable "default" "public" "t" [] 103 14) ex_cat) = false /\
  snd (cstep 20 Sqlite (CreateTable "default" "other" "t" [("a", 1)] 103 14) ex_cat) = true /\
  snd (cstep 1 Sqlite (CreateTable "default" "other" "t" [("a", 1); ("b", 2)] 103 14) ex_cat) = false /\
  snd (cstep 20 Sqlite (Rename "default" "public" "t" "other" "x") ex_cat) = true /\
  snd (cstep 20 Sqlite (Rename "default" "public" "t" "public" "x") ex_cat) = false /\
  snd (cstep 20 Sqlite (DropSchema "default" "public") ex_cat) = true /\ snd (cstep 20 Sqlite (DropDb "second") ex_cat) = true /\
  List.length (vers (fst (cstep 20 Sqlite (Vacuum "default" "public" "t") ex_cat))) = 3 /\ List.length (vers ex_cat) = 4 /\
  snd (cstep 20 Sqlite (CreateFn "default" "f" false 9) ex_cat) = false /\ snd (cstep 20 Sqlite (CreateFn "default" "f" true 9) ex_cat) = true.
Proof. vm_compute. repeat split. Qed.
(* the clock goes back between two versions: VACUUM removes the one recorded last, whose columns the listing of SQLite joins with *)
Example c44_ex_clock : map ve_id (vers (crun 20 Sqlite
    [CreateDb "d"; CreateSchema "d" "s"; CreateTable "d" "s" "t" [("a", 1)] 100 10; NewVersion 100 1 5; Vacuum "d" "s" "t"])) = [1].
Proof. vm_compute. reflexivity. Qed.
Example c48_ex_two : map fn_name (fns (fst (cstep 20 Sqlite (DropFn "default" false ["f"; "g"]) ex_cat))) = ["g"] /\
  snd (cstep 20 Sqlite (DropFn "default" false ["f"; "g"]) ex_cat) = true /\
  snd (cstep 20 Postgres (DropFn "default" false ["f"; "g"]) ex_cat) = false.
Proof. vm_compute. repeat split. Qed.
Definition eq_order : name_order := {| nle := fun a b => String.leb a b = true; nle_antisym := String.leb_antisym |}.
Example c66_ex : let rows := [{| lr_coll := "other"; lr_table := None |}; {| lr_coll := "public"; lr_table := Some ("t", 100) |};
      {| lr_coll := "public"; lr_table := Some ("t", 100) |}; {| lr_coll := "public"; lr_table := Some ("x", 101) |}] in
  sorted eq_order rows /\ Permutation rows (query_rows "default" (fun r => if Nat.eqb (tb_id r) 1 then 1 else 0) ex_cat) /\
  schema_list rows = [("other", []); ("public", [("t", 100); ("x", 101)])].
Proof.
  cbn zeta. split; [|split].
  - cbn. repeat (split || constructor); cbn; try reflexivity; try (intros; reflexivity); try (intros; exact Logic.I); try discriminate.
  - replace (query_rows "default" _ ex_cat) with
      ([{| lr_coll := "public"; lr_table := Some ("t", 100) |}; {| lr_coll := "public"; lr_table := Some ("t", 100) |};
        {| lr_coll := "public"; lr_table := Some ("x", 101) |}] ++ [{| lr_coll := "other"; lr_table := None |}])%list by (vm_compute; reflexivity).
    apply Permutation_cons_append.
  - vm_compute. reflexivity.
Qed.
(* the table t of the default database: its location is its own, its two versions are recorded in order, the second is the last *)
Example c72_ex : (forall d' s' t' i', has_table ex_cat d' s' t' i' 100 -> i' = 1) /\ clock_ok ex_cat 1 /\ last_version ex_cat 1 4.
Proof.
  split; [|split].
  - intros d' s' t' i' (k & r & _ & H & _ & _ & E1 & E2). vm_compute in H. destruct H as [<-|[<-|[<-|[]]]]; [exact (eq_sym E1)|discriminate E2|discriminate E2].
  - intros v time n w time' n' H H' L. vm_compute in H, H'. destruct H as [H|[H|[H|[H|[]]]]]; try discriminate H; injection H as <- <- <-;
      destruct H' as [H'|[H'|[H'|[H'|[]]]]]; try discriminate H'; injection H' as <- <- <-; lia.
  - exists 13, 1. split; [vm_compute; auto|]. intros w time' n' H. vm_compute in H. destruct H as [H|[H|[H|[H|[]]]]]; try discriminate H; injection H as <- <- <-; lia.
Qed.
