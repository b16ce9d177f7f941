(* Properties C26 - C31: writing tables. The model is in WriteModel.v (src/context/delta.rs, src/context/physical.rs,
   src/provider.rs), what must hold in WriteSpec.v. A query's result is given as its partitions, each a list of batches of rows,
   a batch being None where the stream yields an error. *)
From Coq Require Import List Arith Bool Lia Permutation.
From Verif Require Import WriteModel WriteSpec WriteProofs.
Import ListNotations.

(* C26. The files written for a query hold its rows in order; no file is larger than the maximum, all but the last are full.
   An error in the stream, or of an upload, leaves no files for the commit. *)
Theorem c26_repartition : forall (R : Type) fuel max up uuid (parts : list (list (option (list R)))) adds,
  plan_to_delta_adds fuel max up uuid parts = Ok adds ->
  table_rows adds = query_rows parts /\
  Forall (fun f => length (rows f) <= max) adds /\
  Forall (fun f => length (rows f) = max) (removelast adds) /\
  no_error parts /\ Forall (fun i => up i = true) (seq 0 (length adds)) /\ NoDup (map (@path R) adds).
Proof.
  intros R fuel max up uuid parts adds H. pose proof (adds_ok _ _ _ _ _ _ H) as (A1 & A2 & A3 & A4).
  unfold plan_to_delta_adds in H. destruct (plan_files fuel max parts) as [| |fs] eqn:E; try discriminate.
  apply plan_files_ok in E. destruct E as (_ & E2 & E3 & _). apply collect_ok in H. destruct H as (H1 & H2 & H3). subst fs.
  split; [exact A1|]. split; [rewrite Forall_map in E2; exact E2|]. split; [|split; [exact A3|split; [|exact A4]]].
  - rewrite <- map_removelast, Forall_map in E3. exact E3.
  - rewrite map_length in H3. exact H3.
Qed.
Print Assumptions c26_repartition.

(* C26. Conversely, without errors and with a positive maximum the files are written, *)
Theorem c26_total : forall (R : Type) max up uuid (parts : list (list (option (list R)))),
  max > 0 -> no_error parts -> (forall i, up i = true) ->
  exists n, forall fuel, n <= fuel -> exists adds, plan_to_delta_adds fuel max up uuid parts = Ok adds.
Proof.
  intros R max up uuid parts Hm Hn Hu. exists (S (S (length (query_rows parts)))). intros fuel Hf.
  unfold plan_to_delta_adds, plan_files.
  pose proof (spread_all_terminates fuel max (concat parts) [] [] 0 Hm) as T.
  destruct (spread_all _ _ _ _ _ _) as [| |fs].
  - exfalso. apply T. apply Forall_forall. intros [rs|] Hin; [|exact I]. apply (Nat.le_trans _ (S (S (length (query_rows parts))))); [|exact Hf].
    do 2 apply le_n_S. unfold query_rows. clear - Hin. induction (concat parts) as [|b l IH]; [contradiction|]. cbn. rewrite app_length.
    destruct Hin as [->|Hin]; [lia|]. specialize (IH Hin). lia.
  - exfalso. revert Hn. apply T. apply Forall_forall. intros [rs|] Hin; [|exact I]. apply (Nat.le_trans _ (S (S (length (query_rows parts))))); [|exact Hf].
    do 2 apply le_n_S. unfold query_rows. clear - Hin. induction (concat parts) as [|b l IH]; [contradiction|]. cbn. rewrite app_length.
    destruct Hin as [->|Hin]; [lia|]. specialize (IH Hin). lia.
  - apply collect_total. apply Forall_forall. intros i _. apply Hu.
Qed.
Print Assumptions c26_total.
(* and otherwise never *)
Theorem c26_errors : forall (R : Type) fuel max up uuid (parts : list (list (option (list R)))) t t',
  insert fuel max up uuid t parts = Ok t' -> no_error parts.
Proof.
  intros R fuel max up uuid parts t t' E. unfold insert in E. destruct (plan_to_delta_adds _ _ _ _ _) eqn:P; try discriminate.
  apply adds_ok in P. apply P.
Qed.
Print Assumptions c26_errors.
(* an INSERT adds the query's rows at the end *)
Theorem c26_insert : forall (R : Type) fuel max up uuid (t : list (file R)) q t',
  insert fuel max up uuid t q = Ok t' -> table_rows t' = table_rows t ++ query_rows q.
Proof.
  intros R fuel max up uuid t q t' H. unfold insert in H. destruct (plan_to_delta_adds _ _ _ _ _) eqn:P; try discriminate.
  injection H as <-. rewrite commit_rows_nil. apply adds_ok in P. destruct P as (-> & _). reflexivity.
Qed.
Print Assumptions c26_insert.
Example c26_case : exists adds, plan_to_delta_adds 10 3 (fun _ => true) 7 [[Some [1; 2]; Some [3; 4; 5; 6; 7; 8]]; [Some []; Some [9]]] = Ok adds /\
  map (@rows nat) adds = [[1; 2; 3]; [4; 5; 6]; [7; 8; 9]].
Proof. eexists. split; [reflexivity|reflexivity]. Qed.
Example c26_fails : plan_to_delta_adds 10 3 (fun i => negb (Nat.eqb i 1)) 7 [[Some [1; 2; 3; 4]]] = Fail /\
  plan_to_delta_adds 10 3 (fun _ => true) 7 [[Some [1; 2; 3; 4]; None]] = Fail.
Proof. split; reflexivity. Qed.

(* C27. With a positive maximum the write ends, for every stream of batches. *)
Theorem c27_write_terminates_partial : forall (R : Type) max up uuid (parts : list (list (option (list R)))), max > 0 ->
  exists n, forall fuel, n <= fuel -> plan_to_delta_adds fuel max up uuid parts <> Spin.
Proof.
  intros R max up uuid parts Hm. exists (S (S (length (query_rows parts)))). intros fuel Hf.
  unfold plan_to_delta_adds, plan_files.
  pose proof (spread_all_terminates fuel max (concat parts) [] [] 0 Hm) as T.
  destruct (spread_all _ _ _ _ _ _) as [| |fs]; [|discriminate|apply collect_not_spin].
  exfalso. apply T. apply Forall_forall. intros [rs|] Hin; [|exact I]. apply (Nat.le_trans _ (S (S (length (query_rows parts))))); [|exact Hf].
  do 2 apply le_n_S. unfold query_rows. clear - Hin. induction (concat parts) as [|b l IH]; [contradiction|]. cbn. rewrite app_length.
  destruct Hin as [->|Hin]; [lia|]. specialize (IH Hin). lia.
Qed.
Print Assumptions c27_write_terminates_partial.
(* With max_partition_size = 0 no write of even one row ever ends: the loop closes empty files for ever. *)
Theorem c27_write_terminates_refuted : forall (R : Type) up uuid (parts : list (list (option (list R)))),
  no_error parts -> query_rows parts <> [] -> forall fuel, plan_to_delta_adds fuel 0 up uuid parts = Spin.
Proof.
  intros R up uuid parts Hn Hq fuel. unfold plan_to_delta_adds, plan_files. rewrite spread_all_zero; [reflexivity|exact Hn|].
  unfold query_rows in Hq. clear Hn. induction (concat parts) as [|[[|r rs]|] l IH]; cbn in Hq.
  - congruence.
  - apply Exists_cons_tl, IH, Hq.
  - apply Exists_cons_hd. eauto.
  - apply Exists_cons_tl, IH, Hq.
Qed.
Print Assumptions c27_write_terminates_refuted.
Example c27_case : no_error [[Some [1]]] /\ query_rows [[Some [1]]] <> [].
Proof. split; [repeat constructor; discriminate|discriminate]. Qed.

(* C28. For every schedule of short reads and failures: a completed upload consists of parts that make up the file, each but the
   last at least [min] bytes, none empty. *)
Theorem c28_multipart : forall (B : Type) min sched (data : list B), min > 0 ->
  In Complete (upload min sched data []) ->
  concat (parts_of (upload min sched data [])) = data /\
  Forall (fun d => d <> []) (parts_of (upload min sched data [])) /\
  Forall (fun d => min <= length d) (removelast (parts_of (upload min sched data []))) /\
  ~ In Abort (upload min sched data []).
Proof.
  intros B min sched data Hm H. destruct (upload_complete min sched data [] Hm ltac:(cbn; lia) H) as (H1 & H2 & H3 & H4 & _). auto.
Qed.
Print Assumptions c28_multipart.
(* The first failing read, or failing part, makes the upload abort: nothing follows, in particular no completion. *)
Theorem c28_failed_read : forall (B : Type) min sched later ok (data : list B), ~ finished (upload min sched data []) ->
  upload min (sched ++ (ReadErr, ok) :: later) data [] = upload min sched data [] ++ [Abort].
Proof.
  intros B min sched later ok data H. destruct (upload_app min sched data [] H) as (r & b & E). rewrite E. reflexivity.
Qed.
Print Assumptions c28_failed_read.
Theorem c28_failed_part : forall (B : Type) min sched later n d (data : list B), ~ finished (upload min sched data []) ->
  upload min (sched ++ [(ReadUpTo n, true)]) data [] = upload min sched data [] ++ [PutPart d] ->
  upload min (sched ++ (ReadUpTo n, false) :: later) data [] = upload min sched data [] ++ [PutPart d; Abort].
Proof.
  intros B min sched later n d data H P. destruct (upload_app min sched data [] H) as (r & b & E). rewrite E in *.
  apply app_inv_head in P. f_equal. cbn [upload] in *. destruct (_ && _); [discriminate|]. destruct (_ && _); [discriminate|].
  inversion P. reflexivity.
Qed.
Print Assumptions c28_failed_part.
(* nothing is called after the end, and the end is reached after at most one turn for each byte and two more *)
Theorem c28_ends : forall (B : Type) min (data : list B), min > 0 ->
  (forall sched a c b, upload min sched data [] = a ++ c :: b -> c = Complete \/ c = Abort -> b = []) /\
  (forall sched, S (length data) < length sched -> finished (upload min sched data [])).
Proof.
  intros B min data Hm. split; [intros sched a c b; apply upload_end|]. intros sched H. apply upload_terminates; [exact Hm|].
  destruct (Nat.eqb _ 0); lia.
Qed.
Print Assumptions c28_ends.
Example c28_case : upload 3 [(ReadUpTo 1, true); (ReadUpTo 4, true); (ReadUpTo 0, true); (ReadUpTo 0, true); (ReadUpTo 0, true)] [1; 2; 3; 4; 5; 6; 7; 8] []
  = [PutPart [1; 2; 3; 4; 5; 6; 7]; PutPart [8]; Complete].
Proof. reflexivity. Qed.
Example c28_case_fail : ~ finished (upload 3 [(ReadUpTo 1, true)] [1; 2; 3; 4] []) /\
  upload 3 ([(ReadUpTo 1, true)] ++ [(ReadUpTo 0, true)]) [1; 2; 3; 4] [] = upload 3 [(ReadUpTo 1, true)] [1; 2; 3; 4] [] ++ [PutPart [1; 2; 3]].
Proof. split; [intros [[]|[]]|reflexivity]. Qed.

(* C29. What DELETE ... WHERE p does to a table, for every layout of its rows over files, every sound pruning and every scan that
   yields the rows of the selected files: files that are not selected stay, and of the others the rows remain for which p is
   false. So a row for which p is unknown (NULL) is lost if it shares a file with a row to be deleted. *)
Theorem c29_delete_effect_partial : forall (R : Type) fuel max up uuid (t : list (file R)) p keep scan t',
  good_table t uuid -> prune_ok p t keep -> scans_all t keep scan ->
  delete fuel max up uuid t (Some p) keep scan = Ok t' ->
  Permutation (table_rows t')
    (flat_map (fun fk => rows (fst fk)) (filter (fun fk => negb (snd fk)) (combine t keep)) ++
     filter (fun r => match p r with Some false => true | _ => false end)
            (flat_map (fun fk : file R * bool => if snd fk then rows (fst fk) else []) (combine t keep))).
Proof. intros R fuel max up uuid t p keep scan t'. apply delete_effect. Qed.
Print Assumptions c29_delete_effect_partial.
(* The claim for predicates that are never unknown. *)
Theorem c29_delete_partial : forall (R : Type) fuel max up uuid (t : list (file R)) p keep scan t',
  good_table t uuid -> prune_ok p t keep -> scans_all t keep scan ->
  (forall r, In r (table_rows t) -> p r <> None) ->
  delete fuel max up uuid t (Some p) keep scan = Ok t' ->
  Permutation (table_rows t') (filter (survives p) (table_rows t)).
Proof.
  intros R fuel max up uuid t p keep scan t' Hg Hp Hs Hn H. eapply Permutation_trans; [exact (delete_effect _ _ _ _ _ _ _ _ _ Hg Hp Hs H)|].
  apply Permutation_sym. pose proof (prune_len _ _ _ Hp) as Hl.
  eapply Permutation_trans; [apply Permutation_filter'; apply (split_rows t keep Hl)|]. rewrite filter_app, (pruned_survive p t keep Hp).
  apply Permutation_app_head.
  rewrite (filter_ext_in (survives p) (fun r => match p r with Some false => true | _ => false end)); [apply Permutation_refl|].
  intros r Hr. unfold survives. assert (Hin : In r (table_rows t)).
  { apply (Permutation_in _ (Permutation_sym (split_rows t keep Hl))). apply in_or_app. right. exact Hr. }
  specialize (Hn r Hin). destruct (p r) as [[|]|]; congruence.
Qed.
Print Assumptions c29_delete_partial.
(* Whatever the scan yields: the rows to be deleted are gone, *)
Theorem c29_deleted_gone_partial : forall (R : Type) fuel max up uuid (t : list (file R)) p keep scan t' r,
  good_table t uuid -> prune_ok p t keep -> delete fuel max up uuid t (Some p) keep scan = Ok t' ->
  p r = Some true -> ~ In r (table_rows t').
Proof.
  intros R fuel max up uuid t p keep scan t' r [ND _] Hp H Hr Hin. pose proof (prune_len _ _ _ Hp) as Hl.
  assert (U : ~ In r (flat_map (fun fk => rows (fst fk)) (filter (fun fk => negb (snd fk)) (combine t keep)))).
  { rewrite <- (pruned_survive p t keep Hp). intros X. apply filter_In in X. destruct X as [_ X]. unfold survives in X. rewrite Hr in X. discriminate. }
  unfold delete in H. destruct (selected t keep) as [|x xs] eqn:Es.
  - injection H as <-. rewrite commit_rows_nil in Hin. cbn in Hin. rewrite app_nil_r in Hin.
    apply (Permutation_in _ (split_rows t keep Hl)) in Hin. apply in_app_or in Hin. destruct Hin as [Hin|Hin]; [contradiction|].
    apply in_flat_map in Hin. destruct Hin as ([f k] & Hfk & Hin). cbn in Hin. destruct k; [|contradiction].
    assert (X : In f (selected t keep)) by (unfold selected; apply in_map_iff; exists (f, true); split; [reflexivity|]; apply filter_In; auto).
    rewrite Es in X. contradiction.
  - rewrite <- Es in H. destruct (plan_to_delta_adds _ _ _ _ _) as [| |adds] eqn:Ea; try discriminate. injection H as <-.
    apply adds_ok in Ea. destruct Ea as (E1 & _). unfold commit, table_rows in Hin. rewrite flat_map_app in Hin. apply in_app_or in Hin.
    destruct Hin as [Hin|Hin].
    + rewrite (filter_selected t keep ND Hl) in Hin. apply U. rewrite !flat_map_concat_map, map_map in *. exact Hin.
    + fold (table_rows adds) in Hin. rewrite E1, query_rows_map in Hin. apply filter_In in Hin. destruct Hin as [_ X]. rewrite Hr in X. discriminate.
Qed.
Print Assumptions c29_deleted_gone_partial.
(* and rows of files without a row to be deleted stay, if the pruning recognises those files *)
Theorem c29_other_files_kept_partial : forall (R : Type) fuel max up uuid (t : list (file R)) p keep scan t' f,
  good_table t uuid -> prune_ok p t keep -> delete fuel max up uuid t (Some p) keep scan = Ok t' ->
  In (f, false) (combine t keep) -> In f t'.
Proof.
  intros R fuel max up uuid t p keep scan t' f [ND _] Hp H Hf. pose proof (prune_len _ _ _ Hp) as Hl.
  assert (K : In f (map fst (filter (fun fk => negb (snd fk)) (combine t keep)))).
  { apply in_map_iff. exists (f, false). split; [reflexivity|]. apply filter_In. auto. }
  unfold delete in H. destruct (selected t keep) as [|x xs] eqn:Es.
  - injection H as <-. unfold commit. apply in_or_app. left. apply filter_In. split; [apply in_combine_l in Hf; exact Hf|reflexivity].
  - rewrite <- Es in H. destruct (plan_to_delta_adds _ _ _ _ _) as [| |adds] eqn:Ea; try discriminate. injection H as <-.
    unfold commit. apply in_or_app. left. rewrite (filter_selected t keep ND Hl). exact K.
Qed.
Print Assumptions c29_other_files_kept_partial.
(* The full claim is false: DELETE FROM t WHERE x = 1 on the rows 1, NULL, 2 in one file loses the NULL row. *)
Definition eq1 (r : option nat) : option bool := match r with Some n => Some (Nat.eqb n 1) | None => None end.
Definition t1 : list (file (option nat)) := [{| path := (0, 0); rows := [Some 1; None; Some 2] |}; {| path := (0, 1); rows := [Some 3] |}].
Definition scan1 : list (list (option (list (option nat)))) := [[Some [Some 1; None; Some 2]]].
Theorem c29_delete_null_refuted : exists t',
  good_table t1 5 /\ prune_ok eq1 t1 [true; false] /\ scans_all t1 [true; false] scan1 /\
  delete 10 9 (fun _ => true) 5 t1 (Some eq1) [true; false] scan1 = Ok t' /\
  In None (table_rows t1) /\ survives eq1 None = true /\ ~ In None (table_rows t').
Proof.
  eexists. split; [split; [repeat constructor; cbn; intuition discriminate|repeat constructor; discriminate]|].
  split; [constructor; [discriminate|constructor; [|constructor]]; intros _ r [<-|[]]; discriminate|].
  split; [apply Permutation_refl|]. split; [reflexivity|]. split; [cbn; auto|]. split; [reflexivity|]. cbn. intuition discriminate.
Qed.
Print Assumptions c29_delete_null_refuted.
(* It is false too, for predicates that are never unknown, if the scan, which is given the predicate as a filter, leaves out rows
   for which the predicate is false, as a scan may (it promises only the rows for which the filter is true; a Parquet scan skips
   row groups by their statistics): these rows are lost. *)
Definition lt2 (r : nat) : option bool := Some (Nat.ltb r 2).
Definition t2 : list (file nat) := [{| path := (0, 0); rows := [1; 5] |}].
Theorem c29_delete_scan_refuted : exists t',
  good_table t2 5 /\ prune_ok lt2 t2 [true] /\ scan_contract lt2 t2 [[Some [1]]] /\
  delete 10 9 (fun _ => true) 5 t2 (Some lt2) [true] [[Some [1]]] = Ok t' /\
  In 5 (table_rows t2) /\ survives lt2 5 = true /\ ~ In 5 (table_rows t').
Proof.
  eexists. split; [split; [repeat constructor; cbn; intuition discriminate|repeat constructor; discriminate]|].
  split; [constructor; [discriminate|constructor]|].
  split; [split; [intros r [<-|[]]; cbn; auto|intros r [<-|[<-|[]]] H; [left; reflexivity|discriminate]]|].
  split; [reflexivity|]. split; [cbn; auto|]. split; [reflexivity|]. cbn. intuition discriminate.
Qed.
Print Assumptions c29_delete_scan_refuted.
Example c29_case : good_table t2 5 /\ prune_ok lt2 t2 [true] /\ scans_all t2 [true] [[Some [5]]; [Some []; Some [1]]] /\
  (forall r, In r (table_rows t2) -> lt2 r <> None) /\
  exists t', delete 10 9 (fun _ => true) 5 t2 (Some lt2) [true] [[Some [5]]; [Some []; Some [1]]] = Ok t' /\ table_rows t' = [5].
Proof.
  split; [split; [repeat constructor; cbn; intuition discriminate|repeat constructor; discriminate]|].
  split; [constructor; [discriminate|constructor]|]. split; [cbn; apply perm_swap|]. split; [discriminate|].
  eexists. split; reflexivity.
Qed.

(* C30. UPDATE, for every layout, sound pruning and scan that yields the rows of the selected files: every row becomes its
   updated version, and there are as many rows as before. *)
Theorem c30_update_partial : forall (V : Type) fuel max up uuid (t : list (file (list V))) w es keep scan t',
  good_table t uuid ->
  match w with Some p => prune_ok p t keep | None => keep = map (fun _ => true) t end ->
  scans_all t keep scan ->
  Forall (fun r => length r = length es) (table_rows t) ->
  update fuel max up uuid t w es keep scan = Ok t' ->
  (exists l, Permutation (table_rows t') l /\ Forall2 (updated w es) (table_rows t) l) /\ length (table_rows t') = length (table_rows t).
Proof.
  intros V fuel max up uuid t w es keep scan t' Hg Hp Hs Hlen H.
  destruct (update_effect _ _ _ _ _ _ _ _ _ _ Hg Hp Hs Hlen H) as (l & L1 & L2). split; [eauto|].
  rewrite (Permutation_length L1). symmetry. clear - L2. induction L2; cbn; congruence.
Qed.
Print Assumptions c30_update_partial.
(* the updated row is determined: if selected, every column is the value of its expression, otherwise the row is unchanged *)
Theorem c30_updated_unique : forall (V : Type) w es (r a b : list V), updated w es r a -> updated w es r b -> a = b.
Proof.
  intros V w es r a b Ha Hb. destruct Ha as [a Wa [a' Fa]|p Ep Np], Hb as [b Wb [b' Fb]|q Eq Nq]; try reflexivity.
  - clear - Fa Fb. revert b' Fb. induction Fa as [|e v es a H1 H2 IH]; intros b Fb; inversion Fb as [|e' v' es' b' H3 H4]; subst; [reflexivity|].
    f_equal; [congruence|apply IH; assumption].
  - subst w. contradiction.
  - subst w. contradiction.
Qed.
Print Assumptions c30_updated_unique.
(* With the scan's contract alone it is false: rows of rewritten files that the scan leaves out are lost. *)
Definition t3 : list (file (list nat)) := [{| path := (0, 0); rows := [[1; 10]; [5; 50]] |}].
Definition p3 (r : list nat) : option bool := Some (Nat.ltb (nth 0 r 0) 2).
Definition es3 : list (list nat -> option nat) := [fun r => nth_error r 0; fun _ => Some 7].
Theorem c30_update_scan_refuted : exists t',
  good_table t3 5 /\ prune_ok p3 t3 [true] /\ scan_contract p3 t3 [[Some [[1; 10]]]] /\
  update 10 9 (fun _ => true) 5 t3 (Some p3) es3 [true] [[Some [[1; 10]]]] = Ok t' /\
  length (table_rows t') < length (table_rows t3).
Proof.
  eexists. split; [split; [repeat constructor; cbn; intuition discriminate|repeat constructor; discriminate]|].
  split; [constructor; [discriminate|constructor]|].
  split; [split; [intros r [<-|[]]; cbn; auto|intros r [<-|[<-|[]]] H; [left; reflexivity|discriminate]]|].
  split; [reflexivity|]. cbn. lia.
Qed.
Print Assumptions c30_update_scan_refuted.
Example c30_case : good_table t3 5 /\ prune_ok p3 t3 [true] /\ scans_all t3 [true] [[Some [[1; 10]; [5; 50]]]] /\
  Forall (fun r => length r = length es3) (table_rows t3) /\
  exists t', update 10 9 (fun _ => true) 5 t3 (Some p3) es3 [true] [[Some [[1; 10]; [5; 50]]]] = Ok t' /\ table_rows t' = [[1; 7]; [5; 50]].
Proof.
  split; [split; [repeat constructor; cbn; intuition discriminate|repeat constructor; discriminate]|].
  split; [constructor; [discriminate|constructor]|]. split; [apply Permutation_refl|]. split; [repeat constructor|].
  eexists. split; reflexivity.
Qed.

(* C31. TRUNCATE, and DELETE without WHERE, empty the table. *)
Theorem c31_truncate_empties : forall (R : Type) (t : list (file R)) fuel max up uuid keep scan,
  table_rows (truncate t) = [] /\ exists t', delete fuel max up uuid t None keep scan = Ok t' /\ table_rows t' = [].
Proof.
  intros. unfold truncate. rewrite commit_all. split; [reflexivity|]. exists []. split; [|reflexivity].
  unfold delete. rewrite commit_all. reflexivity.
Qed.
Print Assumptions c31_truncate_empties.
(* For histories of INSERT, UPDATE and DELETE without a crash between commit and catalog entry, table_versions is complete; *)
Theorem c31_versions_partial : forall ss, Forall (fun s => fst s <> STruncate /\ snd s = false) ss ->
  in_catalog (exec_all ss) = in_log (exec_all ss).
Proof. intros ss H. apply exec_equal; [reflexivity|exact H]. Qed.
Print Assumptions c31_versions_partial.
(* it never lists a version that does not exist. *)
Theorem c31_versions_exist : forall ss, incl (in_catalog (exec_all ss)) (in_log (exec_all ss)).
Proof. intros ss. apply exec_sub, incl_refl. Qed.
Print Assumptions c31_versions_exist.
(* After TRUNCATE, or a crash, a version is missing for ever. *)
Theorem c31_versions_refuted : forall before after s, fst s = STruncate \/ snd s = true ->
  In (S (length before)) (in_log (exec_all (before ++ s :: after))) /\
  ~ In (S (length before)) (in_catalog (exec_all (before ++ s :: after))).
Proof.
  intros before after s Hs. unfold exec_all. rewrite exec_all_app. cbn [fold_left].
  assert (L : forall ss v, length (in_log (fold_left exec ss v)) = length (in_log v) + length ss).
  { induction ss as [|x ss IH]; intros v; [cbn; lia|]. cbn [fold_left]. rewrite IH. unfold exec; cbn [in_log]. rewrite app_length. cbn. lia. }
  assert (Bd : forall ss v, Forall (fun n => n < length (in_log v)) (in_catalog v) ->
     Forall (fun n => n < length (in_log (fold_left exec ss v))) (in_catalog (fold_left exec ss v))).
  { induction ss as [|x ss IH]; intros v H; [exact H|]. cbn [fold_left]. apply IH. unfold exec; cbn [in_log in_catalog]. rewrite app_length.
    assert (H' : Forall (fun n => n < length (in_log v) + 1) (in_catalog v)) by (eapply Forall_impl; [|exact H]; cbn; intros; lia).
    destruct (_ && _); [apply Forall_app; split; [exact H'|constructor; [cbn; lia|constructor]]|exact H']. }
  specialize (Bd before created). set (v := fold_left exec before created) in *.
  assert (Lv : length (in_log v) = S (length before)) by (unfold v; rewrite L; reflexivity).
  assert (B : Forall (fun n => n < S (length before)) (in_catalog v)) by (rewrite <- Lv; apply Bd; repeat constructor).
  assert (Gr : forall ss w, incl (in_log w) (in_log (fold_left exec ss w))).
  { induction ss as [|x ss IH]; intros w; [apply incl_refl|]. cbn [fold_left]. eapply incl_tran; [|apply IH]. unfold exec; cbn. apply incl_appl, incl_refl. }
  split.
  - apply Gr. unfold exec; cbn [in_log]. apply in_or_app. right. left. exact Lv.
  - assert (N : forall ss w n, n < length (in_log w) -> ~ In n (in_catalog w) -> ~ In n (in_catalog (fold_left exec ss w))).
    { induction ss as [|x ss IH]; intros w n Hn Hw; [exact Hw|]. cbn [fold_left]. apply IH.
      - unfold exec; cbn [in_log]. rewrite app_length. lia.
      - unfold exec; cbn [in_catalog]. destruct (_ && _); [|exact Hw]. intros H. apply in_app_or in H.
        destruct H as [H|[H|[]]]; [contradiction|lia]. }
    apply N.
    + unfold exec; cbn [in_log]. rewrite app_length, Lv. cbn. lia.
    + unfold exec; cbn [in_catalog]. assert (E : records (fst s) && negb (snd s) = false).
      { destruct Hs as [->| ->]; [reflexivity|apply andb_false_r]. }
      rewrite E. rewrite Forall_forall in B. intros H. apply B in H. lia.
Qed.
Print Assumptions c31_versions_refuted.
Example c31_case : in_catalog (exec_all [(SInsert, false); (SDelete, false)]) = [0; 1; 2] /\
  in_catalog (exec_all [(SInsert, false); (STruncate, false); (SInsert, false)]) = [0; 1; 3] /\
  in_log (exec_all [(SInsert, false); (STruncate, false); (SInsert, false)]) = [0; 1; 2; 3].
Proof. repeat split. Qed.
