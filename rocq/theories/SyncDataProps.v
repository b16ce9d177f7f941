(* Properties C11 - C21 and C67, C68 of the sync data path (properties.jsonl). Vocabulary: SyncDataSpec.v; the program:
   SyncDataModel.v ([squash_batches] squashes the pending batches of one item, [flush_rows] is a whole flush, None
   is a panic).

   In the theorems about a flush: [tcols] are the columns of the table, [pks] its key columns, [vals] the others;
   [files] are the rows stored in its data files, [st] the statistics of the files, [pp] the pruning predicate of the
   query engine; [items] are the pending batches. *)
From Coq Require Import List Arith ZArith Bool Lia.
From Verif Require Import SyncDataModel SyncDataSpec SyncSquashProofs SyncApplyProofs SyncFlushProofs SyncFrameProofs SyncPruneProofs SyncDataMain SyncResquash.
Import ListNotations.

(* ---------- concrete cases ---------- *)
Definition col (r : role) (n t : nat) : column := {| c_role := r; c_name := n; c_type := t |}.
Definition bat (w : nat) (rows : list (list value)) : rbatch := {| rb_width := w; rb_rows := rows |}.
(* key column 0, value columns 1 and 2; type 7 for integers, 9 for booleans *)
Definition full_sch : list column := [col OldPk 0 7; col NewPk 0 7; col Value 1 7; col Value 2 7].
(* only column 1, with a change flag *)
Definition flag_sch : list column := [col OldPk 0 7; col NewPk 0 7; col Value 1 7; col Changed 1 9].
(* both columns with change flags *)
Definition flags_sch : list column := [col OldPk 0 7; col NewPk 0 7; col Value 1 7; col Changed 1 9; col Value 2 7; col Changed 2 9].
(* one value column, no flag *)
Definition one_sch (n : nat) : list column := [col OldPk 0 7; col NewPk 0 7; col Value n 7].
Definition i (z : Z) : value := VInt z.
Definition ex_stats : fstats := {| st_min := fun _ => None; st_max := fun _ => None; st_rows := [] |}.
Definition ex_pp (n : nat) : list (list (nat * (value * value))) -> list bool := fun _ => repeat true n.
Definition ex_files : list (list (list value)) := [[[i 1; i 10; i 11]; [i 2; i 20; i 21]]; [[i 3; i 30; i 31]]].

Lemma ex_pp_ok tcols files : pp_ok tcols files (ex_pp (length files)).
Proof.
  intros qs. split; [apply repeat_length|]. intros f rows r q H _ _ _. unfold ex_pp.
  assert (L : f < length files) by (apply nth_error_Some; congruence).
  revert L. generalize (length files). clear. induction f; intros [|n] L; cbn; auto; try lia. apply IHf. lia.
Qed.
Lemma ex_stats_ok tcols files : stats_ok tcols files ex_stats.
Proof. intros n f rows r _ _. split; discriminate. Qed.
Ltac dn := vm_compute; repeat (apply NoDup_cons; [cbn; intuition congruence|]); apply NoDup_nil.
Ltac fa tac := repeat (apply Forall_cons; [tac|]); apply Forall_nil.
Ltac whole_row := first [solve [left; cbn; fa reflexivity] | solve [right; cbn; fa discriminate]].
Ltac good_cols := split; [dn|split; [intros ?n; cbn; intuition congruence|intros ?n; cbn; intuition congruence]].
Ltac good_tab := split; [cbn; dn|intros ?r Hr; cbn in Hr; repeat destruct Hr as [<-|Hr]; try contradiction; (split; [reflexivity|cbn; fa discriminate])].
Ltac target := split; [good_cols|split; [good_tab|split; [apply ex_pp_ok|apply ex_stats_ok]]].
Ltac item :=
  split; [split; [dn|split; [reflexivity|split; [reflexivity|split; [discriminate|split; intros ?n; cbn; intuition congruence]]]]
         |split; [discriminate|split; [intros ?b Hb; cbn in Hb; repeat destruct Hb as [<-|Hb]; try contradiction; reflexivity|
            intros ?r Hr; cbn in Hr; repeat destruct Hr as [<-|Hr]; try contradiction; (split; [reflexivity|split; whole_row])]]].
Ltac valid := cbn; repeat split; intros ?k Hk; vm_compute in Hk; try discriminate; injection Hk as <-; vm_compute; first [discriminate|left; reflexivity|right; reflexivity].
Example ex_target : good_target [0; 1; 2] [0] [1; 2] ex_files ex_stats (ex_pp 2).
Proof. target. Qed.
Notation ex_table := (table_of [0; 1; 2] [0] [1; 2] (concat ex_files)).

(* an item with all kinds of changes: rows 1 and 2 swap keys through 9, row 3 is deleted, row 4 is inserted, updated
   and row 5 inserted and deleted *)
Definition ex_item : list column * list rbatch :=
  (full_sch, [bat 4 [[i 1; i 9; i 100; i 101]; [i 2; i 1; i 200; i 201]; [VNull; i 4; i 40; i 41]; [VNull; i 5; i 50; i 51]];
              bat 4 [[i 9; i 2; i 102; i 103]; [i 5; VNull; VNull; VNull]; [i 3; VNull; VNull; VNull]; [i 4; i 4; i 42; i 43]]]).
Example ex_item_good : good_item [0] ex_item /\ full_rows [1; 2] ex_item.
Proof. split; [item|split; [reflexivity|]]. intros n; cbn; intuition. Qed.
Example ex_item_valid : valid_stream ex_table (item_changes [0] [1; 2] ex_item).
Proof. valid. Qed.
(* an item with a change flag *)
Definition ex_flag : list column * list rbatch :=
  (flag_sch, [bat 4 [[i 1; i 1; i 7; VBool true]; [i 2; i 2; VNull; VBool false]; [i 1; i 1; VNull; VBool false]]]).
Example ex_flag_good : good_item [0] ex_flag /\ length (names_of (fst ex_flag) Changed) <= 1.
Proof. split; [item|]. cbn. lia. Qed.
Example ex_flag_valid : valid_stream ex_table (item_changes [0] [1; 2] ex_flag).
Proof. valid. Qed.

(* ---------- C11 ---------- *)
Theorem c11_squashing_preserves_effect :
  forall pks vals it t out,
    good_item pks it -> length (names_of (fst it) Changed) <= 1 ->
    wide (length vals) t -> valid_stream t (item_changes pks vals it) ->
    squash_batches (fst it) (snd it) = Some out ->
    at_once (map (change_of pks vals (fst it)) out) t (apply_all (item_changes pks vals it) t).
Proof. intros. apply squash_effect; auto. intros. now apply one_flag_alike. Qed.
Example c11_nonvacuous : squash_batches (fst ex_item) (snd ex_item) =
  Some [[i 1; i 2; i 102; i 103]; [i 2; i 1; i 200; i 201]; [VNull; i 4; i 42; i 43]; [i 3; VNull; VNull; VNull]].
Proof. vm_compute. reflexivity. Qed.
Example c11_nonvacuous_flag : squash_batches (fst ex_flag) (snd ex_flag) =
  Some [[i 1; i 1; i 7; VBool true]; [i 2; i 2; VNull; VBool false]].
Proof. vm_compute. reflexivity. Qed.
Example c11_wide : wide 2 ex_table.
Proof. exact (table_wide [0; 1; 2] [0] [1; 2] (concat ex_files)). Qed.
Print Assumptions c11_squashing_preserves_effect.

(* ---------- C12 ---------- *)
(* Full statement: as below, without the bound on the number of Changed columns. It does not hold: *)
Theorem c12_flags_kept_refuted :
  exists it out r k j,
    good_item [0] it /\ valid_stream ex_table (item_changes [0] [1; 2] it) /\
    squash_batches (fst it) (snd it) = Some out /\ In r out /\ ch_new (change_of [0] [1; 2] (fst it) r) = Some k /\
    nth j (ch_set (change_of [0] [1; 2] (fst it) r)) None <> last_assigned j (history (rev (item_changes [0] [1; 2] it)) k).
Proof.
  exists (flags_sch, [bat 6 [[i 1; i 1; i 5; VBool true; VNull; VBool false]; [i 1; i 1; VNull; VBool false; i 77; VBool true]]]).
  eexists. eexists. exists [i 1]. exists 1.
  split; [item|]. split; [valid|]. split; [vm_compute; reflexivity|]. split; [left; reflexivity|].
  split; [vm_compute; reflexivity|]. vm_compute. discriminate.
Qed.
Print Assumptions c12_flags_kept_refuted.
(* What is missing: rows whose Changed columns differ. *)
Theorem c12_flags_kept_partial :
  forall pks vals it t out,
    good_item pks it -> (forall r, In r (item_rows it) -> flags_alike (fst it) r) ->
    wide (length vals) t -> valid_stream t (item_changes pks vals it) ->
    squash_batches (fst it) (snd it) = Some out ->
    forall r k, In r out -> ch_new (change_of pks vals (fst it) r) = Some k ->
    forall j, nth j (ch_set (change_of pks vals (fst it) r)) None =
              last_assigned j (history (rev (item_changes pks vals it)) k).
Proof. intros pks vals it t out GI FA W V. exact (squash_history pks vals it t out GI W V FA). Qed.
(* two flags that are alike *)
Example c12_nonvacuous :
  let it := (flags_sch, [bat 6 [[i 1; i 1; i 5; VBool true; i 77; VBool true]; [i 1; i 1; i 6; VBool false; i 78; VBool false]]]) in
  good_item [0] it /\ (forall r, In r (item_rows it) -> flags_alike (fst it) r) /\
  valid_stream ex_table (item_changes [0] [1; 2] it) /\
  squash_batches (fst it) (snd it) = Some [[i 1; i 1; i 5; VBool true; i 77; VBool true]].
Proof.
  cbv zeta. split; [item|]. split; [|split; [valid|vm_compute; reflexivity]].
  intros r Hr; cbn in Hr; repeat destruct Hr as [<-|Hr]; try contradiction; intros n n' f f' F F';
    destruct n as [|[|[|n]]]; cbn in F; try discriminate; destruct n' as [|[|[|n']]]; cbn in F'; try discriminate; congruence.
Qed.
Print Assumptions c12_flags_kept_partial.

(* ---------- C13 ---------- *)
Theorem c13_one_change_per_row :
  forall pks vals it t out,
    good_item pks it -> length (names_of (fst it) Changed) <= 1 ->
    wide (length vals) t -> valid_stream t (item_changes pks vals it) ->
    squash_batches (fst it) (snd it) = Some out ->
    one_per_row (map (change_of pks vals (fst it)) out).
Proof. intros. eapply squash_one_per_row; eauto. intros. now apply one_flag_alike. Qed.
Print Assumptions c13_one_change_per_row.
(* a row of [out] without any key is a temporary one *)
Theorem c13_no_temporary_rows :
  forall pks vals it t out,
    good_item pks it -> length (names_of (fst it) Changed) <= 1 ->
    wide (length vals) t -> valid_stream t (item_changes pks vals it) ->
    (forall c, In c (item_changes pks vals it) -> ~ void c) ->
    squash_batches (fst it) (snd it) = Some out ->
    forall r, In r out -> ~ void (change_of pks vals (fst it) r).
Proof. intros. eapply squash_no_temp; eauto. intros. now apply one_flag_alike. Qed.
Print Assumptions c13_no_temporary_rows.
Example c13_nonvacuous : forall c, In c (item_changes [0] [1; 2] ex_item) -> ~ void c.
Proof.
  intros c Hc. apply in_map_iff in Hc as (r & <- & Hr). cbn in Hr.
  repeat destruct Hr as [<-|Hr]; try contradiction; intros [A B]; vm_compute in A, B; discriminate.
Qed.
(* Full statement: every such batch is accepted, and a flush of it succeeds. It does not hold: a batch with a Changed
   column that cancels out makes the squashing panic, and one without a Changed column makes the flush panic. *)
Theorem c13_cancelling_accepted_refuted :
  (exists it, good_item [0] it /\ valid_stream ex_table (item_changes [0] [1; 2] it) /\
              length (names_of (fst it) Changed) <= 1 /\ squash_batches (fst it) (snd it) = None) /\
  (exists it, good_item [0] it /\ valid_stream ex_table (item_changes [0] [1; 2] it) /\ full_rows [1; 2] it /\
              flush_rows 9 (ex_pp 2) ex_stats [0; 1; 2] ex_files [it] = None).
Proof.
  split.
  - exists (flag_sch, [bat 4 [[VNull; i 5; i 7; VBool true]; [i 5; VNull; VNull; VBool false]]]).
    split; [item|]. split; [valid|]. split; [cbn; lia|]. vm_compute. reflexivity.
  - exists (full_sch, [bat 4 [[VNull; i 5; i 50; i 51]; [i 5; VNull; VNull; VNull]]]).
    split; [item|]. split; [valid|]. split; [split; [reflexivity|intros n; cbn; intuition]|]. vm_compute. reflexivity.
Qed.
Print Assumptions c13_cancelling_accepted_refuted.
(* What is missing: batches with a Changed column that have no effect. *)
Theorem c13_accepted_partial :
  forall pks vals it t,
    good_item pks it -> wide (length vals) t -> valid_stream t (item_changes pks vals it) ->
    names_of (fst it) Changed = [] \/
    (length (names_of (fst it) Changed) <= 1 /\ exists k, apply_all (item_changes pks vals it) t k <> t k) ->
    exists out, squash_batches (fst it) (snd it) = Some out.
Proof.
  intros pks vals it t GI W V [N|[L [k D]]].
  - exact (squash_accepts_plain pks vals it t GI V N).
  - apply (squash_accepts pks vals it t) with (k := k); auto. intros. now apply one_flag_alike.
Qed.
Example c13_accepted_nonvacuous : exists k, apply_all (item_changes [0] [1; 2] ex_flag) ex_table k <> ex_table k.
Proof. exists [i 1]. vm_compute. discriminate. Qed.
Print Assumptions c13_accepted_partial.

(* ---------- C14 ---------- *)
Theorem c14_flush_one_by_one :
  forall bt tcols pk vals files st pp items result,
    good_target tcols [pk] vals files st pp ->
    (forall it, In it items -> good_item [pk] it /\ full_rows vals it) ->
    valid_stream (table_of tcols [pk] vals (concat files)) (all_changes [pk] vals items) ->
    flush_rows bt pp st tcols files items = Some result ->
    holds tcols [pk] vals result (apply_all (all_changes [pk] vals items) (table_of tcols [pk] vals (concat files))).
Proof.
  intros bt tcols pk vals files st pp items result T GI V E.
  eapply flush_full; eauto.
  - intros it Hi. destruct (GI it Hi) as [G [NC _]]. split; auto. intros. now apply no_flags_alike.
  - apply single_told.
  - intros c Hc. apply in_flat_map in Hc as (it & Hi & Hc). destruct (GI it Hi). eapply full_rows_set; eauto.
Qed.
Print Assumptions c14_flush_one_by_one.
(* ... and the flush goes through if the changes have any effect *)
Theorem c14_flush_succeeds :
  forall bt tcols pk vals files st pp items k,
    good_target tcols [pk] vals files st pp ->
    (forall it, In it items -> good_item [pk] it /\ full_rows vals it) ->
    valid_stream (table_of tcols [pk] vals (concat files)) (all_changes [pk] vals items) ->
    apply_all (all_changes [pk] vals items) (table_of tcols [pk] vals (concat files)) k <> table_of tcols [pk] vals (concat files) k ->
    exists result, flush_rows bt pp st tcols files items = Some result.
Proof.
  intros bt tcols pk vals files st pp items k (GC & GT & PP & SO) GI V D.
  eapply flush_succeeds; eauto. intros it Hi. destruct (GI it Hi) as [G [NC _]]. auto.
Qed.
Print Assumptions c14_flush_succeeds.
Definition ex_item2 : list column * list rbatch :=
  (full_sch, [bat 4 [[i 2; i 2; i 104; i 105]; [VNull; i 3; i 32; i 33]; [i 4; i 7; i 44; i 45]]]).
Example c14_nonvacuous :
  (forall it, In it [ex_item; ex_item2] -> good_item [0] it /\ full_rows [1; 2] it) /\
  valid_stream ex_table (all_changes [0] [1; 2] [ex_item; ex_item2]) /\
  flush_rows 9 (ex_pp 2) ex_stats [0; 1; 2] ex_files [ex_item; ex_item2] =
    Some [[i 2; i 104; i 105]; [i 3; i 32; i 33]; [i 1; i 200; i 201]; [i 7; i 44; i 45]].
Proof.
  split; [|split].
  - intros it [<-|[<-|[]]]; (split; [item|split; [reflexivity|intros n; cbn; intuition]]).
  - valid.
  - vm_compute. reflexivity.
Qed.

(* ---------- C15 ---------- *)
(* key columns 0 and 5 *)
Definition two_sch : list column := [col OldPk 0 7; col OldPk 5 7; col NewPk 0 7; col NewPk 5 7; col Value 1 7].
Definition two_files : list (list (list value)) := [[[i 1; i 1; i 10]; [i 1; i 3; i 30]]].
Example two_target : good_target [0; 5; 1] [0; 5] [1] two_files ex_stats (ex_pp 1).
Proof. target. Qed.
(* Full statement: C14 for any number of key columns. It does not hold: an update that changes only the second key
   column leaves the old row behind. *)
Theorem c15_composite_keys_refuted :
  exists items result k,
    (forall it, In it items -> good_item [0; 5] it /\ full_rows [1] it) /\
    valid_stream (table_of [0; 5; 1] [0; 5] [1] (concat two_files)) (all_changes [0; 5] [1] items) /\
    flush_rows 9 (ex_pp 1) ex_stats [0; 5; 1] two_files items = Some result /\
    table_of [0; 5; 1] [0; 5] [1] result k <>
      apply_all (all_changes [0; 5] [1] items) (table_of [0; 5; 1] [0; 5] [1] (concat two_files)) k.
Proof.
  exists [(two_sch, [bat 5 [[i 1; i 1; i 1; i 2; i 10]]])]. eexists. exists [i 1; i 1].
  split; [intros it [<-|[]]; split; [item|split; [reflexivity|intros n; cbn; intuition]]|].
  split; [valid|]. split; [vm_compute; reflexivity|]. vm_compute. discriminate.
Qed.
Print Assumptions c15_composite_keys_refuted.
(* What is missing: updates that change a key in such a way that the first key column stays the same. *)
Theorem c15_composite_keys_partial :
  forall bt tcols pks vals files st pp items result,
    good_target tcols pks vals files st pp ->
    (forall it, In it items -> good_item pks it /\ full_rows vals it) ->
    valid_stream (table_of tcols pks vals (concat files)) (all_changes pks vals items) ->
    keys_told (all_changes pks vals items) ->
    flush_rows bt pp st tcols files items = Some result ->
    holds tcols pks vals result (apply_all (all_changes pks vals items) (table_of tcols pks vals (concat files))).
Proof.
  intros bt tcols pks vals files st pp items result T GI V K E.
  eapply flush_full; eauto.
  - intros it Hi. destruct (GI it Hi) as [G [NC _]]. split; auto. intros. now apply no_flags_alike.
  - intros c Hc. apply in_flat_map in Hc as (it & Hi & Hc). destruct (GI it Hi). eapply full_rows_set; eauto.
Qed.
Definition two_item : list column * list rbatch :=
  (two_sch, [bat 5 [[i 1; i 1; i 1; i 1; i 12]; [i 1; i 3; VNull; VNull; VNull]; [VNull; VNull; i 1; i 2; i 20]]]).
Example c15_nonvacuous :
  (good_item [0; 5] two_item /\ full_rows [1] two_item) /\
  valid_stream (table_of [0; 5; 1] [0; 5] [1] (concat two_files)) (all_changes [0; 5] [1] [two_item]) /\
  keys_told (all_changes [0; 5] [1] [two_item]) /\
  flush_rows 9 (ex_pp 1) ex_stats [0; 5; 1] two_files [two_item] = Some [[i 1; i 1; i 12]; [i 1; i 2; i 20]].
Proof.
  split; [split; [item|split; [reflexivity|intros n; cbn; intuition]]|]. split; [valid|]. split; [|vm_compute; reflexivity].
  left. intros c Hc. apply in_flat_map in Hc as (it & [<-|[]] & Hc). apply in_map_iff in Hc as (r & <- & Hr). cbn in Hr.
  intros o n Eo En. repeat destruct Hr as [<-|Hr]; try contradiction; vm_compute in Eo, En; congruence.
Qed.
(* the other case: moves between keys that differ in the first column *)
Definition two_item' : list column * list rbatch := (two_sch, [bat 5 [[i 1; i 1; i 2; i 1; i 12]]]).
Example c15_nonvacuous' : keys_told (all_changes [0; 5] [1] [two_item']) /\
  flush_rows 9 (ex_pp 1) ex_stats [0; 5; 1] two_files [two_item'] = Some [[i 2; i 1; i 12]; [i 1; i 3; i 30]].
Proof.
  split; [|vm_compute; reflexivity]. right.
  assert (K : forall k, key_in (all_changes [0; 5] [1] [two_item']) k -> k = [i 1; i 1] \/ k = [i 2; i 1]).
  { intros k (c & Hc & X). vm_compute in Hc. destruct Hc as [<-|[]]. cbn in X. destruct X as [[= <-]|[= <-]]; auto. }
  intros k k' Hk Hk' E. apply K in Hk as [->| ->]; apply K in Hk' as [->| ->]; cbn in E; congruence.
Qed.
Print Assumptions c15_composite_keys_partial.

(* ---------- C16 ---------- *)
(* Full statement: C14 for items with any columns and any change flags. It does not hold, each time with a single key
   column and at most one Changed column per item:
   1. an update changes the key and says that column 1 has not changed: column 1 becomes NULL;
   2. row 1 is deleted and inserted again with column 1 not given: it gets the deleted row's value back;
   3. an update sets column 1, a later item updates the row without changing column 1: the first update is lost;
   4. three items without change flags: the first sets column 2 of row 1, the second another row, the third column 1 of
      row 1: the first update is lost. *)
Definition breaks (items : list (list column * list rbatch)) (k : list value) : Prop :=
  (forall it, In it items -> good_item [0] it /\ length (names_of (fst it) Changed) <= 1) /\
  valid_stream ex_table (all_changes [0] [1; 2] items) /\
  exists result, flush_rows 9 (ex_pp 2) ex_stats [0; 1; 2] ex_files items = Some result /\
    table_of [0; 1; 2] [0] [1; 2] result k <> apply_all (all_changes [0] [1; 2] items) ex_table k.
Ltac break := split; [intros ?it Hi; repeat destruct Hi as [<-|Hi]; try contradiction; (split; [item|cbn; lia])|
  split; [valid|eexists; split; [vm_compute; reflexivity|vm_compute; discriminate]]].
Theorem c16_partial_updates_refuted :
  breaks [(flag_sch, [bat 4 [[i 1; i 9; VNull; VBool false]]])] [i 9] /\
  breaks [(one_sch 2, [bat 3 [[i 1; VNull; VNull]; [VNull; i 1; i 5]]])] [i 1] /\
  breaks [(one_sch 1, [bat 3 [[i 1; i 1; i 5]]]); (flag_sch, [bat 4 [[i 1; i 1; VNull; VBool false]]])] [i 1] /\
  breaks [(one_sch 2, [bat 3 [[i 1; i 1; i 5]]]); (one_sch 1, [bat 3 [[i 2; i 2; i 6]]]); (one_sch 1, [bat 3 [[i 1; i 1; i 7]]])] [i 1].
Proof. split; [break|split; [break|split; break]]. Qed.
Print Assumptions c16_partial_updates_refuted.
(* What holds: every change that does not give all columns updates a row in place or inserts a row that the table does
   not have, and one of:
   - all later items give all columns,
   - there are two items, without change flags,
   - every item carries the columns that the earlier ones carry, the later ones without change flags. *)
Theorem c16_partial_updates_partial :
  forall bt tcols pks vals files st pp items result,
    good_target tcols pks vals files st pp ->
    (forall it, In it items -> good_item pks it /\ length (names_of (fst it) Changed) <= 1) ->
    valid_stream (table_of tcols pks vals (concat files)) (all_changes pks vals items) ->
    keys_told (all_changes pks vals items) ->
    (forall c, In c (all_changes pks vals items) -> in_place (table_of tcols pks vals (concat files)) c) ->
    (forall c, In c (all_changes pks vals (tl items)) -> all_set c) \/
    (length items = 2 /\ forall it, In it items -> names_of (fst it) Changed = []) \/
    widening items ->
    flush_rows bt pp st tcols files items = Some result ->
    holds tcols pks vals result (apply_all (all_changes pks vals items) (table_of tcols pks vals (concat files))).
Proof.
  intros bt tcols pks vals files st pp items result T GI V K IP C E.
  assert (GI' : forall it, In it items -> good_item pks it /\ forall r, In r (item_rows it) -> flags_alike (fst it) r).
  { intros it Hi. destruct (GI it Hi). split; auto. intros. now apply one_flag_alike. }
  destruct C as [A|[[L N]|W]].
  - eapply flush_first_partial; eauto.
  - destruct items as [|a [|b [|? ?]]]; try discriminate.
    apply (flush_two bt tcols pks vals files st pp T _ GI' V a b); auto; apply N; cbn; auto.
  - eapply flush_widening; eauto.
Qed.
Example c16_nonvacuous :
  let items := [ex_flag; (full_sch, [bat 4 [[i 1; i 8; i 5; i 6]]])] in
  (forall it, In it items -> good_item [0] it /\ length (names_of (fst it) Changed) <= 1) /\
  valid_stream ex_table (all_changes [0] [1; 2] items) /\
  (forall c, In c (all_changes [0] [1; 2] items) -> in_place ex_table c) /\
  widening items /\
  flush_rows 9 (ex_pp 2) ex_stats [0; 1; 2] ex_files items = Some [[i 2; i 20; i 21]; [i 8; i 5; i 6]; [i 3; i 30; i 31]].
Proof.
  cbv zeta. split; [intros it Hi; repeat destruct Hi as [<-|Hi]; try contradiction; (split; [item|cbn; lia])|].
  split; [valid|]. split; [|split; [|vm_compute; reflexivity]].
  - intros c Hc n E. vm_compute in Hc.
    repeat destruct Hc as [<-|Hc]; try contradiction; cbn in E; injection E as <-; cbn; auto.
    right. left. fa discriminate.
  - cbn. split; [|split; [|exact I]].
    + intros it [<-|[]]. split; [reflexivity|]. intros n; cbn; intuition.
    + intros it [].
Qed.
Print Assumptions c16_partial_updates_partial.

(* ---------- C17 ---------- *)
(* rows whose key no change mentions stay as they are *)
Theorem c17_other_rows_untouched :
  forall bt tcols pks vals files st pp items result row,
    good_target tcols pks vals files st pp ->
    (forall it, In it items -> good_item pks it) ->
    flush_rows bt pp st tcols files items = Some result ->
    ~ mentioned pks items (row_key tcols pks row) ->
    count_occ row_dec result row = count_occ row_dec (concat files) row.
Proof. intros bt tcols pks vals files st pp items result row (GC & GT & PP & SO) GI E. eapply frame_rows; eauto. Qed.
Print Assumptions c17_other_rows_untouched.
(* columns that no item carries keep their values *)
Theorem c17_other_columns_untouched :
  forall bt tcols pks vals files st pp items result r b n,
    good_target tcols pks vals files st pp ->
    (forall it, In it items -> good_item pks it) ->
    flush_rows bt pp st tcols files items = Some result ->
    In n vals -> ~ carried items n ->
    In r result -> In b (concat files) -> row_key tcols pks r = row_key tcols pks b ->
    tread tcols r n = tread tcols b n.
Proof. intros bt tcols pks vals files st pp items result r b n (GC & GT & PP & SO) GI E. eapply frame_cols; eauto. Qed.
Print Assumptions c17_other_columns_untouched.
Example c17_nonvacuous :
  let items := [(one_sch 1, [bat 3 [[i 1; i 1; i 5]; [i 2; VNull; VNull]]])] in
  (forall it, In it items -> good_item [0] it) /\
  flush_rows 9 (ex_pp 2) ex_stats [0; 1; 2] ex_files items = Some [[i 1; i 5; i 11]; [i 3; i 30; i 31]] /\
  ~ carried items 2 /\ ~ mentioned [0] items (row_key [0; 1; 2] [0] [i 3; i 30; i 31]).
Proof.
  cbv zeta. split; [intros it [<-|[]]; item|]. split; [vm_compute; reflexivity|]. split.
  - intros (it & [<-|[]] & H). cbn in H. intuition congruence.
  - intros (it & r & ro & [<-|[]] & Hr & [->| ->] & H); cbn in Hr; repeat destruct Hr as [<-|Hr]; try contradiction; vm_compute in H; congruence.
Qed.
(* Full statement: also for a row whose key is changed. It does not hold: the columns that the update does not mention
   are lost. *)
Theorem c17_moved_row_columns_refuted :
  exists items result r b n,
    (forall it, In it items -> good_item [0] it) /\
    valid_stream ex_table (all_changes [0] [1; 2] items) /\
    flush_rows 9 (ex_pp 2) ex_stats [0; 1; 2] ex_files items = Some result /\
    In n [1; 2] /\ ~ carried items n /\
    all_changes [0] [1; 2] items = [{| ch_old := Some [i 1]; ch_new := Some [i 9]; ch_set := [Some (i 5); None] |}] /\
    In b (concat ex_files) /\ row_key [0; 1; 2] [0] b = [i 1] /\
    In r result /\ row_key [0; 1; 2] [0] r = [i 9] /\ tread [0; 1; 2] r n <> tread [0; 1; 2] b n.
Proof.
  exists [(one_sch 1, [bat 3 [[i 1; i 9; i 5]]])]. eexists. exists [i 9; i 5; VNull], [i 1; i 10; i 11], 2.
  split; [intros it [<-|[]]; item|]. split; [valid|]. split; [vm_compute; reflexivity|]. split; [cbn; auto|].
  split; [intros (it & [<-|[]] & H); cbn in H; intuition congruence|].
  split; [vm_compute; reflexivity|]. split; [left; reflexivity|]. split; [reflexivity|].
  split; [cbn; auto|]. split; [reflexivity|]. vm_compute. discriminate.
Qed.
Print Assumptions c17_moved_row_columns_refuted.

(* ---------- C18 ---------- *)
(* Full statement: [compatible a b = true -> a = b]. It does not hold: a schema is compatible with an extension of it, and
   the cells of the additional column are dropped. *)
Theorem c18_same_columns_refuted :
  exists a b ba bb bb',
    compatible a b = true /\ In 2 (names_of b Value) /\ ~ In 2 (names_of a Value) /\
    good_item [0] (a, [ba]) /\ good_item [0] (b, [bb]) /\ good_item [0] (b, [bb']) /\
    item_changes [0] [1; 2] (b, [bb]) <> item_changes [0] [1; 2] (b, [bb']) /\
    squash_batches a [ba; bb] <> None /\ squash_batches a [ba; bb] = squash_batches a [ba; bb'].
Proof.
  exists (one_sch 1), full_sch, (bat 3 [[i 1; i 1; i 5]]), (bat 4 [[i 2; i 2; i 6; i 7]]), (bat 4 [[i 2; i 2; i 6; i 8]]).
  split; [reflexivity|]. split; [cbn; auto|]. split; [cbn; intuition congruence|].
  split; [item|]. split; [item|]. split; [item|]. split; [vm_compute; discriminate|]. split; [vm_compute; discriminate|].
  vm_compute. reflexivity.
Qed.
Print Assumptions c18_same_columns_refuted.
(* What is missing: schemas with different numbers of columns. *)
Theorem c18_same_columns_partial :
  forall a b, length a = length b -> (compatible a b = true <-> a = b).
Proof. intros a b L. split; [now apply compatible_eq|intros ->; apply compatible_refl]. Qed.
Example c18_nonvacuous : length full_sch = length flag_sch /\ compatible full_sch flag_sch = false.
Proof. vm_compute. auto. Qed.
Print Assumptions c18_same_columns_partial.

(* ---------- C19 ---------- *)
(* [keep] says which files are rewritten *)
Theorem c19_pruning_sound :
  forall tcols pks vals files st pp items its keep k f rows row,
    good_target tcols pks vals files st pp ->
    (forall it, In it items -> good_item pks it /\ length (names_of (fst it) Changed) <= 1) ->
    valid_stream (table_of tcols pks vals (concat files)) (all_changes pks vals items) ->
    squash_all items = Some its -> prune_partitions pp its st (length files) = Some keep ->
    key_in (all_changes pks vals items) k ->
    nth_error files f = Some rows -> In row rows -> row_key tcols pks row = k ->
    nth f keep false = true.
Proof.
  intros tcols pks vals files st pp items its keep k f rows row T GI V.
  eapply flush_prune; eauto. intros it Hi. destruct (GI it Hi). split; auto. intros. now apply one_flag_alike.
Qed.
Print Assumptions c19_pruning_sound.
(* the same for squashed items, whatever they are *)
Theorem c19_pruning_sound_any :
  forall tcols pks vals files st pp its keep it r ro k f rows row,
    good_target tcols pks vals files st pp ->
    (forall it, In it its -> good_schema pks (fst it) /\ forall r, In r (snd it) -> good_row pks (fst it) r) ->
    prune_partitions pp its st (length files) = Some keep ->
    In it its -> In r (snd it) -> (ro = OldPk \/ ro = NewPk) -> as_key (read_key (fst it) r ro pks) = Some k ->
    nth_error files f = Some rows -> In row rows -> row_key tcols pks row = k ->
    nth f keep false = true.
Proof.
  intros tcols pks vals files st pp its keep it r ro k f rows row (GC & GT & PP & SO) GI.
  exact (prune_sound tcols pks its GI files st pp PP SO keep it r ro k f rows row).
Qed.
Print Assumptions c19_pruning_sound_any.
(* large files with statistics, so that the pruning is done row by row; the second file is not rewritten *)
Definition big_stats : fstats :=
  {| st_min := fun n => if Nat.eqb n 0 then Some [i 1; i 3] else None;
     st_max := fun n => if Nat.eqb n 0 then Some [i 2; i 3] else None;
     st_rows := [Some 2000000%Z; Some 2000000%Z] |}.
Definition ex_prune : list column * list rbatch := (full_sch, [bat 4 [[i 2; i 2; i 104; i 105]; [VNull; i 9; i 32; i 33]]]).
Example c19_nonvacuous :
  good_target [0; 1; 2] [0] [1; 2] ex_files big_stats (ex_pp 2) /\ good_item [0] ex_prune /\
  valid_stream ex_table (all_changes [0] [1; 2] [ex_prune]) /\
  exists its, squash_all [ex_prune] = Some its /\ prune_partitions (ex_pp 2) its big_stats 2 = Some [true; false].
Proof.
  split; [split; [good_cols|split; [good_tab|split; [apply ex_pp_ok|]]]|].
  - intros n f rows r Hf Hr. unfold big_stats. cbn [st_min st_max].
    destruct (Nat.eqb_spec n 0) as [->|]; [|split; discriminate].
    destruct f as [|[|f]]; cbn in Hf; [injection Hf as <-|injection Hf as <-|destruct f; discriminate];
      cbn in Hr; repeat destruct Hr as [<-|Hr]; try contradiction; (split; intros ms [= <-]; right; reflexivity).
  - split; [item|]. split; [valid|]. eexists. split; vm_compute; reflexivity.
Qed.

(* ---------- C20 ---------- *)
(* Full statement: [q1] was flushed before the crash, [q1 ++ q2] is sent again, all changes carry full rows; the table
   ends up as if [q1 ++ q2] had been applied once. It does not hold: [INSERT 5; DELETE 5] cancels out when it is squashed
   on the second time, so the row 5 that was stored the first time stays. *)
Theorem c20_replay_refuted :
  exists items q1 q2 tp result k,
    wide 2 tp /\ (forall it, In it items -> good_item [0] it /\ full_rows [1; 2] it) /\
    all_changes [0] [1; 2] items = q1 ++ q2 /\ valid_stream tp (q1 ++ q2) /\
    (forall k, table_of [0; 1; 2] [0] [1; 2] (concat [[[i 5; i 50; i 51]]]) k = apply_all q1 tp k) /\
    flush_rows 9 (ex_pp 1) ex_stats [0; 1; 2] [[[i 5; i 50; i 51]]] items = Some result /\
    table_of [0; 1; 2] [0] [1; 2] result k <> apply_all (q1 ++ q2) tp k.
Proof.
  exists [(full_sch, [bat 4 [[VNull; i 5; i 50; i 51]; [i 5; VNull; VNull; VNull]; [VNull; i 6; i 60; i 61]]])].
  exists [{| ch_old := None; ch_new := Some [i 5]; ch_set := [Some (i 50); Some (i 51)] |}].
  eexists. exists (fun _ => None). eexists. exists [i 5].
  split; [intros k vs; discriminate|].
  split; [intros it [<-|[]]; split; [item|split; [reflexivity|intros n; cbn; intuition]]|].
  split; [vm_compute; reflexivity|]. split; [valid|].
  split.
  { intros k. unfold table_of, apply_all, apply1, okeqb. cbn [concat find app fold_left ch_new ch_old].
    change (row_key [0; 1; 2] [0] [i 5; i 50; i 51]) with [i 5]. destruct (keqb [i 5] k); reflexivity. }
  split; [vm_compute; reflexivity|]. vm_compute. discriminate.
Qed.
Print Assumptions c20_replay_refuted.
(* What is missing: deletes and updates that change keys. *)
Theorem c20_replay_partial :
  forall bt tcols pks vals files st pp items tp q1 q2 result,
    good_target tcols pks vals files st pp ->
    (forall it, In it items -> good_item pks it /\ length (names_of (fst it) Changed) <= 1) ->
    wide (length vals) tp -> all_changes pks vals items = q1 ++ q2 -> valid_stream tp (q1 ++ q2) ->
    (forall k, table_of tcols pks vals (concat files) k = apply_all q1 tp k) ->
    (forall c, In c (q1 ++ q2) -> upsert c) ->
    flush_rows bt pp st tcols files items = Some result ->
    holds tcols pks vals result (apply_all (q1 ++ q2) tp).
Proof.
  intros bt tcols pks vals files st pp items tp q1 q2 result T GI W E V T1 U.
  eapply flush_again; eauto. intros it Hi. destruct (GI it Hi). split; auto. intros. now apply one_flag_alike.
Qed.
(* row 1 and row 2 have been stored, the second update of row 1 and row 3 have not *)
Example c20_nonvacuous :
  let it := (full_sch, [bat 4 [[VNull; i 1; i 9; i 9]; [i 1; i 1; i 10; i 11]; [VNull; i 2; i 20; i 21]; [i 1; i 1; i 12; i 13]; [VNull; i 3; i 30; i 31]]]) in
  let files := [[[i 1; i 10; i 11]; [i 2; i 20; i 21]]] in
  let cs := all_changes [0] [1; 2] [it] in
  good_target [0; 1; 2] [0] [1; 2] files ex_stats (ex_pp 1) /\ good_item [0] it /\
  valid_stream (fun _ => None) cs /\
  (forall k, table_of [0; 1; 2] [0] [1; 2] (concat files) k = apply_all (firstn 3 cs) (fun _ => None) k) /\
  (forall c, In c cs -> upsert c) /\
  flush_rows 9 (ex_pp 1) ex_stats [0; 1; 2] files [it] = Some [[i 1; i 12; i 13]; [i 2; i 20; i 21]; [i 3; i 30; i 31]].
Proof.
  cbv zeta. split; [target|]. split; [item|]. split; [valid|]. split; [|split; [|vm_compute; reflexivity]].
  - intros k. unfold table_of, apply_all, apply1, okeqb. cbn [concat find app fold_left ch_new ch_old firstn all_changes flat_map item_changes map item_rows fst snd rb_rows bat].
    change (row_key [0; 1; 2] [0] [i 1; i 10; i 11]) with [i 1]. change (row_key [0; 1; 2] [0] [i 2; i 20; i 21]) with [i 2].
    vm_compute (ch_new _). vm_compute (ch_old _).
    unfold i. destruct (list_eq_dec value_eq_dec [VInt 1] k) as [<-|N1]; [reflexivity|].
    destruct (list_eq_dec value_eq_dec [VInt 2] k) as [<-|N2]; [reflexivity|].
    unfold keqb at 1 2. do 2 (destruct (list_eq_dec value_eq_dec _ k); [congruence|]).
    unfold keqb. do 2 (destruct (list_eq_dec value_eq_dec _ k); [congruence|]). reflexivity.
  - intros c Hc. vm_compute in Hc. repeat destruct Hc as [<-|Hc]; try contradiction;
      (split; [fa discriminate|split; [discriminate|intros o n A B; cbn in A, B; congruence]]).
Qed.
Print Assumptions c20_replay_partial.

(* ---------- C21 ---------- *)
(* the columns of a message: role (None if unknown) and name of each, and the types of the batch columns *)
Theorem c21_schema_validation :
  forall bool_type descs fields sch,
    try_new bool_type descs fields true = Some sch <->
    descs = map (fun c => (Some (c_role c), c_name c)) sch /\ fields = map c_type sch /\ usable bool_type sch.
Proof. exact try_new_iff. Qed.
Example c21_nonvacuous : try_new 9 [(Some OldPk, 0); (Some NewPk, 0); (Some Value, 1); (Some Changed, 1)] [7; 7; 7; 9] true = Some flag_sch /\
  try_new 9 [(Some OldPk, 0); (Some NewPk, 0); (Some Value, 1); (Some Changed, 2)] [7; 7; 7; 9] true = None.
Proof. vm_compute. auto. Qed.
Print Assumptions c21_schema_validation.

(* ---------- C67 ---------- *)
(* Full statement: a squashed batch can take the place of the batches it was made from, as a stream of changes. It does not
   hold: UPDATE 1; DELETE 2; UPDATE 1 to key 2 is squashed to [1 to 2; DELETE 2], and if this is squashed again (more
   changes have arrived) row 2 is lost. *)
Theorem c67_squashing_again_refuted :
  exists it out out2 k,
    good_item [0] it /\ full_rows [1; 2] it /\ valid_stream ex_table (item_changes [0] [1; 2] it) /\
    squash_batches (fst it) (snd it) = Some out /\
    squash_batches (fst it) [bat 4 out] = Some out2 /\
    ~ at_once (map (change_of [0] [1; 2] (fst it)) out2) ex_table (apply_all (item_changes [0] [1; 2] it) ex_table) /\
    apply_all (item_changes [0] [1; 2] it) ex_table k <> None /\
    forall r, In r out2 -> ch_new (change_of [0] [1; 2] (fst it) r) <> Some k.
Proof.
  exists (full_sch, [bat 4 [[i 1; i 1; i 5; i 6]; [i 2; VNull; VNull; VNull]; [i 1; i 2; i 7; i 8]]]).
  eexists. eexists. exists [i 2].
  split; [item|]. split; [split; [reflexivity|intros n; cbn; intuition]|]. split; [valid|].
  split; [vm_compute; reflexivity|]. split; [vm_compute; reflexivity|]. split; [|split].
  - intros H. destruct (H [i 2]) as (_ & _ & X). cbn [map] in X.
    assert (Y : apply_all (item_changes [0] [1; 2] (full_sch, [bat 4 [[i 1; i 1; i 5; i 6]; [i 2; VNull; VNull; VNull]; [i 1; i 2; i 7; i 8]]])) ex_table [i 2] = ex_table [i 2]).
    { apply X. intros c [<-|[]]. vm_compute. split; discriminate. }
    vm_compute in Y. discriminate.
  - vm_compute. discriminate.
  - intros r [<-|[]]. vm_compute. discriminate.
Qed.
Print Assumptions c67_squashing_again_refuted.
(* What is missing: updates that change keys. *)
Theorem c67_squashing_again_partial :
  forall pks vals it t out,
    good_item pks it -> length (names_of (fst it) Changed) <= 1 ->
    wide (length vals) t -> valid_stream t (item_changes pks vals it) ->
    (forall c, In c (item_changes pks vals it) -> keeps_key c) ->
    squash_batches (fst it) (snd it) = Some out ->
    valid_stream t (map (change_of pks vals (fst it)) out) /\
    forall k, apply_all (map (change_of pks vals (fst it)) out) t k = apply_all (item_changes pks vals it) t k.
Proof. intros. eapply resquash; eauto. intros. now apply one_flag_alike. Qed.
Example c67_nonvacuous : forall c, In c (item_changes [0] [1; 2] ex_flag) -> keeps_key c.
Proof.
  intros c Hc o n A B. vm_compute in Hc. repeat destruct Hc as [<-|Hc]; try contradiction; cbn in A, B; congruence.
Qed.
Print Assumptions c67_squashing_again_partial.

(* ---------- C68 ---------- *)
(* Full statement: a message whose columns are accepted (C21) is squashed according to the keys that its columns name. It
   does not hold: the key columns may be listed in different orders for the old and the new key, but tuples are compared
   by position. Here the row with columns 0 = 1, 5 = 2 is inserted and then updated; the update is not recognised as one
   of the inserted row, and the result has two changes with that new key. *)
Definition twisted : list column := [col OldPk 0 7; col OldPk 5 7; col NewPk 5 7; col NewPk 0 7; col Value 1 7].
Theorem c68_key_order_refuted :
  exists rows out,
    try_new 9 (map (fun c => (Some (c_role c), c_name c)) twisted) (map c_type twisted) true = Some twisted /\
    valid_stream (fun _ => None) (map (change_of [0; 5] [1] twisted) rows) /\
    squash_rows twisted rows = Some out /\
    ~ one_per_row (map (change_of [0; 5] [1] twisted) out).
Proof.
  exists [[VNull; VNull; i 2; i 1; i 10]; [i 1; i 2; i 2; i 1; i 11]]. eexists.
  split; [reflexivity|]. split; [valid|]. split; [vm_compute; reflexivity|].
  intros [_ N]. vm_compute in N. inversion N as [|? ? X _]. apply X. left. reflexivity.
Qed.
Print Assumptions c68_key_order_refuted.
(* What holds: with the same order on both sides ([good_schema], part of [good_item]) there is one change per key. *)
Theorem c68_key_order_partial :
  forall pks vals it t out,
    good_item pks it -> length (names_of (fst it) Changed) <= 1 ->
    wide (length vals) t -> valid_stream t (item_changes pks vals it) ->
    squash_batches (fst it) (snd it) = Some out ->
    one_per_row (map (change_of pks vals (fst it)) out) /\
    at_once (map (change_of pks vals (fst it)) out) t (apply_all (item_changes pks vals it) t).
Proof. intros. split; [eapply c13_one_change_per_row|eapply c11_squashing_preserves_effect]; eauto. Qed.
Print Assumptions c68_key_order_partial.
