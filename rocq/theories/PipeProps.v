(* Property C126 (properties.jsonl): a synchronised table from its messages to its files. Vocabulary: PipeSpec.v and SyncDataSpec.v; the program: PipeModel.v
   ([run] follows a history of messages, squashings and flushes, [step] is one event and whether it succeeded).

   In the theorems: [tcols] are the columns of the table, [pks] its key columns, [vals] the others; [f0] are the rows in its files at the beginning. *)
From Coq Require Import List Arith ZArith Bool Lia.
From Verif Require Import SyncDataModel SyncDataSpec SyncAbsSquash SyncSquashProofs SyncAbsMerge SyncMergeMain SyncFlushProofs SyncDataMain SyncDataProps PipeModel PipeSpec PipeProofs.
Import ListNotations.

Section Common.
Variables (max_rows bt : nat) (tcols pks vals : list nat) (stats : list (list (list value)) -> fstats) (prune : list (list (list value)) -> list (list (nat * (value * value))) -> list bool) (f0 : list (list (list value))).
Notation go := (run max_rows bt tcols stats prune (start f0)).
Notation t0 := (table_of tcols pks vals (concat f0)).
Definition good_run (es1 es2 : list event) : Prop := exists n1 n2, n1 <= n2 /\ shows tcols pks vals f0 es1 (files (go es1)) n1 /\ shows tcols pks vals f0 (es1 ++ es2) (files (go (es1 ++ es2))) n2.
Definition good_flush (es : list event) (cut : list (list value) -> list (list (list value))) : Prop :=
  let r := step max_rows bt tcols stats prune (go es) (Flush cut) in
  (snd r = true -> queue (fst r) = [] /\ shows tcols pks vals f0 es (files (fst r)) (length (messages es))) /\
  ((exists k, apply_all (all_changes pks vals (messages es)) t0 k <> table_of tcols pks vals (concat (files (go es))) k) -> snd r = true).
Lemma calm_classes es : proper tcols pks vals f0 es -> calm pks vals go es ->
  exists C again, closed C /\ (again = true -> forall c, C c -> keeps_key c) /\ (forall c, C c -> length (ch_set c) = length vals) /\ (forall c, C c -> all_set c) /\
    (forall c, C c -> forall o n, ch_old c = Some o -> ch_new c = Some n -> o = n \/ hd VNull o <> hd VNull n) /\ (forall c, In c (all_changes pks vals (messages es)) -> C c) /\
    (again = true \/ undisturbed go es).
Proof.
  intros (_ & _ & _ & GM & _ & _) K.
  assert (SA : forall c, In c (all_changes pks vals (messages es)) -> sized (length vals) c /\ all_set c).
  { intros c I. split; [eapply all_changes_sized; eauto|]. apply in_flat_map in I. destruct I as (it & Hi & I). destruct (GM it Hi) as [G F]. eapply full_rows_set; eauto. }
  destruct K as [K|[A [K|K]]].
  - exists (fun c => (sized (length vals) c /\ all_set c) /\ keeps_key c), true. split; [apply closed_and; [apply all_set_closed|apply keeps_key_closed]|].
    split; [intros _ c H; apply H|]. split; [intros c H; apply H|]. split; [intros c H; apply H|]. split; [intros c [_ H] o n Eo En; left; exact (H o n Eo En)|]. split; [|left; reflexivity].
    intros c I. split; [exact (SA c I)|exact (K c I)].
  - exists (fun c => (sized (length vals) c /\ all_set c) /\ keeps_key c), true. split; [apply closed_and; [apply all_set_closed|apply keeps_key_closed]|].
    split; [intros _ c H; apply H|]. split; [intros c H; apply H|]. split; [intros c H; apply H|]. split; [intros c [_ H] o n Eo En; left; exact (H o n Eo En)|]. split; [|left; reflexivity].
    intros c I. split; [exact (SA c I)|exact (K c I)].
  - exists (fun c => (sized (length vals) c /\ all_set c) /\ keys_of (key_in (all_changes pks vals (messages es))) c), false. split; [apply closed_and; [apply all_set_closed|apply keys_of_closed]|].
    split; [discriminate|]. split; [intros c H; apply H|]. split; [intros c H; apply H|]. split; [|split; [|right; exact A]].
    + intros c [_ H] o n Eo En. destruct (value_eq_dec (hd VNull o) (hd VNull n)) as [D|D]; [left; apply K; [apply H; left; exact Eo|apply H; right; exact En|exact D]|right; exact D].
    + intros c I. split; [exact (SA c I)|]. intros k D. exists c. split; [exact I|exact D].
Qed.
Lemma start_inv C again : good_table tcols pks (concat f0) -> Inv pks vals C again tcols t0 [] 0 (start f0).
Proof. intros G. split; [cbn; lia|]. cbn [start files queue]. split; [split; [exact G|reflexivity]|]. split; [constructor; intros k; reflexivity|intros p []]. Qed.
Lemma common : engine_ok tcols stats prune -> forall es1 es2, proper tcols pks vals f0 (es1 ++ es2) -> calm pks vals go (es1 ++ es2) -> good_run es1 es2 /\ forall cut, (forall rows, concat (cut rows) = rows) -> good_flush (es1 ++ es2) cut.
Proof.
  intros EN es1 es2 P K. destruct (calm_classes _ P K) as (C & again & HC & KC & SC & AS & KT & IC & A). destruct P as (GC & GT & CU & GM & SW & V).
  assert (U : forall m, In m (messages (es1 ++ es2)) -> usable_item pks vals C (fresh_item m)).
  { intros m I. destruct m as [sch bs]. destruct (GM _ I) as [G F]. split; [exact G|]. split; [apply F|]. intros c Hc. apply IC. apply in_flat_map. exists (sch, bs). split; [exact I|exact Hc]. }
  rewrite messages_app in *. rewrite all_changes_app in V. pose proof (proj1 (proj1 (valid_app _ _ _) V)) as V1. rewrite <- all_changes_app in V.
  destruct (run_inv pks vals C again HC KC SC max_rows bt tcols stats prune GC EN AS KT t0 es1 (start f0) [] 0 (start_inv C again GT)) as (n1 & _ & I1).
  { intros m I. apply U. apply in_or_app. left. exact I. }
  { exact V1. }
  { apply (same_widths_incl _ (messages es1 ++ messages es2)); [apply incl_appl; apply incl_refl|exact SW]. }
  { intros cut rows I. apply CU. apply in_or_app. left. exact I. }
  { destruct A as [A|A]; [left; exact A|right]. intros a sch bs b E p I. apply (A a sch bs (b ++ es2)); [rewrite E, <- app_assoc; reflexivity|exact I]. }
  destruct (run_inv pks vals C again HC KC SC max_rows bt tcols stats prune GC EN AS KT t0 es2 (go es1) (messages es1) n1 I1) as (n2 & L & I2).
  { intros m I. apply U. apply in_or_app. right. exact I. }
  { exact V. }
  { exact SW. }
  { intros cut rows I. apply CU. apply in_or_app. right. exact I. }
  { destruct A as [A|A]; [left; exact A|right]. intros a sch bs b E p I. apply (A (es1 ++ a) sch bs b); [rewrite E, <- app_assoc; reflexivity|]. unfold run in *. rewrite fold_left_app. exact I. }
  assert (R : go (es1 ++ es2) = run max_rows bt tcols stats prune (go es1) es2) by (unfold run; apply fold_left_app).
  rewrite <- R in I2. split.
  - exists n1, n2. split; [exact L|]. split; [exact (conj (proj1 I1) (proj1 (proj2 I1)))|]. unfold shows. rewrite messages_app. exact (conj (proj1 I2) (proj1 (proj2 I2))).
  - intros cut HCut. unfold good_flush. destruct (step_flush pks vals C again HC KC SC max_rows bt tcols stats prune GC EN AS KT t0 _ n2 _ cut I2 HCut) as (n' & _ & I3 & ALL & GO). split.
    + intros S. destruct (ALL S) as [EQ ->]. split; [exact EQ|]. unfold shows. rewrite messages_app. exact (conj (proj1 I3) (proj1 (proj2 I3))).
    + intros (k & D). apply GO. exists k. rewrite messages_app in D. exact D.
Qed.
End Common.

(* ---------- C126 ---------- *)
Definition all_files (fs : list (list (list value))) := ex_pp (length fs).
Definition no_stats (fs : list (list (list value))) := ex_stats.
Example engine_exists : engine_ok [0; 1; 2] no_stats all_files.
Proof. intros fs. split; [apply ex_stats_ok|apply ex_pp_ok]. Qed.

Definition moves : event := Message full_sch [bat 4 [[i 1; i 1; i 5; i 6]; [i 2; VNull; VNull; VNull]; [i 1; i 2; i 7; i 8]]].
Definition adds (k : Z) : event := Message full_sch [bat 4 [[VNull; i k; i 40; i 41]]].
Definition one_file (rows : list (list value)) : list (list (list value)) := [rows].
Ltac hist := split; [good_cols|split; [good_tab|split; [intros ?cut ?rows H; cbn in H; repeat destruct H as [H|H]; try discriminate; try contradiction; injection H as <-; cbn; apply app_nil_r|
  split; [intros ?m H; cbn in H; repeat destruct H as [<-|H]; try contradiction; (split; [item|split; [reflexivity|intros ?n; cbn; intuition]])|
  split; [intros ?a ?b more H H' E; cbn in H, H'; repeat destruct H as [<-|H]; try contradiction; repeat destruct H' as [<-|H']; try contradiction;
    (destruct more as [|? ?]; [reflexivity|apply (f_equal (@length _)) in E; rewrite app_length in E; cbn in E; lia])|valid]]]]].

(* In a proper and calm history the files show the table after some number of messages, and never go back to an earlier one.
   What is missing: c126_refuted, and rows without all columns (C16). *)
Theorem c126_prefix_partial :
  forall max_rows bt tcols pks vals stats prune f0 es1 es2,
    engine_ok tcols stats prune -> proper tcols pks vals f0 (es1 ++ es2) -> calm pks vals (run max_rows bt tcols stats prune (start f0)) (es1 ++ es2) ->
    exists n1 n2, n1 <= n2 /\
      shows tcols pks vals f0 es1 (files (run max_rows bt tcols stats prune (start f0) es1)) n1 /\
      shows tcols pks vals f0 (es1 ++ es2) (files (run max_rows bt tcols stats prune (start f0) (es1 ++ es2))) n2.
Proof. intros max_rows bt tcols pks vals stats prune f0 es1 es2 EN P K. exact (proj1 (common max_rows bt tcols pks vals stats prune f0 EN es1 es2 P K)). Qed.
Print Assumptions c126_prefix_partial.
(* After a flush that succeeds they show the table after all messages, and nothing is left in the queue. *)
Theorem c126_flush_partial :
  forall max_rows bt tcols pks vals stats prune f0 es cut s',
    engine_ok tcols stats prune -> proper tcols pks vals f0 es -> calm pks vals (run max_rows bt tcols stats prune (start f0)) es -> (forall rows, concat (cut rows) = rows) ->
    step max_rows bt tcols stats prune (run max_rows bt tcols stats prune (start f0) es) (Flush cut) = (s', true) ->
    queue s' = [] /\ shows tcols pks vals f0 es (files s') (length (messages es)).
Proof.
  intros max_rows bt tcols pks vals stats prune f0 es cut s' EN P K HCut E. rewrite <- (app_nil_r es) in P, K.
  destruct (proj2 (common max_rows bt tcols pks vals stats prune f0 EN es [] P K) cut HCut) as [H _]. rewrite app_nil_r in H. rewrite E in H. exact (H eq_refl).
Qed.
Print Assumptions c126_flush_partial.
(* It succeeds whenever the table does not show all messages yet: however often flushes were stopped before, the next one that is not stopped catches up. *)
Theorem c126_catches_up_partial :
  forall max_rows bt tcols pks vals stats prune f0 es cut,
    engine_ok tcols stats prune -> proper tcols pks vals f0 es -> calm pks vals (run max_rows bt tcols stats prune (start f0)) es -> (forall rows, concat (cut rows) = rows) ->
    (exists k, apply_all (all_changes pks vals (messages es)) (table_of tcols pks vals (concat f0)) k <> table_of tcols pks vals (concat (files (run max_rows bt tcols stats prune (start f0) es))) k) ->
    snd (step max_rows bt tcols stats prune (run max_rows bt tcols stats prune (start f0) es) (Flush cut)) = true.
Proof.
  intros max_rows bt tcols pks vals stats prune f0 es cut EN P K HCut D. rewrite <- (app_nil_r es) in P, K.
  destruct (proj2 (common max_rows bt tcols pks vals stats prune f0 EN es [] P K) cut HCut) as [_ H]. rewrite app_nil_r in H. exact (H D).
Qed.
Print Assumptions c126_catches_up_partial.
(* a calm history with a move between keys *)
Example c126_nonvacuous :
  proper [0; 1; 2] [0] [1; 2] ex_files [moves; adds 4] /\ calm [0] [1; 2] (run 100 9 [0; 1; 2] no_stats all_files (start ex_files)) [moves; adds 4] /\
  files (fst (step 100 9 [0; 1; 2] no_stats all_files (run 100 9 [0; 1; 2] no_stats all_files (start ex_files) [moves; adds 4]) (Flush one_file))) = [[[i 2; i 7; i 8]; [i 4; i 40; i 41]; [i 3; i 30; i 31]]].
Proof.
  split; [hist|]. split; [|vm_compute; reflexivity]. right. split; [|apply single_told].
  intros es1 sch bs es2 E p I. destruct es1 as [|e1 [|e2 es1]]; [destruct I| |].
  - cbn in E. injection E as <- _ _ _. vm_compute in I. destruct I as [<-|[]]. reflexivity.
  - injection E as _ _ E. destruct es1; discriminate.
Qed.
(* another one with a squashing and a stopped flush between the messages *)
Definition busy : list event := [adds 4; Squash; Message full_sch [bat 4 [[i 4; i 4; i 42; i 43]; [i 1; VNull; VNull; VNull]]]; Stopped; adds 5; Squash].
Example c126_busy_nonvacuous :
  proper [0; 1; 2] [0] [1; 2] ex_files busy /\ calm [0] [1; 2] (run 100 9 [0; 1; 2] no_stats all_files (start ex_files)) busy /\
  files (fst (step 100 9 [0; 1; 2] no_stats all_files (run 100 9 [0; 1; 2] no_stats all_files (start ex_files) busy) (Flush one_file))) =
    [[[i 4; i 42; i 43]; [i 5; i 40; i 41]; [i 2; i 20; i 21]; [i 3; i 30; i 31]]].
Proof.
  split; [hist|]. split; [|vm_compute; reflexivity]. left. intros c I o n Eo En. vm_compute in I. repeat destruct I as [<-|I]; try contradiction; cbn in Eo, En; congruence.
Qed.
(* Full statement: for every proper history the files show the table after some number of its messages. It does not hold, although the table has one key
   column: row 1 is updated, row 2 deleted and row 1 moved to key 2; the three changes are squashed, another message comes, and after the flush row 2 is
   what it was before it was deleted, while row 1 is gone. Without
   the squashing in between, the same messages are stored correctly. *)
Theorem c126_refuted :
  exists es es', proper [0; 1; 2] [0] [1; 2] ex_files es /\ engine_ok [0; 1; 2] no_stats all_files /\
    (forall n, ~ shows [0; 1; 2] [0] [1; 2] ex_files es (files (run 100 9 [0; 1; 2] no_stats all_files (start ex_files) es)) n) /\
    es' = filter (fun e => match e with Squash => false | _ => true end) es /\
    shows [0; 1; 2] [0] [1; 2] ex_files es' (files (run 100 9 [0; 1; 2] no_stats all_files (start ex_files) es')) (length (messages es')).
Proof.
  exists [moves; Squash; adds 4; Flush one_file]. eexists. split; [hist|split; [exact engine_exists|split; [|split; [reflexivity|]]]].
  - intros n (L & _ & H). cbn [messages flat_map app length moves adds] in L.
    destruct n as [|[|[|n]]]; [specialize (H [i 1])|specialize (H [i 2])|specialize (H [i 2])|lia]; vm_compute in H; discriminate.
  - destruct c126_nonvacuous as (P & K & _). refine (proj2 (c126_flush_partial 100 9 [0; 1; 2] [0] [1; 2] no_stats all_files ex_files [moves; adds 4] one_file _ engine_exists P K _ _)).
    + intros rows. cbn. apply app_nil_r.
    + apply surjective_pairing.
Qed.
Print Assumptions c126_refuted.
(* Whatever the messages: a squashing, a stopped flush and a flush that fails leave the files alone and keep every item of the queue, either as it was or
   squashed. *)
Theorem c126_failure_keeps :
  forall max_rows bt tcols stats prune s e s',
    step max_rows bt tcols stats prune s e = (s', false) ->
    files s' = files s /\
    Forall2 (fun p p' => p' = p \/ p_squashed p = false /\ p_squashed p' = true /\ p_schema p' = p_schema p /\ squash_batches (p_schema p) (p_data p) = Some (p_rows p')) (queue s) (queue s').
Proof.
  intros max_rows bt tcols stats prune s e s' E.
  assert (K : forall q, Forall2 (fun p p' => p' = p \/ p_squashed p = false /\ p_squashed p' = true /\ p_schema p' = p_schema p /\ squash_batches (p_schema p) (p_data p) = Some (p_rows p')) q (fst (squash_queue q))).
  { induction q as [|p q IH]; cbn [squash_queue]; [constructor|]. destruct (p_squashed p) eqn:Sq.
    - destruct (squash_queue q) as [q' ok]. constructor; [left; reflexivity|exact IH].
    - destruct (squash_batches (p_schema p) (p_data p)) as [rows|] eqn:SB.
      + destruct (squash_queue q) as [q' ok]. constructor; [right; split; [exact Sq|split; [reflexivity|split; [reflexivity|]]]|exact IH]. unfold p_rows. cbn [p_data flat_map rb_rows]. rewrite app_nil_r. exact SB.
      + cbn [fst]. clear. generalize (p :: q). induction l as [|a l IHl]; constructor; [left; reflexivity|exact IHl]. }
  specialize (K (queue s)). destruct e as [sch bs| |cut|]; cbn [step] in E.
  - discriminate.
  - destruct (squash_queue (queue s)) as [q ok]. injection E as <- _. split; [reflexivity|exact K].
  - destruct (queue s) as [|p0 q0] eqn:Q0; [discriminate|]. destruct (squash_queue (p0 :: q0)) as [q ok]. destruct ok.
    + destruct (plan_delta_syncs _ _ _ _ _ _) as [[old new]|]; [discriminate|]. injection E as <-. split; [reflexivity|exact K].
    + injection E as <-. split; [reflexivity|exact K].
  - destruct (squash_queue (queue s)) as [q ok]. injection E as <-. split; [reflexivity|exact K].
Qed.
Print Assumptions c126_failure_keeps.
(* a queue whose second item cannot be squashed: the row that it inserts is deleted again (C13) *)
Example c126_failure_keeps_nonvacuous :
  exists s', step 100 9 [0; 1; 2] no_stats all_files {| files := ex_files; queue := [{| p_squashed := false; p_schema := full_sch; p_data := [bat 4 [[VNull; i 4; i 40; i 41]]] |};
    {| p_squashed := false; p_schema := flag_sch; p_data := [bat 4 [[VNull; i 5; i 50; VBool true]; [i 5; VNull; VNull; VBool false]]] |}] |} (Flush one_file) = (s', false) /\ map p_squashed (queue s') = [true; false].
Proof. eexists. split; vm_compute; reflexivity. Qed.
