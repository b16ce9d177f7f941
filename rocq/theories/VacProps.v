(* C152: VACUUM deletes what is not needed any more, and nothing else.
   Specification: VacSpec.v. Model: VacModel.v. Proofs: VacProofs.v. *)
From Coq Require Import List Arith Bool Lia.
From Verif Require Import VacModel VacSpec VacProofs.
Import ListNotations.

(* C152: whatever writes and vacuums run at the same time, and wherever they stop, the newest version can be read. *)
Theorem c152_latest : forall es, readable (run es) (latest (run es)).
Proof.
  intros es. pose proof (run_inv es) as I. assert (L : length (log (run es)) <> 0) by (intros X; apply length_zero_iff_nil in X; exact (i_log _ I X)).
  apply readable_untouched; [exact I|unfold latest; lia|]. unfold latest. replace (S (length (log (run es)) - 1)) with (length (log (run es))) by lia.
  rewrite skipn_all. intros c [].
Qed.
Print Assumptions c152_latest.

(* C152: a version of the table can be read until a VACUUM begins after it has been replaced by a newer one. *)
Theorem c152_since : forall es v,
  v < length (log (run es)) ->
  readable (run es) v \/ exists p x rest, es = p ++ Load x :: rest /\ v < latest (run p).
Proof.
  intros es v H. pose proof (run_inv es) as I.
  set (bad := filter (fun f => negb (mem f (removed (firstn (S v) (log (run es))))) && negb (mem f (store (run es)))) (added (firstn (S v) (log (run es))))).
  destruct bad as [|f l] eqn:E.
  - left. split; [exact H|]. intros f A R. destruct (in_dec Nat.eq_dec f (store (run es))) as [X|X]; [exact X|]. exfalso.
    assert (Y : In f bad). { unfold bad. apply filter_In. split; [exact A|]. apply andb_true_iff. rewrite !negb_true_iff, !mem_out. split; [exact R|exact X]. }
    rewrite E in Y. exact Y.
  - right. assert (Y : In f bad) by (rewrite E; left; reflexivity). unfold bad in Y. apply filter_In in Y as [A Y].
    apply andb_true_iff in Y as [R X]. rewrite negb_true_iff, mem_out in R, X.
    assert (F : f < next (run es)) by (apply (i_added _ I); exact (prefix_added _ _ _ A)).
    destruct (proj1 (provenance es) f F X) as (p & x & rest & -> & G). exists p, x, rest. split; [reflexivity|].
    destruct (le_lt_dec (length (log (run p))) (S v)) as [D|D]; [|unfold latest; lia]. exfalso. apply R.
    rewrite run_app. destruct (from_log (Load x :: rest) (run p)) as [t T]. rewrite T. rewrite firstn_app, removed_app. apply in_app_iff. left.
    rewrite firstn_all2; [exact G|exact D].
Qed.
Print Assumptions c152_since.

(* C152: once a VACUUM has deleted its files, no file is left that the table had dropped when it began. *)
Theorem c152_freed : forall p x m rest f,
  get x (vacuums (run p)) = None -> ~ In (Forget x) m -> obsolete (run p) f ->
  ~ In f (store (run (p ++ Load x :: m ++ Delete x :: rest))).
Proof.
  intros p x m rest f V M O. pose proof (run_inv p) as I. change (p ++ Load x :: m ++ Delete x :: rest) with (p ++ ([Load x] ++ m ++ [Delete x] ++ rest)).
  rewrite run_app. unfold run_from at 1. rewrite !fold_left_app.
  set (s1 := fold_left step [Load x] (run p)). set (s2 := fold_left step m s1). set (s3 := fold_left step [Delete x] s2).
  assert (F : f < next (run p)) by (apply (i_added _ I), (i_removed _ I); exact O).
  assert (N1 : next s1 = next (run p)) by (unfold s1; cbn [fold_left step]; rewrite V; reflexivity).
  assert (N2 : next s1 <= next s2) by apply (from_next m s1).
  apply (from_gone rest s3).
  - pose proof (step_next s2 (Delete x)). unfold s3. cbn [fold_left]. lia.
  - destruct (in_dec Nat.eq_dec f (store (run p))) as [X|X].
    + set (plan := filter (fun f => mem f (removed (log (run p))) && negb (mem f (files (log (run p))))) (store (run p))).
      assert (G1 : get x (vacuums s1) = Some plan) by (unfold s1; cbn [fold_left step]; rewrite V; apply get_cons).
      assert (G2 : get x (vacuums s2) = Some plan) by (apply (from_plan m s1); assumption).
      unfold s3. cbn [fold_left step]. rewrite G2. cbn [store]. intros Y. apply filter_In in Y as [_ Y]. rewrite negb_true_iff, mem_out in Y. apply Y.
      unfold plan. apply filter_In. split; [exact X|]. apply andb_true_iff. rewrite negb_true_iff, mem_out, mem_in. split; [exact O|].
      intros Z. apply in_files in Z as [_ Z]. apply Z. exact O.
    + unfold s3. cbn [fold_left]. apply step_gone; [lia|]. unfold s2. apply (from_gone m s1); [lia|]. unfold s1. cbn [fold_left]. apply step_gone; assumption.
Qed.
Print Assumptions c152_freed.

(* C152: the files that a statement has written and not yet committed are left alone. *)
Theorem c152_unfinished : forall es w k sel es' f,
  get w (pending (run es)) = None -> ~ In (Commit w) es' -> In f (seq (next (run es)) k) ->
  In f (store (run (es ++ Write w k sel :: es'))).
Proof.
  intros es w k sel es' f P N F. rewrite run_app. pose proof (run_inv es) as I. apply (stuck_store w); [apply from_inv; exact I|].
  change (run_from (run es) (Write w k sel :: es')) with (run_from (step (run es) (Write w k sel)) es'). apply stuck_from; [apply step_inv; exact I| |exact N].
  cbn [step]. rewrite P. apply in_seq in F. split; [cbn; lia|]. split.
  - cbn [log]. intros X. apply (i_added _ I) in X. lia.
  - cbn [pending]. intros w' c r [H|H] X; [injection H as <- _ _; reflexivity|]. apply (i_new _ I _ _ _ _ H) in X. lia.
Qed.
Print Assumptions c152_unfinished.

(* C152, the part of the promise about recorded versions that holds: if writes and vacuums are executed one after the other, each
   to its end, every version in system.table_versions can be read. Missing: statements that run at the same time, those that
   stop before their version is recorded, and TRUNCATE (c152_order_refuted and c152_truncate_refuted). *)
Theorem c152_recorded_partial : forall ss v,
  In v (recorded (run (flat_map whole ss))) -> readable (run (flat_map whole ss)) v.
Proof.
  intros ss.
  cut (let st := run (flat_map whole ss) in
       pending st = [] /\ unrecorded st = [] /\ vacuums st = [] /\
       (exists l v, recorded st = l ++ [v] /\ v < length (log st) /\ forall c, In c (skipn (S v) (log st)) -> removes c = []) /\
       forall v, In v (recorded st) -> readable st v).
  { intros (_ & _ & _ & _ & H). exact H. }
  cbv zeta. induction ss as [|s ss IH] using rev_ind.
  { do 3 (split; [reflexivity|]). split.
    - exists [], 0. split; [reflexivity|]. split; [cbn; lia|]. intros c [].
    - intros v [<-|[]]. apply readable_untouched; [apply init_inv|cbn; lia|]. intros c []. }
  rewrite flat_map_app. cbn [flat_map]. rewrite app_nil_r, run_app. pose proof (run_inv (flat_map whole ss)) as I.
  set (st := run (flat_map whole ss)) in *. destruct IH as (P & U & V & (l & v & R & Lv & C) & Q).
  destruct s as [w k sel|x]; cbn [whole].
  - set (c := {| adds := seq (next st) k; removes := filter sel (files (log st)) |}).
    assert (E : run_from st [Write w k sel; Commit w; Record_ w] =
                {| log := log st ++ [c]; store := store st ++ seq (next st) k; next := next st + k; pending := []; unrecorded := []; recorded := recorded st ++ [length (log st)]; vacuums := [] |}).
    { assert (P1 : get w (pending st) = None) by (rewrite P; reflexivity). assert (U1 : get w (unrecorded st) = None) by (rewrite U; reflexivity).
      unfold run_from. cbn [fold_left]. cbn [step]. rewrite P1. cbn [pending]. rewrite get_cons. destruct (existsb _ _) eqn:X.
      - exfalso. apply existsb_exists in X as (f & X1 & X2). cbn in X1. apply filter_In in X1 as [X1 _]. apply in_files in X1 as [_ X1]. apply mem_in in X2. exact (X1 X2).
      - cbn [log store next unrecorded recorded vacuums]. rewrite get_cons. cbn [log store next pending unrecorded recorded vacuums]. rewrite !del_cons by assumption. rewrite P, U, V. reflexivity. }
    assert (J : inv (run_from st [Write w k sel; Commit w; Record_ w])) by (apply from_inv; exact I).
    rewrite E in J |- *. cbn [pending unrecorded vacuums log recorded]. repeat (split; [reflexivity|]).
    assert (Z : forall c0, In c0 (skipn (S (length (log st))) (log st ++ [c])) -> removes c0 = []).
    { intros c0 H. replace (S (length (log st))) with (length (log st ++ [c])) in H by (rewrite app_length; cbn; lia). rewrite skipn_all in H. destruct H. }
    split.
    + exists (recorded st), (length (log st)). split; [reflexivity|]. split; [rewrite app_length; cbn; lia|exact Z].
    + intros u H. apply in_app_iff in H as [H|[<-|[]]].
      * destruct (Q u H) as [Q1 Q2]. split; [cbn [log]; rewrite app_length; cbn; lia|]. cbn [log store]. intros f A B.
        rewrite firstn_app in A, B. replace (S u - length (log st)) with 0 in A, B by lia. cbn [firstn] in A, B. rewrite app_nil_r in A, B.
        apply in_app_iff. left. exact (Q2 f A B).
      * apply readable_untouched; [exact J|cbn [log]; rewrite app_length; cbn; lia|exact Z].
  - set (plan := filter (fun f => mem f (removed (log st)) && negb (mem f (files (log st)))) (store st)).
    destruct (empties plan (log st)) as [k1 E1]. destruct (empties plan (log st ++ repeat empty k1)) as [k2 E2].
    assert (E : run_from st [Load x; Delete x; Forget x] =
                {| log := (log st ++ repeat empty k1) ++ repeat empty k2; store := filter (fun f => negb (mem f plan)) (store st); next := next st; pending := []; unrecorded := []; recorded := [v]; vacuums := [] |}).
    { assert (V1 : get x (vacuums st) = None) by (rewrite V; reflexivity).
      unfold run_from. cbn [fold_left]. unfold step at 3. rewrite V1. fold plan. rewrite E1.
      unfold step at 2. cbn [vacuums]. rewrite get_cons. cbn [log store next pending unrecorded recorded]. rewrite E2.
      unfold step. cbn [vacuums]. rewrite get_cons. cbn [log store next pending unrecorded recorded]. rewrite del_cons by exact V1.
      rewrite R, rev_app_distr. cbn [rev app]. rewrite P, U, V. reflexivity. }
    assert (J : inv (run_from st [Load x; Delete x; Forget x])) by (apply from_inv; exact I).
    rewrite E in J |- *. cbn [pending unrecorded vacuums log recorded]. repeat (split; [reflexivity|]).
    assert (Lv' : v < length ((log st ++ repeat empty k1) ++ repeat empty k2)) by (rewrite !app_length; lia).
    assert (Z : forall c, In c (skipn (S v) ((log st ++ repeat empty k1) ++ repeat empty k2)) -> removes c = []).
    { intros c H. rewrite <- app_assoc, skipn_app in H. replace (S v - length (log st)) with 0 in H by lia. cbn [skipn] in H. apply in_app_iff in H as [H|H]; [exact (C c H)|].
      apply in_app_iff in H as [H|H]; apply repeat_spec in H as ->; reflexivity. }
    split.
    + exists [], v. split; [reflexivity|]. split; [exact Lv'|exact Z].
    + intros u [<-|[]]. apply readable_untouched; [exact J|exact Lv'|exact Z].
Qed.
Print Assumptions c152_recorded_partial.

(* the promise about recorded versions, with concurrency and TRUNCATE: it does not hold *)

(* C152, refuted: the version that TRUNCATE makes is not recorded. After TRUNCATE and VACUUM, the only version in
   system.table_versions is the one before, and its files are gone, for every table that had a file. *)
Theorem c152_truncate_refuted : forall es w x l v f,
  get w (pending (run es)) = None -> get x (vacuums (run es)) = None ->
  recorded (run es) = l ++ [v] -> S v = length (log (run es)) -> In f (flat_map adds (log (run es))) -> ~ obsolete (run es) f ->
  let st := run (es ++ [Truncate w; Commit w; Load x; Delete x; Forget x]) in
  recorded st = [v] /\ ~ readable st v.
Proof.
  intros es w x l v f P V R Lv A O. cbv zeta. rewrite run_app. pose proof (run_inv es) as I. set (st := run es) in *.
  set (c := {| adds := []; removes := files (log st) |}).
  assert (E : run_from st [Truncate w; Commit w] =
              {| log := log st ++ [c]; store := store st; next := next st; pending := pending st; unrecorded := unrecorded st; recorded := recorded st; vacuums := vacuums st |}).
  { unfold run_from. cbn [fold_left]. cbn [step]. rewrite P. cbn [pending]. rewrite get_cons. destruct (existsb _ _) eqn:X.
    - exfalso. apply existsb_exists in X as (g & X1 & X2). cbn in X1. apply in_files in X1 as [_ X1]. apply mem_in in X2. exact (X1 X2).
    - cbn [log store next unrecorded recorded vacuums]. rewrite del_cons by exact P. reflexivity. }
  change [Truncate w; Commit w; Load x; Delete x; Forget x] with ([Truncate w; Commit w] ++ [Load x; Delete x; Forget x]).
  unfold run_from. rewrite fold_left_app. change (fold_left step [Truncate w; Commit w] st) with (run_from st [Truncate w; Commit w]). rewrite E.
  match goal with |- context [fold_left step _ ?s] => set (s1 := s) end.
  set (plan := filter (fun f => mem f (removed (log s1)) && negb (mem f (files (log s1)))) (store s1)).
  destruct (empties plan (log s1)) as [k1 E1]. destruct (empties plan (log s1 ++ repeat empty k1)) as [k2 E2].
  assert (E3 : fold_left step [Load x; Delete x; Forget x] s1 =
               {| log := (log s1 ++ repeat empty k1) ++ repeat empty k2; store := filter (fun f => negb (mem f plan)) (store st); next := next st; pending := pending st;
                  unrecorded := unrecorded st; recorded := [v]; vacuums := vacuums st |}).
  { cbn [fold_left]. assert (V1 : get x (vacuums s1) = None) by exact V. unfold step at 3. rewrite V1. fold plan. rewrite E1.
    unfold step at 2. cbn [vacuums]. rewrite get_cons. cbn [log store next pending unrecorded recorded]. rewrite E2.
    unfold step. cbn [vacuums]. rewrite get_cons. cbn [log store next pending unrecorded recorded]. rewrite del_cons by exact V.
    replace (recorded s1) with (l ++ [v]) by (symmetry; exact R). rewrite rev_app_distr. cbn [rev app]. reflexivity. }
  rewrite E3. cbn [recorded]. split; [reflexivity|]. intros [_ H]. cbn [log store] in H.
  assert (T : firstn (S v) ((log s1 ++ repeat empty k1) ++ repeat empty k2) = log st).
  { unfold s1. cbn [log]. rewrite <- !app_assoc, firstn_app, Lv, firstn_all, Nat.sub_diag. cbn [firstn]. apply app_nil_r. }
  rewrite T in H. specialize (H f A O). apply filter_In in H as [H1 H2]. rewrite negb_true_iff, mem_out in H2. apply H2. unfold plan. apply filter_In. split; [exact H1|].
  assert (X : In f (removed (log s1))).
  { unfold s1. cbn [log]. rewrite removed_app. apply in_app_iff. right. cbn. rewrite app_nil_r. apply in_files. split; [exact A|exact O]. }
  apply andb_true_iff. rewrite negb_true_iff, mem_out, mem_in. split; [exact X|]. intros Y. apply in_files in Y as [_ Y]. exact (Y X).
Qed.
Print Assumptions c152_truncate_refuted.

(* C152, refuted: versions are kept by the order in which they were recorded. Of two statements of which the second deletes what
   the first has written, the first may be the last to record its version: VACUUM keeps that one, and deletes its files. *)
Theorem c152_order_refuted : forall es a b x,
  a <> b -> get a (pending (run es)) = None -> get b (pending (run es)) = None ->
  get a (unrecorded (run es)) = None -> get b (unrecorded (run es)) = None -> get x (vacuums (run es)) = None ->
  let st := run (es ++ [Write a 1 (fun _ => false); Commit a; Write b 0 (fun _ => true); Commit b; Record_ b; Record_ a; Load x; Delete x; Forget x]) in
  exists v, recorded st = [v] /\ ~ readable st v.
Proof.
  intros es a b x D Pa Pb Ua Ub V. cbv zeta. pose proof (run_inv es) as I. set (n := length (log (run es))).
  set (ca := {| adds := [next (run es)]; removes := [] |}).
  set (cb := {| adds := []; removes := filter (fun _ => true) (files (log (run es) ++ [ca])) |}).
  set (pre := es ++ [Write a 1 (fun _ => false); Commit a; Write b 0 (fun _ => true); Commit b; Record_ b; Record_ a]).
  assert (E : run pre = {| log := (log (run es) ++ [ca]) ++ [cb]; store := (store (run es) ++ [next (run es)]) ++ []; next := next (run es) + 1 + 0; pending := pending (run es);
                unrecorded := unrecorded (run es); recorded := (recorded (run es) ++ [S n]) ++ [n]; vacuums := vacuums (run es) |}).
  { unfold pre. rewrite run_app. set (st := run es) in *.
    assert (E1 : run_from st [Write a 1 (fun _ => false); Commit a] =
                 {| log := log st ++ [ca]; store := store st ++ [next st]; next := next st + 1; pending := pending st; unrecorded := (a, n) :: unrecorded st; recorded := recorded st; vacuums := vacuums st |}).
    { unfold run_from. cbn [fold_left]. cbn [step]. rewrite Pa. cbn [pending]. rewrite get_cons. cbn [removes log store next unrecorded recorded vacuums seq].
      replace (filter (fun _ : nat => false) (files (log st))) with (@nil nat) by (induction (files (log st)); auto). cbn [existsb]. rewrite del_cons by exact Pa. reflexivity. }
    change [Write a 1 (fun _ => false); Commit a; Write b 0 (fun _ => true); Commit b; Record_ b; Record_ a]
      with ([Write a 1 (fun _ => false); Commit a] ++ [Write b 0 (fun _ => true); Commit b; Record_ b; Record_ a]).
    unfold run_from. rewrite fold_left_app. change (fold_left step [Write a 1 (fun _ => false); Commit a] st) with (run_from st [Write a 1 (fun _ => false); Commit a]). rewrite E1.
    cbn [fold_left]. match goal with |- context [step ?s (Write b _ _)] => set (s1 := s) end.
    assert (E2 : step (step s1 (Write b 0 (fun _ => true))) (Commit b) =
                 {| log := (log st ++ [ca]) ++ [cb]; store := (store st ++ [next st]) ++ []; next := next st + 1 + 0; pending := pending st; unrecorded := (b, S n) :: (a, n) :: unrecorded st; recorded := recorded st; vacuums := vacuums st |}).
    { unfold step at 2. replace (get b (pending s1)) with (@None (commit * bool)) by (symmetry; exact Pb). unfold step. cbn [pending]. rewrite get_cons. destruct (existsb _ _) eqn:X.
      - exfalso. apply existsb_exists in X as (f & X1 & X2). cbn in X1. apply filter_In in X1 as [X1 _]. apply in_files in X1 as [_ X1]. apply mem_in in X2. exact (X1 X2).
      - cbn [log store next unrecorded recorded vacuums]. rewrite del_cons by exact Pb. unfold s1. cbn [log store next unrecorded recorded vacuums pending seq].
        rewrite app_length. cbn [length]. rewrite (Nat.add_1_r (length (log st))). reflexivity. }
    rewrite E2. cbn [step]. cbn [unrecorded]. rewrite get_cons. cbn [log store next pending unrecorded recorded vacuums].
    rewrite del_cons by (rewrite get_skip by exact D; exact Ub). rewrite get_cons. rewrite del_cons by exact Ua. reflexivity. }
  assert (O : obsolete (run pre) (next (run es))).
  { unfold obsolete. rewrite E. cbn [log]. change (flat_map removes) with removed. rewrite removed_app. apply in_app_iff. right. cbn. rewrite app_nil_r. apply filter_In. split; [|reflexivity].
    apply in_files. rewrite added_app, removed_app. cbn. rewrite app_nil_r. split; [apply in_app_iff; right; left; reflexivity|].
    intros X. apply (i_removed _ I), (i_added _ I) in X. lia. }
  assert (V1 : get x (vacuums (run pre)) = None) by (rewrite E; exact V).
  exists n. replace (es ++ _) with (pre ++ [Load x; Delete x; Forget x]) by (unfold pre; rewrite <- app_assoc; reflexivity). split.
  - rewrite run_app. destruct (vacuum_run (run pre) x (recorded (run es) ++ [S n]) n V1) as (k & s & ->); [rewrite E; reflexivity|reflexivity].
  - intros [_ H]. apply (c152_freed pre x [] [Forget x] (next (run es)) V1); [intros []|exact O|]. cbn [app].
    destruct (vacuum_run (run pre) x (recorded (run es) ++ [S n]) n V1) as (k & s & Ek); [rewrite E; reflexivity|]. rewrite <- run_app in Ek.
    assert (T : firstn (S n) (log (run (pre ++ [Load x; Delete x; Forget x]))) = log (run es) ++ [ca]).
    { rewrite Ek. cbn [log]. rewrite E. cbn [log]. rewrite <- app_assoc. rewrite firstn_app. replace (S n - length (log (run es) ++ [ca])) with 0 by (unfold n; rewrite app_length; cbn [length]; lia).
      rewrite firstn_O, app_nil_r. apply firstn_all2. rewrite app_length. cbn. unfold n. lia. }
    rewrite T in H. apply H; change (flat_map adds) with added; change (flat_map removes) with removed.
    + rewrite added_app. apply in_app_iff. right. left. reflexivity.
    + rewrite removed_app. cbn. rewrite app_nil_r. intros X. apply (i_removed _ I), (i_added _ I) in X. lia.
Qed.
Print Assumptions c152_order_refuted.

(* C152, refuted: not everything that no version needs is deleted. The files of a statement that fails because another one has
   changed the same files stay in the store for ever, whatever is executed later, VACUUM included, although no version has them. *)
Theorem c152_orphans_refuted : forall es es' w c r f g,
  get w (pending (run es)) = Some (c, r) -> In f (adds c) -> In g (removes c) -> obsolete (run es) g ->
  let st := run (es ++ Commit w :: es') in
  In f (store st) /\ ~ In f (flat_map adds (log st)).
Proof.
  intros es es' w c r f g P F R O. cbv zeta. rewrite run_app. pose proof (run_inv es) as I.
  change (run_from (run es) (Commit w :: es')) with (run_from (step (run es) (Commit w)) es').
  assert (H : orphan (step (run es) (Commit w)) f).
  { pose proof (get_in _ _ _ P) as Q. destruct (i_new _ I _ _ _ _ Q F) as [F1 F2]. cbn [step]. rewrite P.
    replace (existsb _ _) with true by (symmetry; apply existsb_exists; exists g; split; [exact R|apply mem_in; exact O]).
    split; [exact F1|]. split; [exact F2|]. cbn [pending]. intros w' c' r' X Y. apply in_del in X as [X D]. exact (i_two _ I _ _ _ _ _ _ _ X Q D Y F). }
  assert (J : inv (step (run es) (Commit w))) by (apply step_inv; exact I).
  apply (orphan_from es') in H; [|exact J]. split; [|apply H]. apply (stuck_store w); [apply from_inv; exact J|apply orphan_stuck; exact H].
Qed.
Print Assumptions c152_orphans_refuted.

(* C152, refuted: nor are the files of a statement that stops (a crash) before its commit. *)
Theorem c152_crash_refuted : forall es w k sel es' f,
  get w (pending (run es)) = None -> ~ In (Commit w) es' -> In f (seq (next (run es)) k) ->
  let st := run (es ++ Write w k sel :: es') in
  In f (store st) /\ ~ In f (flat_map adds (log st)).
Proof.
  intros es w k sel es' f P N F. split; [apply c152_unfinished; assumption|]. rewrite run_app. pose proof (run_inv es) as I.
  cut (stuck w (run_from (run es) (Write w k sel :: es')) f); [intros (_ & X & _); exact X|].
  change (run_from (run es) (Write w k sel :: es')) with (run_from (step (run es) (Write w k sel)) es'). apply stuck_from; [apply step_inv; exact I| |exact N].
  cbn [step]. rewrite P. apply in_seq in F. split; [cbn; lia|]. split.
  - cbn [log]. intros X. apply (i_added _ I) in X. lia.
  - cbn [pending]. intros w' c r [H|H] X; [injection H as <- _ _; reflexivity|]. apply (i_new _ I _ _ _ _ H) in X. lia.
Qed.
Print Assumptions c152_crash_refuted.

(* two inserts, a delete of the first, a vacuum while an insert is under way *)
Definition all (n : nat) := true.
Definition none (n : nat) := false.
Definition busy : list event :=
  [Write 1 2 none; Commit 1; Record_ 1; Write 2 1 none; Commit 2; Record_ 2; Write 3 1 (Nat.eqb 0); Commit 3; Record_ 3;
   Write 4 2 none; Load 9; Delete 9; Commit 4; Forget 9; Record_ 4].
Example busy_state :
  store (run busy) = [1; 2; 3; 4; 5] /\ recorded (run busy) = [3; 6] /\ length (log (run busy)) = 7 /\
  latest (run busy) = 6 /\ ~ In 0 (store (run busy)).
Proof. vm_compute. repeat split. intros H. repeat destruct H as [H|H]; try discriminate H. exact H. Qed.
(* c152_since: version 1 is gone, and a VACUUM began after it had been replaced *)
Example busy_old : ~ readable (run busy) 1 /\ readable (run busy) 3.
Proof.
  split.
  - intros [_ H]. assert (X : In 0 (store (run busy))) by (apply H; [vm_compute; auto|vm_compute; tauto]). vm_compute in X. repeat destruct X as [X|X]; try discriminate X. exact X.
  - split; [vm_compute; lia|]. intros f A B. vm_compute in A, B |- *. repeat destruct A as [A|A]; auto 10; exfalso; apply B; auto.
Qed.
Example freed_hypotheses : obsolete (run [Write 1 2 none; Commit 1; Record_ 1; Write 3 1 (Nat.eqb 0); Commit 3]) 0.
Proof. vm_compute. auto. Qed.
Example recorded_hypotheses :
  recorded (run (flat_map whole [SWrite 1 2 none; SWrite 2 1 (Nat.eqb 0); SVacuum 9; SWrite 3 1 none; SVacuum 9])) = [5] /\
  recorded (run (flat_map whole [SWrite 1 2 none; SWrite 2 1 (Nat.eqb 0); SVacuum 9; SWrite 3 1 none])) = [2; 5].
Proof. vm_compute. auto. Qed.
Example truncate_hypotheses :
  let st := run [Write 1 2 none; Commit 1; Record_ 1] in
  recorded st = [0] ++ [1] /\ 2 = length (log st) /\ In 1 (flat_map adds (log st)) /\ ~ obsolete st 1.
Proof. vm_compute. repeat split; auto. Qed.
Example orphans_hypotheses :
  let st := run [Write 1 2 none; Commit 1; Record_ 1; Write 2 1 (Nat.eqb 0); Write 3 1 (Nat.eqb 0); Commit 2] in
  exists c r, get 3 (pending st) = Some (c, r) /\ In 3 (adds c) /\ In 0 (removes c) /\ obsolete st 0.
Proof. do 2 eexists. vm_compute. repeat split; auto. Qed.
