(* C150: statements that write to one table at the same time.
   Specification: ConcSpec.v. Model: ConcModel.v. Proofs: ConcProofs.v. *)
From Coq Require Import List Arith Bool Permutation Lia.
From Verif Require Import ConcModel ConcSpec ConcProofs.
Import ListNotations.

Section P.
Context {R : Type}.
Implicit Type prog : nat -> stmt R.
Implicit Type keep : nat -> file R -> bool.

(* C150, the part that holds: whatever the schedule, INSERTs, uploads, DELETEs and TRUNCATEs of a table behave as if those that
   succeeded had been executed one after the other, in an order that agrees with time. UPDATE and INSERT ... SELECT from the
   table itself are missing: the theorems c150_update_refuted and c150_insert_select_refuted. *)
Theorem c150_partial : forall prog keep es,
  (forall w, match prog w with Insert _ | Delete _ => True | _ => False end) -> sound prog keep ->
  serialisable prog (run prog keep es).
Proof.
  intros prog keep es kinds Hs. destruct (run_inv prog keep es) as (H & _ & _). set (L := log (run prog keep es)) in *.
  destruct (lift prog keep kinds L H) as (L' & H' & E).
  destruct (order_exists prog keep kinds Hs L' H') as (order & O1 & O2 & _ & O4).
  assert (B : map by_ L' = map by_ L) by (rewrite <- E, map_map; reflexivity).
  exists order. split; [unfold succeeded; fold L; rewrite <- B; exact O1|]. split.
  - intros a b (i & c1 & c2 & N & <- & I2 & <- & Hi). fold L in N, I2. rewrite <- E in I2. apply in_map_iff in I2 as (c2' & <- & I2).
    apply (O4 c2'); [exact I2|]. rewrite <- firstn_map, B. cbn in Hi.
    assert (N2 : nth_error (map by_ L) i = Some (by_ c1)) by (apply map_nth_error; exact N).
    apply nth_error_In with (n := i). rewrite <- (firstn_skipn (base c2') (map by_ L)) in N2. rewrite nth_error_app1 in N2; [exact N2|].
    rewrite firstn_length. assert (i < length (map by_ L)) by (rewrite map_length; apply nth_error_Some; congruence). lia.
  - unfold content. fold L. rewrite <- E, <- strip_table. change (flat_map rows) with (@all_rows R). rewrite <- strip_rows.
    rewrite <- (strip_order prog kinds). apply Permutation_map. exact O2.
Qed.

(* C150, statements of any kind that do not overlap: each sees what the ones before it have made. *)
Theorem c150_sequential : forall prog keep ws,
  NoDup ws -> sound prog keep ->
  (forall w q a b, prog w = InsertSelect q -> Permutation a b -> Permutation (q a) (q b)) ->
  let st := run prog keep (flat_map (fun w => [Begin w; Commit w]) ws) in
  succeeded st = ws /\ failed st = [] /\ Permutation (content st) (one_by_one prog ws).
Proof.
  intros prog keep ws Hn Hs Hq. cbv zeta.
  cut (let st := run prog keep (flat_map (fun w => [Begin w; Commit w]) ws) in
       running st = [] /\ succeeded st = ws /\ failed st = [] /\ Permutation (content st) (one_by_one prog ws)); [cbv zeta; tauto|].
  induction ws as [|w ws IH] using rev_ind; [cbn; repeat split; constructor|].
  assert (Hn2 : NoDup ws /\ ~ In w ws).
  { split; [apply NoDup_remove_1 in Hn; rewrite app_nil_r in Hn; exact Hn|apply NoDup_remove_2 in Hn; rewrite app_nil_r in Hn; exact Hn]. }
  destruct Hn2 as [Hn1 Hw]. destruct (IH Hn1) as (A1 & A2 & A3 & A4). rewrite flat_map_app. cbn [flat_map app].
  unfold run. rewrite fold_left_app. fold (run prog keep (flat_map (fun w => [Begin w; Commit w]) ws)).
  set (st := run prog keep (flat_map (fun w => [Begin w; Commit w]) ws)) in *.
  assert (Is : inv prog keep st) by apply run_inv. cbn [fold_left].
  assert (U : used st w = false).
  { unfold used. apply mem_not. unfold succeeded in A2. rewrite A1, A2, A3, app_nil_r. exact Hw. }
  set (c := plan prog keep w (length (log st)) (table (log st))).
  assert (Bc : by_ c = w) by apply plan_by. assert (Ba : base c = length (log st)) by apply plan_base.
  assert (E : step prog keep (step prog keep st (Begin w)) (Commit w) = {| log := log st ++ [c]; running := []; failed := failed st |}).
  { cbn [step]. rewrite U, A1. cbn [running find log failed]. fold c. rewrite Bc, Nat.eqb_refl. unfold conflict. rewrite Ba, skipn_all.
    cbn [existsb filter]. rewrite Bc, Nat.eqb_refl. reflexivity. }
  rewrite E.
  unfold succeeded, content in *. cbn [running log failed]. rewrite map_app. cbn [map]. rewrite A2, Bc. split; [reflexivity|]. split; [reflexivity|]. split; [exact A3|].
  unfold one_by_one. rewrite fold_left_app. cbn [fold_left]. fold (one_by_one prog ws).
  destruct Is as (I1 & I2 & _).
  assert (Hok : ok_log prog keep (log st ++ [c])).
  { constructor; [exact I1|rewrite Ba; lia| | |].
    - rewrite Bc, Ba, firstn_all. reflexivity.
    - rewrite Bc. rewrite A2. exact Hw.
    - unfold conflict. rewrite Ba, skipn_all. reflexivity. }
  destruct (prog w) as [l|q|p|p f] eqn:Ep; cbn [alone].
  - rewrite table_snoc. unfold apply, c, plan. rewrite Ep. cbn. rewrite flat_map_app. cbn. rewrite app_nil_r. apply Permutation_app_tail.
    assert (Ft : forall t : list (file R), filter (fun _ => true) t = t) by (induction t as [|x t IHt]; cbn; [reflexivity|f_equal; exact IHt]). rewrite Ft. exact A4.
  - rewrite table_snoc. unfold apply, c, plan. rewrite Ep. cbn. rewrite flat_map_app. cbn. rewrite app_nil_r.
    assert (Ft : forall t : list (file R), filter (fun _ => true) t = t) by (induction t as [|x t IHt]; cbn; [reflexivity|f_equal; exact IHt]). rewrite Ft.
    apply Permutation_app; [exact A4|]. apply (Hq w q); [exact Ep|exact A4].
  - destruct (commit_rows prog keep (log st) c Hok) as [_ C2]; [rewrite Bc, Ep; exact Logic.I|]. rewrite Bc, Ba, firstn_all, Ep in C2.
    eapply Permutation_trans; [exact C2|]. apply Permutation_sym. eapply Permutation_trans; [apply perm_filter; apply Permutation_sym; exact A4|].
    destruct (plan_rewrite prog keep w (length (log st)) (table (log st))) as [R1 _]; [rewrite Ep; exact Logic.I|]. fold c in R1. rewrite R1.
    assert (Nd : NoDup (map fname (table (log st)))) by (apply (names_nodup prog keep); exact I1). revert Nd.
    assert (S : forall g, keep w g = false -> forall r, In r (rows g) -> p r = false) by (intros g Kg r Hr; pose proof (Hs w g Kg r Hr) as X; rewrite Ep in X; exact X).
    generalize (table (log st)). clear - S. intros t Nd. unfold all_rows.
    eapply Permutation_trans; [apply perm_filter; apply perm_flat; apply (filter_split (keep w))|]. rewrite flat_map_app, filter_app.
    eapply Permutation_trans; [apply Permutation_app_comm|].
    assert (E1 : filter (fun x => negb (keep w x)) t = filter (fun g => negb (mem (fname g) (map fname (filter (keep w) t)))) t).
    { assert (G : forall x, In x t -> keep w x = mem (fname x) (map fname (filter (keep w) t))).
      { intros x Hx. destruct (keep w x) eqn:K; symmetry; [apply mem_in; apply in_map; apply filter_In; auto|]. apply mem_not. intros X.
        apply in_map_iff in X as (y & E & Y). apply filter_In in Y as [Y1 Y2]. rewrite (map_inj_in fname t x y Nd Hx Y1 (eq_sym E)) in K. congruence. }
      revert G. generalize (map fname (filter (keep w) t)). clear. intros ns G. induction t as [|x t IH]; cbn; [reflexivity|].
      rewrite (G x (or_introl eq_refl)), (IH (fun y Hy => G y (or_intror Hy))). reflexivity. }
    rewrite <- E1. apply Permutation_app.
    + assert (G : forall l, (forall r, In r l -> p r = false) -> filter (fun r => negb (p r)) l = l).
      { induction l as [|r l IH]; intros Hl; cbn; [reflexivity|]. rewrite (Hl r (or_introl eq_refl)). cbn. f_equal. apply IH. intros x Hx. apply Hl. right. exact Hx. }
      rewrite G; [apply Permutation_refl|]. intros r Hr. apply in_flat_map in Hr as (g & Hg & Hr). apply filter_In in Hg as [_ Kg]. apply negb_true_iff in Kg. exact (S g Kg r Hr).
    + generalize (flat_map rows (filter (keep w) t)). clear. induction l as [|r l IH]; cbn; [constructor|]. destruct (p r); cbn; [exact IH|constructor; exact IH].
  - destruct (commit_rows prog keep (log st) c Hok) as [_ C2]; [rewrite Bc, Ep; exact Logic.I|]. rewrite Bc, Ba, firstn_all, Ep in C2.
    eapply Permutation_trans; [exact C2|]. apply Permutation_sym. eapply Permutation_trans; [apply Permutation_map; apply Permutation_sym; exact A4|].
    destruct (plan_rewrite prog keep w (length (log st)) (table (log st))) as [R1 _]; [rewrite Ep; exact Logic.I|]. fold c in R1. rewrite R1.
    assert (Nd : NoDup (map fname (table (log st)))) by (apply (names_nodup prog keep); exact I1). revert Nd.
    assert (S : forall g, keep w g = false -> forall r, In r (rows g) -> p r = false) by (intros g Kg r Hr; pose proof (Hs w g Kg r Hr) as X; rewrite Ep in X; exact X).
    generalize (table (log st)). clear - S. intros t Nd. unfold all_rows.
    eapply Permutation_trans; [apply Permutation_map; apply perm_flat; apply (filter_split (keep w))|]. rewrite flat_map_app, map_app.
    eapply Permutation_trans; [apply Permutation_app_comm|].
    assert (E1 : filter (fun x => negb (keep w x)) t = filter (fun g => negb (mem (fname g) (map fname (filter (keep w) t)))) t).
    { assert (G : forall x, In x t -> keep w x = mem (fname x) (map fname (filter (keep w) t))).
      { intros x Hx. destruct (keep w x) eqn:K; symmetry; [apply mem_in; apply in_map; apply filter_In; auto|]. apply mem_not. intros X.
        apply in_map_iff in X as (y & E & Y). apply filter_In in Y as [Y1 Y2]. rewrite (map_inj_in fname t x y Nd Hx Y1 (eq_sym E)) in K. congruence. }
      revert G. generalize (map fname (filter (keep w) t)). clear. intros ns G. induction t as [|x t IH]; cbn; [reflexivity|].
      rewrite (G x (or_introl eq_refl)), (IH (fun y Hy => G y (or_intror Hy))). reflexivity. }
    rewrite <- E1. apply Permutation_app.
    + assert (G : forall l, (forall r, In r l -> p r = false) -> map (fun r => if p r then f r else r) l = l).
      { induction l as [|r l IH]; intros Hl; cbn; [reflexivity|]. rewrite (Hl r (or_introl eq_refl)). f_equal. apply IH. intros x Hx. apply Hl. right. exact Hx. }
      rewrite G; [apply Permutation_refl|]. intros r Hr. apply in_flat_map in Hr as (g & Hg & Hr). apply filter_In in Hg as [_ Kg]. apply negb_true_iff in Kg. exact (S g Kg r Hr).
    + generalize (flat_map rows (filter (keep w) t)). clear. induction l as [|r l IH]; cbn; [constructor|]. destruct (p r); cbn; constructor; exact IH.
Qed.

(* C150, no lost update: a DELETE or an UPDATE that succeeds changes the rows of the files that it read and no others, however many
   statements have committed since it read them; and none of the rows it read has been changed since. *)
Theorem c150_no_lost : forall prog keep es w,
  match prog w with Delete _ | Update _ _ => True | _ => False end ->
  let st := run prog keep es in let st' := step prog keep st (Commit w) in
  log st' <> log st ->
  exists others read, Permutation (content st) (others ++ read) /\
    Permutation (content st') (others ++ alone (prog w) read) /\
    exists n, Permutation read (flat_map rows (filter (keep w) (table (firstn n (log st))))).
Proof.
  intros prog keep es w Hk. cbv zeta. intros Hd. pose proof (step_inv prog keep _ (Commit w) (run_inv prog keep es)) as (I & _ & _).
  revert Hd I. cbn [step]. destruct (find _ _) as [c|] eqn:F; [|intros X; exfalso; apply X; reflexivity].
  apply find_some in F as [_ F]. apply Nat.eqb_eq in F.
  destruct (conflict _ _); [intros X; exfalso; apply X; reflexivity|]. cbn [log]. intros _ I. unfold content. cbn [log].
  destruct (commit_rows prog keep _ c I) as [C1 C2].
  { rewrite F. destruct (prog w); try contradiction; exact Logic.I. }
  rewrite F in C1, C2. eexists _, _. split; [exact C1|]. split; [|exists (base c); apply Permutation_refl].
  eapply Permutation_trans; [exact C2|]. apply Permutation_app_head.
  generalize (all_rows (filter (keep w) (table (firstn (base c) (log (run prog keep es)))))). intros l.
  destruct (prog w) as [x|q|p|p f]; try contradiction; cbn [alone]; induction l as [|r l IH]; cbn; try constructor; destruct (p r); cbn; auto.
Qed.

(* C150, conflicts: of two running statements that rewrite a common file at most one succeeds; one that fails changes nothing. *)
Theorem c150_conflict : forall prog keep es c1 c2 n,
  let st := run prog keep es in
  In c1 (running st) -> In c2 (running st) -> by_ c1 <> by_ c2 -> In n (removes c1) -> In n (removes c2) ->
  let st2 := step prog keep (step prog keep st (Commit (by_ c1))) (Commit (by_ c2)) in
  ~ (In (by_ c1) (succeeded st2) /\ In (by_ c2) (succeeded st2)).
Proof.
  intros prog keep es c1 c2 n. cbv zeta. set (st := run prog keep es). intros H1 H2 Hne N1 N2 [S1 S2].
  pose proof (run_inv prog keep es) as (I1 & I2 & I3). fold st in I1, I2, I3.
  assert (Fnd : forall (l : list (commit R)) c, NoDup (map by_ l) -> In c l -> find (fun c' => Nat.eqb (by_ c') (by_ c)) l = Some c).
  { induction l as [|x l IH]; intros c Nd Hc; [contradiction|]. destruct Hc as [->|Hc]; cbn.
    - rewrite Nat.eqb_refl. reflexivity.
    - cbn in Nd. inversion Nd; subst. destruct (Nat.eqb (by_ x) (by_ c)) eqn:E; [|auto]. apply Nat.eqb_eq in E. exfalso. apply H3. rewrite E. apply in_map. exact Hc. }
  assert (Ndr : NoDup (map by_ (running st))) by (clear - I2; induction (map by_ (log st)) as [|x l IH]; cbn in I2; [exact I2|inversion I2; auto]).
  assert (Nl : forall c, In c (running st) -> ~ In (by_ c) (map by_ (log st))).
  { intros c Hc X. apply in_split in X as (l1 & l2 & E). rewrite E in I2. rewrite <- app_assoc in I2. cbn in I2. apply NoDup_remove_2 in I2.
    apply I2. rewrite !in_app_iff. right. right. apply in_map. exact Hc. }
  revert S1 S2. unfold step at 2 4. rewrite (Fnd _ _ Ndr H1).
  set (rest := filter (fun c' => negb (Nat.eqb (by_ c') (by_ c1))) (running st)).
  assert (Nr : NoDup (map by_ rest)) by (apply nodup_map_filter; exact Ndr).
  assert (H2r : In c2 rest) by (apply filter_In; split; [exact H2|apply negb_true_iff, Nat.eqb_neq; congruence]).
  unfold succeeded. destruct (conflict (log st) c1) eqn:K1.
  - cbn [step running log]. rewrite (Fnd _ _ Nr H2r). destruct (conflict (log st) c2); cbn [log].
    + intros X. exfalso. exact (Nl c1 H1 X).
    + rewrite map_app, in_app_iff. intros [X|[X|[]]]; exfalso; [exact (Nl c1 H1 X)|congruence].
  - cbn [step running log]. rewrite (Fnd _ _ Nr H2r).
    assert (K2 : conflict (log st ++ [c1]) c2 = true).
    { unfold conflict. apply existsb_exists. exists c1. split.
      - rewrite skipn_app. apply in_app_iff. right. rewrite Forall_forall in I3. destruct (I3 c2 H2) as [B _].
        replace (base c2 - length (log st)) with 0 by lia. left. reflexivity.
      - apply existsb_exists. exists n. split; [exact N2|apply mem_in; exact N1]. }
    rewrite K2. cbn [log]. intros _. rewrite map_app, in_app_iff. intros [X|[X|[]]]; [exact (Nl c2 H2 X)|congruence].
Qed.
Theorem c150_failed : forall prog keep es w,
  let st := run prog keep es in let st' := step prog keep st (Commit w) in
  In w (failed st') -> content st' = content st.
Proof.
  intros prog keep es w. cbv zeta. cbn [step]. destruct (find _ _) as [c|] eqn:F; [|reflexivity]. destruct (conflict _ _); [reflexivity|].
  cbn [failed]. intros X. exfalso. apply find_some in F as [F1 F2]. apply Nat.eqb_eq in F2.
  assert (G : forall es, let st := run prog keep es in forall w, In w (failed st) -> ~ In w (map by_ (running st))).
  { clear. intros es. unfold run. assert (G0 : forall w, In w (failed (@init R)) -> ~ In w (map by_ (running (@init R)))) by (cbn; auto).
    revert G0. generalize (@init R). induction es as [|e es IH]; intros st G; cbn; [exact G|]. apply IH. clear IH. intros w. destruct e as [v|v]; cbn [step].
    - destruct (used st v) eqn:U; [exact (G w)|]. cbn [failed running map]. rewrite plan_by. intros X [E|Y]; [|exact (G w X Y)]. subst v.
      unfold used in U. apply mem_not in U. apply U. rewrite !in_app_iff. auto.
    - destruct (find _ _) as [c|] eqn:F; [|exact (G w)].
      assert (D : forall w, In w (map by_ (filter (fun c' => negb (Nat.eqb (by_ c') v)) (running st))) -> In w (map by_ (running st)) /\ w <> v).
      { intros u Hu. apply in_map_iff in Hu as (y & <- & Hu). apply filter_In in Hu as [Hu Hv]. apply negb_true_iff, Nat.eqb_neq in Hv. split; [apply in_map; exact Hu|exact Hv]. }
      destruct (conflict _ _); cbn [failed running]; intros X Y; apply D in Y as [Y1 Y2].
      + destruct X as [->|X]; [apply Y2; reflexivity|exact (G w X Y1)].
      + exact (G w X Y1). }
  apply (G es w X). rewrite <- F2. apply in_map. exact F1.
Qed.
End P.
Print Assumptions c150_partial.
Print Assumptions c150_sequential.
Print Assumptions c150_no_lost.
Print Assumptions c150_conflict.
Print Assumptions c150_failed.

(* The files that a statement rewrites are exactly those with a row that it selects. *)
Definition exact {R} (prog : nat -> stmt R) (w : nat) (f : file R) : bool := existsb (selects (prog w)) (rows f).
Lemma exact_sound {R} (prog : nat -> stmt R) : sound prog (exact prog).
Proof.
  intros w f K r Hr. unfold exact in K. destruct (selects (prog w) r) eqn:S; [|reflexivity].
  assert (existsb (selects (prog w)) (rows f) = true) by (apply existsb_exists; eauto). congruence.
Qed.
(* a file of one row, another file of another row; then two statements at the same time *)
Definition twice {R} (x y : R) (s1 s2 : stmt R) (w : nat) : stmt R :=
  match w with 0 => Insert [x] | 1 => Insert [y] | 2 => s1 | 3 => s2 | _ => Insert [] end.
Definition overlap : list event := [Begin 0; Commit 0; Begin 1; Commit 1; Begin 2; Begin 3; Commit 2; Commit 3].

(* C150, not for UPDATE: two UPDATEs, one of which gives all rows x the value y and the other all rows y the value x. Executed one after the
   other, in either order, they leave two equal rows; executed at the same time both succeed, and the two values have changed places. *)
Theorem c150_update_refuted : forall x y : nat, x <> y ->
  let prog := twice x y (Update (Nat.eqb x) (fun _ => y)) (Update (Nat.eqb y) (fun _ => x)) in
  let st := run prog (exact prog) overlap in
  sound prog (exact prog) /\ succeeded st = [0; 1; 2; 3] /\ content st = [y; x] /\
  one_by_one prog [0; 1; 2; 3] = [x; x] /\ one_by_one prog [0; 1; 3; 2] = [y; y] /\ ~ serialisable prog st.
Proof.
  intros x y N. cbv zeta. set (prog := twice x y (Update (Nat.eqb x) (fun _ => y)) (Update (Nat.eqb y) (fun _ => x))).
  assert (Exy : Nat.eqb x y = false) by (apply Nat.eqb_neq; exact N). assert (Eyx : Nat.eqb y x = false) by (apply Nat.eqb_neq; congruence).
  assert (L : log (run prog (exact prog) overlap) =
    [{| by_ := 0; base := 0; adds := [{| fname := 0; rows := [x] |}]; removes := [] |};
     {| by_ := 1; base := 1; adds := [{| fname := 1; rows := [y] |}]; removes := [] |};
     {| by_ := 2; base := 2; adds := [{| fname := 2; rows := [y] |}]; removes := [0] |};
     {| by_ := 3; base := 2; adds := [{| fname := 3; rows := [x] |}]; removes := [1] |}]).
  { set (c0 := {| by_ := 0; base := 0; adds := [{| fname := 0; rows := [x] |}]; removes := [] |}).
    set (c1 := {| by_ := 1; base := 1; adds := [{| fname := 1; rows := [y] |}]; removes := [] |}).
    set (c2 := {| by_ := 2; base := 2; adds := [{| fname := 2; rows := [y] |}]; removes := [0] |}).
    set (c3 := {| by_ := 3; base := 2; adds := [{| fname := 3; rows := [x] |}]; removes := [1] |}).
    unfold run, overlap. cbn [fold_left].
    replace (step prog (exact prog) (step prog (exact prog) (step prog (exact prog) (step prog (exact prog) init (Begin 0)) (Commit 0)) (Begin 1)) (Commit 1))
      with {| log := [c0; c1]; running := []; failed := [] |} by reflexivity.
    assert (P2 : plan prog (exact prog) 2 2 [{| fname := 0; rows := [x] |}; {| fname := 1; rows := [y] |}] = c2).
    { unfold plan, exact, prog. cbn [twice filter rows existsb selects]. rewrite Nat.eqb_refl, Exy. cbn. rewrite Nat.eqb_refl. reflexivity. }
    assert (P3 : plan prog (exact prog) 3 2 [{| fname := 0; rows := [x] |}; {| fname := 1; rows := [y] |}] = c3).
    { unfold plan, exact, prog. cbn [twice filter rows existsb selects]. rewrite Nat.eqb_refl, Eyx. cbn. rewrite Nat.eqb_refl. reflexivity. }
    assert (B2 : step prog (exact prog) {| log := [c0; c1]; running := []; failed := [] |} (Begin 2) = {| log := [c0; c1]; running := [c2]; failed := [] |}).
    { cbn [step]. change (used _ 2) with false. cbn [log running failed length]. change (table [c0; c1]) with [{| fname := 0; rows := [x] |}; {| fname := 1; rows := [y] |}]. rewrite P2. reflexivity. }
    rewrite B2.
    assert (B3 : step prog (exact prog) {| log := [c0; c1]; running := [c2]; failed := [] |} (Begin 3) = {| log := [c0; c1]; running := [c3; c2]; failed := [] |}).
    { cbn [step]. change (used _ 3) with false. cbn [log running failed length]. change (table [c0; c1]) with [{| fname := 0; rows := [x] |}; {| fname := 1; rows := [y] |}]. rewrite P3. reflexivity. }
    rewrite B3. reflexivity. }
  assert (S : succeeded (run prog (exact prog) overlap) = [0; 1; 2; 3]) by (unfold succeeded; rewrite L; reflexivity).
  assert (C : content (run prog (exact prog) overlap) = [y; x]) by (unfold content; rewrite L; reflexivity).
  assert (O1 : one_by_one prog [0; 1; 2; 3] = [x; x]) by (unfold one_by_one, prog; cbn; rewrite !Nat.eqb_refl, ?Exy; cbn; rewrite ?Nat.eqb_refl; reflexivity).
  assert (O2 : one_by_one prog [0; 1; 3; 2] = [y; y]) by (unfold one_by_one, prog; cbn; rewrite !Nat.eqb_refl, ?Eyx; cbn; rewrite ?Nat.eqb_refl; reflexivity).
  split; [apply exact_sound|]. split; [exact S|]. split; [exact C|]. split; [exact O1|]. split; [exact O2|].
  intros (order & P & T & Q). rewrite S in P. rewrite C in Q.
  assert (Ord : order = [0; 1; 2; 3] \/ order = [0; 1; 3; 2]).
  { assert (T01 : precedes order 0 1).
    { apply T. exists 0. eexists _, (nth 1 (log (run prog (exact prog) overlap)) {| by_ := 0; base := 0; adds := []; removes := [] |}).
      rewrite L. cbn. repeat split; auto. }
    assert (T12 : precedes order 1 2).
    { apply T. exists 1. eexists _, (nth 2 (log (run prog (exact prog) overlap)) {| by_ := 0; base := 0; adds := []; removes := [] |}).
      rewrite L. cbn. repeat split; auto. }
    assert (T13 : precedes order 1 3).
    { apply T. exists 1. eexists _, (nth 3 (log (run prog (exact prog) overlap)) {| by_ := 0; base := 0; adds := []; removes := [] |}).
      rewrite L. cbn. repeat split; auto. }
    clear - P T01 T12 T13.
    assert (Nd : NoDup order) by (apply (Permutation_NoDup (Permutation_sym P)); repeat (constructor; [cbn; intros X; repeat destruct X as [X|X]; try discriminate X; exact X|]); constructor).
    assert (Ln := Permutation_length P). cbn in Ln.
    destruct order as [|a [|b [|c [|d [|? ?]]]]]; try discriminate Ln. clear Ln.
    assert (Hin : forall z, In z [a; b; c; d] -> z = 0 \/ z = 1 \/ z = 2 \/ z = 3).
    { intros z Hz. apply (Permutation_in _ P) in Hz. cbn in Hz. intuition. }
    assert (Pr : forall u v, precedes [a; b; c; d] u v -> (a = u /\ (b = v \/ c = v \/ d = v)) \/ (b = u /\ (c = v \/ d = v)) \/ (c = u /\ d = v)).
    { intros u v (l1 & l2 & l3 & E). destruct l1 as [|? [|? [|? [|? l1]]]]; inversion E; subst; clear E;
        repeat match goal with H : _ = ?l ++ _ |- _ => is_var l; destruct l; cbn in H; inversion H; subst; clear H end; auto;
        try (match goal with H : [] = ?l ++ _ |- _ => destruct l; discriminate H end). }
    apply Pr in T01, T12, T13. pose proof (Hin a ltac:(cbn; auto)) as Ia. pose proof (Hin b ltac:(cbn; auto)) as Ib.
    pose proof (Hin c ltac:(cbn; auto)) as Ic. pose proof (Hin d ltac:(cbn; auto)) as Id.
    assert (Nd2 : a <> b /\ a <> c /\ a <> d /\ b <> c /\ b <> d /\ c <> d).
    { inversion Nd as [|? ? X1 Nd1]; subst. inversion Nd1 as [|? ? X2 Nd2]; subst. inversion Nd2 as [|? ? X3 Nd3]; subst. cbn in X1, X2, X3. clear - X1 X2 X3.
      repeat split; intros E; [apply X1|apply X1|apply X1|apply X2|apply X2|apply X3]; rewrite E; auto. }
    assert (H : a = 0 /\ b = 1 /\ (c = 2 /\ d = 3 \/ c = 3 /\ d = 2)) by (
      clear - T01 T12 T13 Ia Ib Ic Id Nd2; destruct Nd2 as (N1 & N2 & N3 & N4 & N5 & N6);
      destruct Ia as [-> |[-> |[-> | -> ] ] ]; destruct Ib as [-> |[-> |[-> | -> ] ] ]; try (exfalso; apply N1; reflexivity);
      destruct Ic as [-> |[-> |[-> | -> ] ] ]; try (exfalso; apply N2; reflexivity); try (exfalso; apply N4; reflexivity);
      destruct Id as [-> |[-> |[-> | -> ] ] ]; try (exfalso; apply N3; reflexivity); try (exfalso; apply N5; reflexivity); try (exfalso; apply N6; reflexivity);
      clear N1 N2 N3 N4 N5 N6; try (exfalso; clear T12 T13; lia); try (exfalso; clear T01 T13; lia); try (exfalso; clear T01 T12; lia); auto).
    destruct H as (-> & -> & [[-> ->]|[-> ->]]); auto. }
  destruct Ord as [-> | ->]; [rewrite O1 in Q|rewrite O2 in Q].
  - apply Permutation_length_2_inv in Q as [E|E]; congruence.
  - apply Permutation_length_2_inv in Q as [E|E]; congruence.
Qed.
Print Assumptions c150_update_refuted.

(* C150, not for INSERT ... SELECT: two sessions execute INSERT INTO t SELECT count( * ) FROM t at the same time, and both insert the same number. *)
Theorem c150_insert_select_refuted : forall x y : nat,
  let count := InsertSelect (fun t => [length t]) in
  let prog := twice x y count count in
  let st := run prog (exact prog) overlap in
  succeeded st = [0; 1; 2; 3] /\ content st = [x; y; 2; 2] /\
  one_by_one prog [0; 1; 2; 3] = [x; y; 2; 3] /\ one_by_one prog [0; 1; 3; 2] = [x; y; 2; 3] /\
  ~ Permutation (content st) [x; y; 2; 3].
Proof.
  intros x y. cbv zeta. repeat split. intros P. change (content _) with [x; y; 2; 2] in P.
  apply (Permutation_app_inv_l [x; y]) in P. apply Permutation_length_2_inv in P as [E|E]; discriminate E.
Qed.
Print Assumptions c150_insert_select_refuted.

(* two DELETEs and an INSERT at the same time: those that succeeded are 0, 1, 2, 4 and the table is that of 0, 1, 2, 4; statement 3 conflicts with 2 *)
Definition ex_prog (w : nat) : stmt nat :=
  match w with 0 => Insert [1; 2; 3] | 1 => Insert [4; 5] | 2 => Delete (fun r => Nat.leb r 2) | 3 => Delete (Nat.eqb 3) | _ => Insert [1; 6] end.
Example c150_ex :
  let st := run ex_prog (exact ex_prog) [Begin 0; Commit 0; Begin 1; Begin 2; Commit 1; Begin 3; Begin 4; Commit 4; Commit 2; Commit 3] in
  (forall w, match ex_prog w with Insert _ | Delete _ => True | _ => False end) /\
  content st = [4; 5; 1; 6; 3] /\ succeeded st = [0; 1; 4; 2] /\ failed st = [3] /\
  Permutation (content st) (one_by_one ex_prog [0; 2; 1; 4]).
Proof.
  cbv zeta. split; [intros [|[|[|[|]]]]; exact Logic.I|]. split; [reflexivity|]. split; [reflexivity|]. split; [reflexivity|].
  cbn. apply (Permutation_app_comm [4; 5; 1; 6] [3]).
Qed.
Example c150_ex_seq :
  let prog := twice 1 2 (Update (Nat.eqb 1) (fun _ => 7)) (InsertSelect (fun t => [length t])) in
  let st := run prog (exact prog) (flat_map (fun w => [Begin w; Commit w]) [1; 0; 2; 3]) in
  NoDup [1; 0; 2; 3] /\ sound prog (exact prog) /\ content st = [2; 7; 2].
Proof.
  cbv zeta. split; [repeat (constructor; [cbn; intros X; repeat destruct X as [X|X]; try discriminate X; exact X|]); constructor|].
  split; [apply exact_sound|reflexivity].
Qed.
Example c150_ex_conflict :
  let st := run ex_prog (exact ex_prog) [Begin 0; Commit 0; Begin 2; Begin 3] in
  map by_ (running st) = [3; 2] /\ map removes (running st) = [[0]; [0]].
Proof. split; reflexivity. Qed.
