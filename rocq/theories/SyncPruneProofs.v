(* Pruning keeps every file with a row that a change touches. *)
From Coq Require Import String List Arith ZArith Bool Lia Permutation OrderedTypeEx.
From Verif Require Import SyncDataModel SyncDataSpec SyncAbsSquash SyncSquashProofs SyncAbsMerge SyncMergeProofs SyncApplyProofs.
Import ListNotations.
Open Scope list_scope.

Lemma value_le_vle a b : value_le a b = vle a b. Proof. destruct a, b; reflexivity. Qed.
Lemma vle_refl a : vle a a = true.
Proof.
  destruct a; cbn; auto; [destruct b; auto|apply Z.leb_refl|].
  destruct (String.compare s s) eqn:E; auto.
  pose proof (String.compare_antisym s s) as A. rewrite E in A. discriminate.
Qed.
Lemma vle_total a b : vle a b = true \/ vle b a = true.
Proof.
  destruct a as [|x|x|x], b as [|y|y|y]; cbn; auto.
  - destruct x, y; auto.
  - rewrite !Z.leb_le. lia.
  - rewrite (String.compare_antisym y x). destruct (String.compare x y); auto.
Qed.
Lemma vle_trans a b c : vle a b = true -> vle b c = true -> vle a c = true.
Proof.
  destruct a as [|x|x|x], b as [|y|y|y], c as [|z|z|z]; cbn; auto; try discriminate.
  - destruct x, y, z; auto.
  - rewrite !Z.leb_le. lia.
  - destruct (String.compare x y) eqn:A, (String.compare y z) eqn:B; try discriminate; intros _ _.
    + apply String.compare_eq_iff in A, B. subst. pose proof (vle_refl (VStr z)) as X. exact X.
    + apply String.compare_eq_iff in A. subst. now rewrite B.
    + apply String.compare_eq_iff in B. subst. now rewrite A.
    + assert (X : String.compare x z = Lt); [|now rewrite X].
      apply String_as_OT.cmp_lt. eapply String_as_OT.lt_trans; apply String_as_OT.cmp_lt; eauto.
Qed.

Lemma is_null_true v : is_null v = true <-> v = VNull.
Proof. destruct v; cbn; split; congruence. Qed.

Lemma fold_min cells : forall a, let m := fold_left acc_min cells a in
  (a <> VNull -> m <> VNull /\ vle m a = true) /\ (forall v, In v cells -> v <> VNull -> m <> VNull /\ vle m v = true).
Proof.
  induction cells as [|c cells IH]; intros a; cbn.
  - split; [intros; split; auto; apply vle_refl|contradiction].
  - destruct (IH (acc_min a c)) as [I1 I2]. split.
    + intros Na. assert (X : acc_min a c <> VNull /\ vle (acc_min a c) a = true).
      { unfold acc_min. destruct (is_null c) eqn:C; [split; auto; apply vle_refl|].
        destruct (is_null a) eqn:A; [apply is_null_true in A; congruence|].
        destruct (vle a c) eqn:L; [split; auto; apply vle_refl|]. split; [intros ->; discriminate|].
        destruct (vle_total a c); congruence. }
      destruct X as [X1 X2]. destruct (I1 X1). split; auto. eapply vle_trans; eauto.
    + intros v [->|Hv] Nv; [|now apply I2].
      assert (X : acc_min a v <> VNull /\ vle (acc_min a v) v = true).
      { unfold acc_min. destruct (is_null v) eqn:C; [apply is_null_true in C; congruence|].
        destruct (is_null a) eqn:A; [split; auto; apply vle_refl|].
        destruct (vle a v) eqn:L; split; auto; [intros ->; discriminate|apply vle_refl]. }
      destruct X as [X1 X2]. destruct (I1 X1). split; auto. eapply vle_trans; eauto.
Qed.
Lemma fold_max cells : forall a, let m := fold_left acc_max cells a in
  (a <> VNull -> m <> VNull /\ vle a m = true) /\ (forall v, In v cells -> v <> VNull -> m <> VNull /\ vle v m = true).
Proof.
  induction cells as [|c cells IH]; intros a; cbn.
  - split; [intros; split; auto; apply vle_refl|contradiction].
  - destruct (IH (acc_max a c)) as [I1 I2]. split.
    + intros Na. assert (X : acc_max a c <> VNull /\ vle a (acc_max a c) = true).
      { unfold acc_max. destruct (is_null c) eqn:C; [split; auto; apply vle_refl|].
        destruct (is_null a) eqn:A; [apply is_null_true in A; congruence|].
        destruct (vle a c) eqn:L; split; auto; [intros ->; discriminate|apply vle_refl]. }
      destruct X as [X1 X2]. destruct (I1 X1). split; auto. eapply vle_trans; eauto.
    + intros v [->|Hv] Nv; [|now apply I2].
      assert (X : acc_max a v <> VNull /\ vle v (acc_max a v) = true).
      { unfold acc_max. destruct (is_null v) eqn:C; [apply is_null_true in C; congruence|].
        destruct (is_null a) eqn:A; [split; auto; apply vle_refl|].
        destruct (vle a v) eqn:L; [split; auto; apply vle_refl|]. split; [intros ->; discriminate|].
        destruct (vle_total a v); congruence. }
      destruct X as [X1 X2]. destruct (I1 X1). split; auto. eapply vle_trans; eauto.
Qed.

Definition btw (items : list (list column * list (list value))) (ro : role) (n : nat) : list (nat * (value * value)) :=
  let lo := fold_left acc_min (pk_cells items ro n) VNull in
  let hi := fold_left acc_max (pk_cells items ro n) VNull in
  if is_null lo || is_null hi then [] else [(n, (lo, hi))].
Lemma cq_eq items sch rows rest ro : items = (sch, rows) :: rest ->
  construct_qualifier items ro = match flat_map (btw items ro) (names_of sch ro) with [] => None | l => Some l end.
Proof.
  intros ->. unfold construct_qualifier. cbv zeta. fold (btw ((sch, rows) :: rest) ro).
  change (fun n : nat => if is_null (fold_left acc_min (pk_cells ((sch, rows) :: rest) ro n) VNull)
            || is_null (fold_left acc_max (pk_cells ((sch, rows) :: rest) ro n) VNull) then []
           else [(n, (fold_left acc_min (pk_cells ((sch, rows) :: rest) ro n) VNull,
                  fold_left acc_max (pk_cells ((sch, rows) :: rest) ro n) VNull))]) with (btw ((sch, rows) :: rest) ro).
  destruct (flat_map _ _); reflexivity.
Qed.
Lemma gpm_eq items sch rows rest st n : items = (sch, rows) :: rest ->
  get_prune_map items st n =
  if existsb (fun n => match st_min st n, st_max st n with None, None => true | _, _ => false end) (names_of sch OldPk)
  then repeat true n
  else map (fun f => existsb (fun ro => existsb (fun it => may_hit st f it ro) items) [OldPk; NewPk]) (seq 0 n).
Proof. intros ->. reflexivity. Qed.

Section P.
Variables (tcols pks vals : list nat) (items : list (list column * list (list value))).
Hypothesis GI : forall it, In it items -> good_schema pks (fst it) /\ forall r, In r (snd it) -> good_row pks (fst it) r.

(* a key of a change, cell by cell *)
Lemma key_cells it r ro k :
  In it items -> In r (snd it) -> (ro = OldPk \/ ro = NewPk) -> as_key (read_key (fst it) r ro pks) = Some k ->
  (forall n, In n pks -> exists i, find_col (fst it) n ro = Some i) /\
  k = map (fun n => ocell (find_col (fst it) n ro) (Some r)) pks /\ Forall (fun v => v <> VNull) k.
Proof.
  intros Hi Hr Hro A. destruct (GI it Hi) as [G GR]. destruct (GR r Hr) as (L & WO & WN).
  pose proof G as (D & EO & EN & NE & _).
  assert (W : whole (read_key (fst it) r ro pks)) by (destruct Hro as [-> | ->]; auto).
  split.
  { intros n Hn. assert (X : has_col (fst it) n ro = true) by (apply has_col_names; destruct Hro as [-> | ->]; congruence).
    unfold has_col in X. destruct (find_col (fst it) n ro); eauto. discriminate. }
  pose proof (as_key_some _ _ A) as E. rewrite read_key_fkey in E, A, W by auto. split; [now rewrite <- E|].
  rewrite E in W. destruct W as [W|W]; auto. exfalso. unfold as_key in A. spec_helpers. rewrite E in A.
  assert (F : forallb is_null k = true).
  { apply forallb_forall. intros v Hv. rewrite Forall_forall in W. now rewrite (W v Hv). }
  rewrite F in A. discriminate.
Qed.

Variables (files : list (list (list value))) (st : fstats) (pp : list (list (nat * (value * value))) -> list bool).
Hypothesis PP : pp_ok tcols files pp.
Hypothesis SO : stats_ok tcols files st.

Lemma in_pk_cells it r ro n i : In it items -> In r (snd it) -> find_col (fst it) n ro = Some i -> In (cell i r) (pk_cells items ro n).
Proof. intros Hi Hr F. unfold pk_cells. apply in_flat_map. exists it. split; auto. apply in_map_iff. exists r. rewrite F. auto. Qed.

Lemma items_nil it : In it items -> exists sch rows rest, items = (sch, rows) :: rest /\ good_schema pks sch.
Proof.
  destruct items as [|[s rs] rest]; [contradiction|]. intros _. exists s, rs, rest. split; auto. apply (GI (s, rs)). cbn; auto.
Qed.

Lemma qualifier_hits it r ro k row :
  In it items -> In r (snd it) -> (ro = OldPk \/ ro = NewPk) -> as_key (read_key (fst it) r ro pks) = Some k ->
  row_key tcols pks row = k ->
  exists q, construct_qualifier items ro = Some q /\ in_box tcols row q.
Proof.
  intros Hi Hr Hro A K. destruct (items_nil it Hi) as (sch & rows & rest & EI & G).
  destruct (key_cells it r ro k Hi Hr Hro A) as (Fi & Ek & Nk).
  pose proof G as (D & EO & EN & NE & _).
  assert (Nm : names_of sch ro = pks) by (destruct Hro as [-> | ->]; auto).
  rewrite (cq_eq _ _ _ _ ro EI), Nm. set (f := btw items ro). set (q := flat_map f pks).
  assert (Cell : forall n, In n pks -> tread tcols row n <> VNull /\ In (tread tcols row n) (pk_cells items ro n)).
  { intros n Hn. destruct (Fi n Hn) as [i E].
    assert (X : tread tcols row n = cell i r).
    { rewrite Ek in K. unfold row_key in K. clear - K Hn E.
      induction pks as [|p ps IH]; cbn in *; [contradiction|]. injection K as K1 K2. destruct Hn as [->|Hn]; auto.
      rewrite K1, E. reflexivity. }
    split; [|rewrite X; eapply in_pk_cells; eauto].
    rewrite Forall_forall in Nk. apply Nk. rewrite <- K. unfold row_key. now apply in_map. }
  assert (Fn : forall n, In n pks -> exists lo hi, f n = [(n, (lo, hi))] /\ vle lo (tread tcols row n) = true /\ vle (tread tcols row n) hi = true).
  { intros n Hn. destruct (Cell n Hn) as [C1 C2].
    destruct (proj2 (fold_min (pk_cells items ro n) VNull) _ C2 C1) as [M1 M2].
    destruct (proj2 (fold_max (pk_cells items ro n) VNull) _ C2 C1) as [X1 X2].
    exists (fold_left acc_min (pk_cells items ro n) VNull), (fold_left acc_max (pk_cells items ro n) VNull).
    split; auto. unfold f, btw.
    destruct (is_null (fold_left acc_min (pk_cells items ro n) VNull)) eqn:Z1; [apply is_null_true in Z1; congruence|].
    destruct (is_null (fold_left acc_max (pk_cells items ro n) VNull)) eqn:Z2; [apply is_null_true in Z2; congruence|].
    reflexivity. }
  exists q. split.
  - destruct q eqn:Q; auto. exfalso. destruct pks as [|p ps] eqn:EP; [congruence|].
    destruct (Fn p) as (lo & hi & F & _); [cbn; auto|]. unfold q in Q. cbn in Q. rewrite F in Q. discriminate.
  - intros n lo hi H. unfold q in H. apply in_flat_map in H as (n' & Hn' & H).
    destruct (Fn n' Hn') as (lo' & hi' & F & B1 & B2). rewrite F in H. destruct H as [[= <- <- <-]|[]]. rewrite !value_le_vle. auto.
Qed.

Lemma fold_kleene l : forall a, a <> Some false -> (forall x, In x l -> x <> Some false) -> fold_left and_kleene l a <> Some false.
Proof.
  induction l as [|x l IH]; intros a Ha H; cbn; auto. apply IH; [|intros; apply H; cbn; auto].
  assert (Hx : x <> Some false) by (apply H; cbn; auto). destruct a as [[]|], x as [[]|]; cbn; congruence.
Qed.

Lemma fine_hits it r ro k f rows row :
  In it items -> In r (snd it) -> (ro = OldPk \/ ro = NewPk) -> as_key (read_key (fst it) r ro pks) = Some k ->
  nth_error files f = Some rows -> In row rows -> row_key tcols pks row = k ->
  may_hit st f it ro = true.
Proof.
  intros Hi Hr Hro A Hf Hrow K. destruct (key_cells it r ro k Hi Hr Hro A) as (Fi & Ek & Nk).
  destruct (GI it Hi) as [G _]. pose proof G as (D & EO & EN & NE & _).
  assert (Nm : names_of (fst it) ro = pks) by (destruct Hro as [-> | ->]; auto).
  assert (Cell : forall i c, nth_error (fst it) i = Some c -> c_role c = ro -> cell i r = tread tcols row (c_name c) /\ cell i r <> VNull).
  { intros i c Hc Rc. pose proof (find_col_at _ _ _ D Hc) as F. rewrite Rc in F.
    assert (Hn : In (c_name c) pks).
    { rewrite <- Nm. unfold names_of. apply in_map_iff. exists c. split; auto. apply filter_In. split; [eapply nth_error_In; eauto|].
      destruct (role_eqb_spec (c_role c) ro); auto. }
    assert (X : tread tcols row (c_name c) = cell i r).
    { rewrite Ek in K. unfold row_key in K. clear - K Hn F.
      induction pks as [|p ps IH]; cbn in *; [contradiction|]. injection K as K1 K2. destruct Hn as [->|Hn]; auto.
      rewrite K1, F. reflexivity. }
    split; auto. rewrite <- X. rewrite Forall_forall in Nk. apply Nk. rewrite <- K. unfold row_key. now apply in_map. }
  unfold may_hit. destruct (cols_of (fst it) ro) as [|c0 cs] eqn:C.
  { exfalso. apply NE. rewrite <- Nm. unfold names_of. destruct (filter _ (fst it)) as [|c l] eqn:F; auto. exfalso.
    assert (X : In c (filter (fun c => role_eqb (c_role c) ro) (fst it))) by (rewrite F; cbn; auto).
    apply filter_In in X as [X1 X2]. apply In_nth_error in X1 as [i X1].
    destruct (role_eqb_spec (c_role c) ro) as [R|]; [|discriminate].
    assert (Y : In i (cols_of (fst it) ro)) by (apply in_cols_of; auto; eauto). rewrite C in Y. contradiction. }
  apply existsb_exists. exists r. split.
  - apply filter_In. split; auto. assert (Y : In c0 (cols_of (fst it) ro)) by (rewrite C; cbn; auto).
    apply in_cols_of in Y as (c & Hc & Rc); auto. destruct (Cell c0 c Hc Rc) as [_ N].
    destruct (cell c0 r); cbn; auto; congruence.
  - match goal with |- match ?e with _ => _ end = true => assert (X : e <> Some false) end.
    { apply fold_kleene; [discriminate|]. intros x Hx. apply in_map_iff in Hx as ([i c] & <- & Hic).
      apply filter_In in Hic as [Hic Rc]. apply in_with_idx in Hic. cbn [fst snd] in *.
      destruct (role_eqb_spec (c_role c) ro) as [R|]; [|discriminate].
      destruct (Cell i c Hic R) as [E N]. rewrite E in *. destruct (SO (c_name c) f rows row Hf Hrow) as [S1 S2].
      assert (NT : is_null (tread tcols row (c_name c)) = false).
      { destruct (is_null (tread tcols row (c_name c))) eqn:Z; auto. apply is_null_true in Z. congruence. }
      assert (T1 : forall ms, st_min st (c_name c) = Some ms -> cmp_le (nth f ms VNull) (tread tcols row (c_name c)) <> Some false).
      { intros ms Em. unfold cmp_le. rewrite NT. destruct (S1 ms Em) as [-> | V]; [discriminate|]. rewrite value_le_vle in V. rewrite V. destruct (is_null (nth f ms VNull)); cbn; congruence. }
      assert (T2 : forall ms, st_max st (c_name c) = Some ms -> cmp_le (tread tcols row (c_name c)) (nth f ms VNull) <> Some false).
      { intros ms Em. unfold cmp_le. rewrite NT. destruct (S2 ms Em) as [-> | V]; [discriminate|]. rewrite value_le_vle in V. rewrite V. destruct (is_null (nth f ms VNull)); cbn; congruence. }
      unfold col_test. destruct (st_min st (c_name c)) as [mi|], (st_max st (c_name c)) as [ma|]; auto; [|discriminate].
      specialize (T1 mi eq_refl). specialize (T2 ma eq_refl).
      destruct (cmp_le (nth f mi VNull) _) as [[]|], (cmp_le _ (nth f ma VNull)) as [[]|]; cbn; congruence. }
    destruct (fold_left _ _ _) as [[]|]; auto; congruence.
Qed.

Theorem prune_sound keep it r ro k f rows row :
  prune_partitions pp items st (length files) = Some keep ->
  In it items -> In r (snd it) -> (ro = OldPk \/ ro = NewPk) -> as_key (read_key (fst it) r ro pks) = Some k ->
  nth_error files f = Some rows -> In row rows -> row_key tcols pks row = k ->
  nth f keep false = true.
Proof.
  intros P Hi Hr Hro A Hf Hrow K. unfold prune_partitions in P.
  destruct (qualifier_hits it r ro k row Hi Hr Hro A K) as (q & Q & B).
  assert (HM : forall m, match construct_qualifier items OldPk, construct_qualifier items NewPk with
                 | Some o, Some n => Some (pp [o; n]) | Some o, None => Some (pp [o]) | None, Some n => Some (pp [n]) | None, None => None
                 end = Some m -> nth f m false = true).
  { intros m. destruct (construct_qualifier items OldPk) as [o|] eqn:QO, (construct_qualifier items NewPk) as [n|] eqn:QN; intros HE; try discriminate; injection HE as <-;
      (eapply (proj2 (PP _)); eauto; cbn; destruct Hro as [-> | ->]; intuition congruence). }
  destruct (match construct_qualifier items OldPk with Some _ => _ | None => _ end) as [m|] eqn:EM; [|discriminate].
  injection P as <-. destruct (Z.ltb _ _).
  - destruct (items_nil it Hi) as (sch & rs & rest & EI & G). rewrite (gpm_eq _ _ _ _ st _ EI).
    assert (Lf : f < length files) by (apply nth_error_Some; congruence).
    destruct (existsb _ (names_of sch OldPk)).
    + rewrite (nth_indep _ false true) by (rewrite repeat_length; auto). apply nth_repeat.
    + match goal with |- nth f (map ?g _) false = true => rewrite (nth_indep _ false (g 0)) by (rewrite map_length, seq_length; auto); rewrite (map_nth g) end.
      rewrite seq_nth by auto. cbn [plus].
      assert (X : existsb (fun it0 => may_hit st f it0 ro) items = true).
      { apply existsb_exists. exists it. split; auto. eapply fine_hits; eauto. }
      cbn. destruct Hro as [-> | ->]; rewrite X; auto. now rewrite orb_true_r.
  - eapply HM; eauto.
Qed.

Lemma prune_length keep : items <> [] -> prune_partitions pp items st (length files) = Some keep -> length keep = length files.
Proof.
  intros NI. unfold prune_partitions. intros P.
  assert (HM : forall m, match construct_qualifier items OldPk, construct_qualifier items NewPk with
                 | Some o, Some n => Some (pp [o; n]) | Some o, None => Some (pp [o]) | None, Some n => Some (pp [n]) | None, None => None
                 end = Some m -> length m = length files).
  { intros m. destruct (construct_qualifier items OldPk) as [o|] eqn:QO, (construct_qualifier items NewPk) as [n|] eqn:QN; intros HE; try discriminate; injection HE as <-; apply PP. }
  destruct (match construct_qualifier items OldPk with Some _ => _ | None => _ end) as [m|] eqn:EM; [|discriminate].
  injection P as <-. destruct (Z.ltb _ _); [|auto]. unfold get_prune_map. destruct items as [|[s rs] rest]; [congruence|].
  destruct (existsb _ _); [apply repeat_length|]. now rewrite map_length, seq_length.
Qed.

(* a change that does something is enough for the planner not to panic *)
Lemma prune_some it r ro k :
  In it items -> In r (snd it) -> (ro = OldPk \/ ro = NewPk) -> as_key (read_key (fst it) r ro pks) = Some k ->
  length k = length pks -> NoDup tcols -> incl pks tcols -> NoDup pks ->
  exists keep, prune_partitions pp items st (length files) = Some keep.
Proof.
  intros Hi Hr Hro A Lk ND IN NP.
  (* a row with this key *)
  set (row := map (fun n => match pos_of n pks with Some i => nth i k VNull | None => VNull end) tcols).
  assert (K : row_key tcols pks row = k).
  { unfold row_key, row. apply (nth_ext _ _ VNull VNull); rewrite map_length; auto. intros i Hi'.
    match goal with |- nth i (map ?g pks) VNull = _ => rewrite (nth_indep _ VNull (g 0)) by (rewrite map_length; auto); rewrite (map_nth g) end.
    assert (E : nth_error pks i = Some (nth i pks 0)) by (apply nth_error_nth'; auto).
    rewrite tread_map by (apply IN; now apply nth_In).
    destruct (pos_of_in (nth i pks 0) pks) as (j & -> & Hj); [now apply nth_In|].
    now rewrite (nodup_nth _ _ _ _ NP E Hj). }
  destruct (qualifier_hits it r ro k row Hi Hr Hro A K) as (q & Q & _).
  unfold prune_partitions. destruct Hro as [-> | ->]; rewrite Q.
  - destruct (construct_qualifier items NewPk); eexists; reflexivity.
  - destruct (construct_qualifier items OldPk); eexists; reflexivity.
Qed.
End P.
