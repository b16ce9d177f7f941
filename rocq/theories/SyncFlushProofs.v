(* A flush from the pending batches to the committed rows. *)
From Coq Require Import List Arith ZArith Bool Lia Permutation.
From Verif Require Import SyncDataModel SyncDataSpec SyncAbsSquash SyncSquashProofs SyncAbsMerge SyncMergeProofs
  SyncMergeMain SyncApplyProofs SyncPruneProofs.
Import ListNotations.

(* ----- a property closed under combination passes to the squashed changes ----- *)
Lemma in_set_nth {A} i (x y : A) l : In y (set_nth i x l) -> y = x \/ In y l.
Proof.
  revert i; induction l as [|a l IH]; intros [|i]; cbn; auto.
  - intros [->|H]; auto.
  - intros [->|H]; auto. destruct (IH i H); auto.
Qed.
Lemma step_closed C w t0 t st c :
  closed C -> AInv w t0 t st -> (forall x, In x (a_chains st) -> C x) -> C c -> forall x, In x (a_chains (a_step st c)) -> C x.
Proof.
  intros HC HA Hst Hc x. unfold a_step. destruct (a_hit st c) as [id|] eqn:Hit; cbn.
  - unfold a_hit in Hit. destruct (ch_old c) as [k|] eqn:Eo; [|discriminate].
    apply (ai_pk _ _ _ _ HA) in Hit as (h & Hh & Hn).
    rewrite (nth_error_nth _ _ dummy Hh). intros Hx. apply in_set_nth in Hx as [->|Hx]; auto.
    apply (HC h c); auto; [apply Hst; eapply nth_error_In; eauto|].
    unfold amatch. rewrite Hn, Eo. destruct (keqb_spec k k); congruence.
  - intros Hx. apply in_app_or in Hx as [Hx|[<-|[]]]; auto.
Qed.
Lemma run_closed C w t0 cs : closed C -> forall t st,
  wide w t0 -> AInv w t0 t st -> (forall c, In c cs -> length (ch_set c) = w) -> valid_stream t cs ->
  (forall x, In x (a_chains st) -> C x) -> (forall c, In c cs -> C c) ->
  forall x, In x (a_chains (fold_left a_step cs st)) -> C x.
Proof.
  intros HC. induction cs as [|c cs IH]; intros t st Hw HA HS V H1 H2; cbn; auto.
  destruct V as [V1 V2]. apply (IH (apply1 c t)); auto.
  - apply AInv_step; auto. apply HS; cbn; auto.
  - intros; apply HS; cbn; auto.
  - eapply step_closed; eauto. apply H2; cbn; auto.
  - intros; apply H2; cbn; auto.
Qed.

(* ----- squashing one item ----- *)
Lemma concat_batches_good w data :
  (forall b, In b data -> rb_width b = w) -> (forall r, In r (flat_map rb_rows data) -> length r = w) ->
  concat_batches w data = Some (flat_map rb_rows data).
Proof.
  induction data as [|b data IH]; intros Hw Hr; [reflexivity|]. cbn [concat_batches flat_map].
  rewrite (Hw b) by (cbn; auto). rewrite Nat.ltb_irrefl. rewrite IH.
  - f_equal. f_equal. rewrite <- (map_id (rb_rows b)) at 2. apply map_ext_in. intros r H. rewrite <- (Hr r), firstn_all; auto.
    cbn. apply in_or_app; auto.
  - intros; apply Hw; cbn; auto.
  - intros; apply Hr; cbn. apply in_or_app; auto.
Qed.
Lemma squash_batches_good pks it : good_item pks it -> squash_batches (fst it) (snd it) = squash_rows (fst it) (item_rows it).
Proof.
  intros (G & NE & W & R). unfold squash_batches. destruct (snd it) as [|b data] eqn:E; [congruence|].
  rewrite (W b), Nat.eqb_refl by (cbn; auto). cbn [negb]. rewrite (concat_batches_good (length (fst it)) (b :: data)).
  - unfold item_rows. now rewrite E.
  - apply W.
  - intros r Hr. apply R. unfold item_rows. now rewrite E.
Qed.

Lemma apply_all_app cs cs' t : apply_all (cs ++ cs') t = apply_all cs' (apply_all cs t).
Proof. unfold apply_all. apply fold_left_app. Qed.
Lemma valid_app cs cs' : forall t, valid_stream t (cs ++ cs') <-> valid_stream t cs /\ valid_stream (apply_all cs t) cs'.
Proof.
  induction cs as [|c cs IH]; intros t; cbn; [tauto|]. rewrite IH. unfold apply_all. cbn. tauto.
Qed.
Lemma wide_apply_all w cs : forall t, wide w t -> (forall c, In c cs -> length (ch_set c) = w) -> wide w (apply_all cs t).
Proof.
  induction cs as [|c cs IH]; intros t Hw H; cbn; auto. apply IH; [|intros; apply H; cbn; auto]. apply wide_apply1; auto. apply H; cbn; auto.
Qed.
Lemma change_len pks vals sch r : length (ch_set (change_of pks vals sch r)) = length vals.
Proof. cbn. apply map_length. Qed.

Lemma squash_all_run pks vals C items : closed C -> forall t its,
  wide (length vals) t ->
  (forall it, In it items -> good_item pks it /\ forall r, In r (item_rows it) -> flags_alike (fst it) r) ->
  valid_stream t (all_changes pks vals items) ->
  (forall c, In c (all_changes pks vals items) -> C c) ->
  squash_all items = Some its ->
  run_items pks vals t its (apply_all (all_changes pks vals items) t) /\
  (forall it c, In it its -> In c (map (change_of pks vals (fst it)) (snd it)) -> C c) /\
  map fst its = map fst items.
Proof.
  intros HC. induction items as [|[sch data] items IH]; intros t its Hw HG V Hcl E.
  - injection E as <-. cbn. split; [constructor|]. split; [contradiction|auto].
  - cbn in E. destruct (squash_batches sch data) as [rows|] eqn:S; [|discriminate].
    destruct (squash_all items) as [rest|] eqn:SA; [|discriminate]. injection E as <-.
    destruct (HG (sch, data)) as [G F]; [cbn; auto|].
    pose proof (squash_batches_good pks (sch, data) G) as E. cbn [fst snd] in E. rewrite S in E. symmetry in E.
    unfold all_changes in V. cbn [flat_map] in V. apply valid_app in V as [V1 V2].
    destruct G as (GS & _ & _ & GR). cbn [fst snd] in *.
    destruct (squash_rows_correct pks vals sch (item_rows (sch, data)) rows t GS GR F Hw V1 E) as (A & N & R & I).
    destruct (IH (apply_all (item_changes pks vals (sch, data)) t) rest) as (R' & C' & M'); auto.
    + apply wide_apply_all; auto. intros c Hc. apply in_map_iff in Hc as (r & <- & _). apply change_len.
    + intros; apply HG; cbn; auto.
    + intros c Hc. apply Hcl. unfold all_changes. cbn. apply in_or_app; auto.
    + split; [|split].
      * unfold all_changes. cbn [flat_map]. rewrite apply_all_app. econstructor; eauto.
      * intros it c [<-|Hi] Hc; [|eauto]. cbn [fst snd] in Hc. apply I in Hc. revert c Hc. unfold final_ast.
        eapply (run_closed C (length vals) t); eauto.
        -- now apply AInv_init.
        -- intros c Hc. apply in_map_iff in Hc as (r & <- & _). apply change_len.
        -- cbn. contradiction.
        -- intros c Hc. apply Hcl. unfold all_changes. cbn. apply in_or_app; auto.
      * cbn. now rewrite M'.
Qed.

Lemma run_items_good pks vals t its t' : run_items pks vals t its t' ->
  forall it, In it its -> good_schema pks (fst it) /\ forall r, In r (snd it) -> good_row pks (fst it) r.
Proof. induction 1; cbn; [contradiction|]. intros it [<-|Hi]; auto. Qed.

(* ----- files ----- *)
Lemma select_perm {A} (keep : list bool) (files : list (list A)) : length keep = length files ->
  Permutation (concat files) (concat (select (map negb keep) files) ++ concat (select keep files)).
Proof.
  revert files; induction keep as [|b keep IH]; intros [|f files] L; try discriminate; cbn; auto.
  injection L as L. specialize (IH files L). unfold select in *. destruct b; cbn.
  - eapply Permutation_trans; [apply Permutation_app_head; exact IH|]. rewrite !app_assoc. apply Permutation_app_tail. apply Permutation_app_comm.
  - rewrite <- app_assoc. now apply Permutation_app_head.
Qed.
Lemma in_select {A} (keep : list bool) (files : list A) x :
  In x (select keep files) -> exists f, nth_error files f = Some x /\ nth_error keep f = Some true.
Proof.
  unfold select. intros H. apply in_map_iff in H as ([b y] & E & H). cbn in E. subst y. apply filter_In in H as [H B]. cbn in B. subst b.
  revert files H; induction keep as [|b keep IH]; intros [|f files]; cbn; try contradiction.
  intros [[= -> ->]|H]; [exists 0; auto|]. destruct (IH files H) as (i & A1 & A2). exists (S i). auto.
Qed.
Lemma good_table_perm tcols pks rows rows' : Permutation rows rows' -> good_table tcols pks rows -> good_table tcols pks rows'.
Proof.
  intros P [N H]. split.
  - eapply Permutation_NoDup; [apply Permutation_map; exact P|auto].
  - intros r Hr. apply H. eapply Permutation_in; [apply Permutation_sym; exact P|auto].
Qed.
Lemma table_of_perm tcols pks vals rows rows' k :
  Permutation rows rows' -> good_table tcols pks rows -> table_of tcols pks vals rows k = table_of tcols pks vals rows' k.
Proof.
  intros P G. pose proof (good_table_perm _ _ _ _ P G) as G'.
  destruct (table_of tcols pks vals rows k) as [v|] eqn:E.
  - apply table_inv in E as (r & Hr & K & V). symmetry. rewrite <- V. apply table_some; auto. eapply Permutation_in; eauto.
  - symmetry. apply table_none. intros r Hr K. rewrite (table_some _ _ _ rows k r) in E; auto; [discriminate|].
    eapply Permutation_in; [apply Permutation_sym; exact P|auto].
Qed.

(* assigning everything makes the old values irrelevant *)
Lemma new_vals_all o o' s w : Forall (fun x => x <> None) s -> length s = w ->
  (forall vs, o = Some vs -> length vs = w) -> (forall vs, o' = Some vs -> length vs = w) -> new_vals o s = new_vals o' s.
Proof.
  intros F L Ho Ho'. unfold new_vals.
  assert (G : forall vs vs', length vs = length s -> length vs' = length s ->
     map (fun p : option value * value => match fst p with Some v => v | None => snd p end) (combine s vs) =
     map (fun p => match fst p with Some v => v | None => snd p end) (combine s vs')).
  { clear - F. induction s as [|x s IH]; intros [|v vs] [|v' vs'] A B; try discriminate; cbn; auto.
    inversion F; subst. destruct x; [|congruence]. f_equal. apply IH; auto. }
  apply G; [destruct o|destruct o']; rewrite ?map_length; auto; rewrite L; auto.
Qed.

(* the key of a change is the key of a change of some item *)
Definition keys_from (its : list (list column * list (list value))) (pks : list nat) (c : change) : Prop :=
  forall k, (ch_old c = Some k -> exists it r, In it its /\ In r (snd it) /\ as_key (read_key (fst it) r OldPk pks) = Some k) /\
            (ch_new c = Some k -> exists it r, In it its /\ In r (snd it) /\ as_key (read_key (fst it) r NewPk pks) = Some k).
Lemma keys_from_closed its pks : closed (keys_from its pks).
Proof. intros l u Hl Hu _ k. cbn. split; [apply Hl|apply Hu]. Qed.
Lemma closed_and C D : closed C -> closed D -> closed (fun c => C c /\ D c).
Proof. intros HC HD l u [] [] M. split; auto. Qed.

Section Plan.
Variables (bt : nat) (tcols pks vals : list nat) (files : list (list (list value))) (st : fstats)
          (pp : list (list (nat * (value * value))) -> list bool).
Hypothesis GC : good_columns tcols pks vals.
Hypothesis GT : good_table tcols pks (concat files).
Hypothesis PP : pp_ok tcols files pp.
Hypothesis SO : stats_ok tcols files st.
Notation t0 := (table_of tcols pks vals (concat files)).

(* a set of net changes that suits the stored table is applied at once *)
Theorem plan_apply its sch rows t' old new :
  squash_syncs bt its = Some (sch, rows) ->
  (forall it, In it its -> good_schema pks (fst it) /\ forall r, In r (snd it) -> good_row pks (fst it) r) ->
  good_schema pks sch -> (forall r, In r rows -> good_row pks sch r) ->
  one_per_row (map (change_of pks vals sch) rows) ->
  (forall c, In c (map (change_of pks vals sch) rows) -> keys_from its pks c /\ first_ok c /\ settled t0 c) ->
  at_once (map (change_of pks vals sch) rows) t0 t' ->
  plan_delta_syncs bt pp st tcols files its = Some (old, new) ->
  good_table tcols pks (concat old ++ new) /\
  forall k, table_of tcols pks vals (concat old ++ new) k = t' k.
Proof.
  intros SS GI G GR ONE CL AO E. unfold plan_delta_syncs in E. rewrite SS in E.
  destruct (prune_partitions pp its st (length files)) as [keep|] eqn:PK; [|discriminate].
  injection E as <- <-.
  assert (LK : length keep = length files).
  { refine (prune_length tcols pks its GI files st pp PP keep _ PK). intros ->. discriminate. }
  pose proof (select_perm keep files LK) as PM.
  pose proof (good_table_perm _ _ _ _ PM GT) as GB.
  eapply (apply_syncs_correct tcols pks vals GC sch rows G GR) with (t0 := t0); eauto.
  - intros c Hc. now apply CL.
  - intros k. now apply table_of_perm.
  - intros r c Hr Hc. apply in_concat in Hr as (f & Hf & Hr). apply in_select in Hf as (i & Hi & Hk).
    rewrite nth_error_map in Hk. destruct (nth_error keep i) as [b|] eqn:Kb; [|discriminate]. cbn in Hk. injection Hk as Hk.
    destruct (CL c Hc) as [KF _].
    assert (Z : forall ro it r', (ro = OldPk \/ ro = NewPk) -> In it its -> In r' (snd it) -> as_key (read_key (fst it) r' ro pks) = Some (row_key tcols pks r) -> False).
    { intros ro it r' Hro Hit Hr' A.
      pose proof (prune_sound tcols pks its GI files st pp PP SO keep it r' ro _ i f r PK Hit Hr' Hro A Hi Hr eq_refl) as X.
      rewrite (nth_error_nth _ _ false Kb) in X. subst b. discriminate. }
    split; intros K.
    + destruct (proj1 (KF _) K) as (it & r' & A1 & A2 & A3). exact (Z OldPk it r' (or_introl eq_refl) A1 A2 A3).
    + destruct (proj2 (KF _) K) as (it & r' & A1 & A2 & A3). exact (Z NewPk it r' (or_intror eq_refl) A1 A2 A3).
  - intros c Hc. now apply CL.
Qed.

(* the net changes are such that the planner handles them well *)
Definition tame (c : change) : Prop :=
  (forall o n, ch_old c = Some o -> ch_new c = Some n -> o = n \/ hd VNull o <> hd VNull n) /\
  (forall n, ch_new c = Some n -> ch_old c = Some n \/ all_set c \/ (ch_old c = None /\ t0 n = None)).

(* the merged changes, relative to the table [t] on which the items are valid *)
Lemma merged_items C its t t' :
  closed C -> wide (length vals) t -> its <> [] ->
  run_items pks vals t its t' ->
  (forall it c, In it its -> In c (map (change_of pks vals (fst it)) (snd it)) -> C c) ->
  (match its with [] => True | it :: rest => merge_ok bt pks vals it rest end) ->
  exists sch rows, squash_syncs bt its = Some (sch, rows) /\ good_schema pks sch /\ (forall r, In r rows -> good_row pks sch r) /\
    net t (map (change_of pks vals sch) rows) /\ at_once (map (change_of pks vals sch) rows) t t' /\
    (forall c, In c (map (change_of pks vals sch) rows) -> C c /\ keys_from its pks c) /\
    ((forall c k, C c -> ch_old c = Some k -> ch_new c = Some k) ->
     forall it c k, In it its -> In c (map (change_of pks vals (fst it)) (snd it)) -> ch_new c = Some k ->
     exists c, In c (map (change_of pks vals sch) rows) /\ ch_new c = Some k).
Proof.
  intros HC HW NE R HCs MO. destruct its as [|[sch0 rows0] rest]; [congruence|]. cbn [squash_syncs].
  set (its := (sch0, rows0) :: rest) in *.
  assert (HCs' : forall it c, In it its -> In c (map (change_of pks vals (fst it)) (snd it)) -> C c /\ keys_from its pks c).
  { intros it c Hi Hc. split; [eauto|]. apply in_map_iff in Hc as (r & <- & Hr). intros k. split; intros K; exists it, r; auto. }
  assert (HC' := closed_and _ _ HC (keys_from_closed its pks)).
  inversion R as [|? t1 ? ? ? ? G0 R0 N0 A0 R']; subst.
  pose proof (fold_items bt pks vals _ rest HC' t t1 t' sch0 rows0 HW G0 R0 N0 A0) as FI.
  assert (FN := fun HK k => fold_new bt pks vals C rest HC HK t t1 t' sch0 rows0 k HW G0 R0 N0 A0).
  destruct (fold_left _ rest (sch0, rows0)) as [sch rows].
  destruct FI as (G & GR & NET & AO & CL); auto.
  { intros c Hc. apply (HCs' (sch0, rows0)); cbn; auto. }
  { intros it c Hi Hc. apply (HCs' it); cbn; auto. }
  exists sch, rows. do 6 (split; auto).
  intros HK it c k Hi Hc En. apply FN; auto.
  - intros c' Hc'. apply (HCs (sch0, rows0)); cbn; auto.
  - intros it' c' Hi' Hc'. apply (HCs it'); cbn; auto.
  - destruct Hi as [<-|Hi]; [left|right]; eauto.
Qed.

Theorem plan_correct C its t' old new :
  closed C -> (forall c, C c -> tame c) ->
  run_items pks vals t0 its t' ->
  (forall it c, In it its -> In c (map (change_of pks vals (fst it)) (snd it)) -> C c) ->
  (match its with [] => True | it :: rest => merge_ok bt pks vals it rest end) ->
  plan_delta_syncs bt pp st tcols files its = Some (old, new) ->
  good_table tcols pks (concat old ++ new) /\
  forall k, table_of tcols pks vals (concat old ++ new) k = t' k.
Proof.
  intros HC HT R HCs MO E.
  assert (NE : its <> []).
  { intros ->. unfold plan_delta_syncs in E. destruct (prune_partitions _ _ _ _); discriminate. }
  destruct (merged_items C its t0 t' HC (table_wide tcols pks vals _) NE R HCs MO) as (sch & rows & SS & G & GR & NET & AO & CL & _).
  eapply plan_apply; eauto.
  - eapply run_items_good; eauto.
  - apply NET.
  - intros c Hc. destruct (CL c Hc) as [Cc KF]. split; auto. destruct (HT c Cc) as [T1 T2]. split; [exact T1|].
    intros n Hn. destruct (T2 n Hn) as [Eo|[AS|[Eo Tn]]].
    + unfold old_row. now rewrite Eo.
    + apply (new_vals_all _ _ _ (length vals)); auto.
      * apply in_map_iff in Hc as (r & <- & _). apply change_len.
      * intros vs. apply table_wide.
      * apply wide_old. apply table_wide.
    + unfold old_row. now rewrite Eo, Tn.
Qed.

Theorem flush_correct C items result :
  closed C -> (forall c, C c -> tame c) ->
  (forall it, In it items -> good_item pks it /\ forall r, In r (item_rows it) -> flags_alike (fst it) r) ->
  valid_stream t0 (all_changes pks vals items) ->
  (forall c, In c (all_changes pks vals items) -> C c) ->
  (forall its, squash_all items = Some its -> map fst its = map fst items ->
     (forall it c, In it its -> In c (map (change_of pks vals (fst it)) (snd it)) -> C c) ->
     (forall it, In it its -> good_schema pks (fst it) /\ forall r, In r (snd it) -> good_row pks (fst it) r) ->
     match its with [] => True | it :: rest => merge_ok bt pks vals it rest end) ->
  flush_rows bt pp st tcols files items = Some result ->
  good_table tcols pks result /\
  forall k, table_of tcols pks vals result k = apply_all (all_changes pks vals items) t0 k.
Proof.
  intros HC HT HG V Hcl MO E. unfold flush_rows in E.
  destruct (squash_all items) as [its|] eqn:S; [|discriminate].
  destruct (squash_all_run pks vals C items HC t0 its (table_wide tcols pks vals _) HG V Hcl S) as (R & CS & M).
  destruct (plan_delta_syncs bt pp st tcols files its) as [[old new]|] eqn:PL; [|discriminate]. injection E as <-.
  eapply plan_correct; eauto. apply MO; auto. eapply run_items_good; eauto.
Qed.

(* a flush that has something to do does not fail *)
Lemma squash_all_some items :
  (forall it, In it items -> good_item pks it /\ names_of (fst it) Changed = []) -> exists its, squash_all items = Some its.
Proof.
  induction items as [|[sch data] items IH]; intros H; cbn; [eauto|].
  destruct (H (sch, data)) as [G C]; [cbn; auto|].
  pose proof (squash_batches_good pks (sch, data) G) as E. cbn [fst snd] in *. rewrite E.
  assert (HN : forall c, In c sch -> role_eqb (c_role c) Changed = false).
  { intros c Hc. destruct (role_eqb_spec (c_role c) Changed) as [R|]; auto. exfalso.
    assert (X : In (c_name c) (names_of sch Changed)).
    { unfold names_of. apply in_map. apply filter_In. split; auto. now rewrite R. }
    rewrite C in X. contradiction. }
  unfold squash_rows.
  assert (HCh : has_changed sch = false).
  { unfold has_changed. apply not_true_iff_false. intros X. apply existsb_exists in X as (c & Hc & X). rewrite HN in X; auto. discriminate. }
  rewrite HCh. cbn [andb].
  assert (FA : forallb (fun c => negb (role_eqb (c_role c) Changed) || match find_col sch (c_name c) Value with Some _ => true | None => false end) sch = true).
  { apply forallb_forall. intros c Hc. rewrite HN; auto. }
  rewrite FA. cbn [negb]. destruct IH as [its ->]; [intros; apply H; cbn; auto|]. eauto.
Qed.

Lemma run_change its t t' : run_items pks vals t its t' -> forall k, t' k <> t k ->
  exists it r ro, In it its /\ In r (snd it) /\ (ro = OldPk \/ ro = NewPk) /\ as_key (read_key (fst it) r ro pks) = Some k.
Proof.
  induction 1 as [|t t1 t2 sch rows rest G GR N A R IH]; intros k D; [congruence|].
  destruct (existsb (fun r => okeqb (ch_old (change_of pks vals sch r)) k || okeqb (ch_new (change_of pks vals sch r)) k) rows) eqn:EX.
  - apply existsb_exists in EX as (r & Hr & X). apply orb_true_iff in X as [X|X].
    + exists (sch, rows), r, OldPk. cbn. destruct (okeqb_spec (ch_old (change_of pks vals sch r)) k); [auto|discriminate].
    + exists (sch, rows), r, NewPk. cbn. destruct (okeqb_spec (ch_new (change_of pks vals sch r)) k); [auto|discriminate].
  - assert (X : t1 k = t k).
    { apply A. intros c Hc. apply in_map_iff in Hc as (r & <- & Hr).
      assert (Y : okeqb (ch_old (change_of pks vals sch r)) k || okeqb (ch_new (change_of pks vals sch r)) k = false).
      { apply not_true_iff_false. intros Y. apply not_true_iff_false in EX. apply EX. apply existsb_exists. eauto. }
      apply orb_false_iff in Y as [Y1 Y2].
      destruct (okeqb_spec (ch_old (change_of pks vals sch r)) k); [discriminate|].
      destruct (okeqb_spec (ch_new (change_of pks vals sch r)) k); [discriminate|]. auto. }
    destruct (IH k) as (it & r & ro & Hi & Hr & Hro & K); [congruence|]. exists it, r, ro. cbn. auto.
Qed.

Theorem flush_succeeds items k :
  (forall it, In it items -> good_item pks it /\ names_of (fst it) Changed = []) ->
  valid_stream t0 (all_changes pks vals items) ->
  apply_all (all_changes pks vals items) t0 k <> t0 k ->
  exists result, flush_rows bt pp st tcols files items = Some result.
Proof.
  intros HG V D. destruct (squash_all_some items HG) as [its S]. unfold flush_rows. rewrite S.
  assert (FA : forall it, In it items -> good_item pks it /\ forall r, In r (item_rows it) -> flags_alike (fst it) r).
  { intros it Hi. destruct (HG it Hi) as [G C]. split; auto. intros r Hr n n' f f' F.
    exfalso. unfold read in F. spec_helpers. destruct (find _ _) as [[c v]|] eqn:Fi; [|discriminate].
    apply find_some in Fi as [Fi X]. apply in_combine_l in Fi. cbn in X. apply andb_true_iff in X as [_ X].
    assert (Y : In (c_name c) (names_of (fst it) Changed)) by (unfold names_of; apply in_map, filter_In; auto).
    rewrite C in Y. contradiction. }
  destruct (squash_all_run pks vals (fun _ => True) items (fun _ _ _ _ _ => I) t0 its (table_wide tcols pks vals _) FA V (fun _ _ => I) S) as (R & _ & _).
  destruct (run_change _ _ _ R k D) as (it & r & ro & Hi & Hr & Hro & K).
  pose proof (run_items_good _ _ _ _ _ R) as GI.
  destruct GC as (ND & INC & _).
  assert (Lk : length k = length pks) by (rewrite <- (as_key_some _ _ K); apply map_length).
  assert (IN : incl pks tcols) by (intros n Hn; apply INC; auto).
  assert (NP : NoDup pks) by (destruct (GI it Hi) as [G _]; eapply nodup_pks; eauto).
  destruct (prune_some tcols pks its GI files st pp it r ro k Hi Hr Hro K Lk ND IN NP) as [keep PK].
  unfold plan_delta_syncs. rewrite PK. destruct its as [|[s rs] rest]; [contradiction|]. cbn [squash_syncs].
  destruct (fold_left _ _ _) as [sch rows]. eauto.
Qed.
End Plan.
