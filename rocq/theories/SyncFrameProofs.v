(* What a flush leaves alone, for arbitrary (also invalid) change streams. *)
From Coq Require Import List Arith ZArith Bool Lia Permutation.
From Verif Require Import SyncDataModel SyncDataSpec SyncAbsSquash SyncSquashProofs SyncAbsMerge SyncMergeProofs
  SyncMergeMain SyncApplyProofs SyncPruneProofs SyncFlushProofs.
Import ListNotations.

(* ----- squashed rows have keys of input rows ----- *)
Definition ids_in (n : nat) (st : sq_state) : Prop := forall h, In h (q_chains st) -> h_old h < n /\ h_new h < n.
Lemma ids_step sch rows n st i : i < n -> ids_in n st -> ids_in n (squash_step sch rows st i).
Proof.
  intros Hi H. unfold squash_step.
  destruct (pk_get _ _) as [id|].
  - assert (G : forall h, In h (set_nth id
         {| h_old := h_old (nth id (q_chains st) {| h_old := 0; h_new := 0; h_chg := [] |}); h_new := i;
            h_chg := map (fun p => if is_true (cell (snd p) (nth i rows [])) then i else fst p)
                  (combine (h_chg (nth id (q_chains st) {| h_old := 0; h_new := 0; h_chg := [] |})) (cols_of sch Changed)) |}
         (q_chains st)) -> h_old h < n /\ h_new h < n).
    { intros h Hh. apply in_set_nth in Hh as [->|Hh]; [|auto]. cbn. split; auto.
      destruct (Nat.lt_ge_cases id (length (q_chains st))) as [L|L].
      - apply H. now apply nth_In.
      - rewrite nth_overflow by auto. cbn. lia. }
    destruct (negb _); [exact G|]. destruct (teqb _ _); exact G.
  - intros h Hh. cbn in Hh. apply in_app_or in Hh as [Hh|[<-|[]]]; [auto|]. cbn. auto.
Qed.
Lemma ids_loop sch rows ids n : (forall i, In i ids -> i < n) -> ids_in n (squash_loop sch rows ids).
Proof.
  unfold squash_loop. assert (G : ids_in n {| q_chains := []; q_pk := []; q_temp := [] |}) by (intros h []).
  revert G. generalize {| q_chains := []; q_pk := []; q_temp := [] |}. induction ids as [|i ids IH]; cbn; auto.
  intros st G H. apply IH; auto. apply ids_step; auto.
Qed.

Definition from (KS : list value -> Prop) (pks : list nat) (it : list column * list (list value)) : Prop :=
  good_schema pks (fst it) /\
  forall r, In r (snd it) -> good_row pks (fst it) r /\
    forall ro k, ro = OldPk \/ ro = NewPk -> as_key (read_key (fst it) r ro pks) = Some k -> KS k.

Lemma squash_from (KS : list value -> Prop) pks sch rows out : from KS pks (sch, rows) -> squash_rows sch rows = Some out -> from KS pks (sch, out).
Proof.
  intros [Hg Hr] E. cbn [fst snd] in *. split; auto. cbn [fst snd]. intros r Ho.
  unfold squash_rows in E.
  destruct (has_changed sch && _); [discriminate|].
  destruct (negb _); [discriminate|]. injection E as <-.
  apply in_map_iff in Ho as (h & <- & Hh). apply live_in in Hh as (i & Hi & _).
  assert (I : h_old h < length rows /\ h_new h < length rows).
  { apply (ids_loop sch rows (seq 0 (length rows)) (length rows)); [|eapply nth_error_In; eauto].
    intros j Hj. apply in_seq in Hj. lia. }
  assert (Hkk : forall ro j, (ro = OldPk /\ j = h_old h) \/ (ro = NewPk /\ j = h_new h) ->
                          fkey sch ro pks (out_row sch rows h) = fkey sch ro pks (nth j rows [])).
  { intros ro j Hro. unfold fkey. apply map_ext. intros n.
    destruct (find_col sch n ro) as [p|] eqn:Ep; cbn; auto.
    apply find_col_some in Ep as (c & Hc & Hn & Hcr). rewrite (out_row_cell _ _ _ _ _ Hc).
    unfold source_row. cbn. rewrite Hcr. destruct Hro as [[-> ->]|[-> ->]]; reflexivity. }
  assert (D : NoDup (descs sch)) by apply Hg.
  assert (R : forall ro j, (ro = OldPk /\ j = h_old h) \/ (ro = NewPk /\ j = h_new h) ->
            In (nth j rows []) rows /\ read_key sch (out_row sch rows h) ro pks = read_key sch (nth j rows []) ro pks).
  { intros ro j Hro. assert (Hj : In (nth j rows []) rows) by (apply nth_In; destruct Hro as [[_ ->]|[_ ->]]; lia).
    split; auto. destruct (Hr _ Hj) as [(L & _) _]. rewrite !read_key_fkey; auto. apply out_row_length. }
  destruct (R OldPk (h_old h)) as [IO RO]; auto. destruct (R NewPk (h_new h)) as [IN RN]; auto.
  destruct (Hr _ IO) as [(_ & WO & _) KO]. destruct (Hr _ IN) as [(_ & _ & WN) KN].
  split; [split; [apply out_row_length|rewrite RO, RN; auto]|].
  intros ro k [-> | ->]; [rewrite RO; apply KO; auto|rewrite RN; apply KN; auto].
Qed.

(* ----- merged rows ----- *)
Lemma proj_from KS bt pks lower upper ls us lu :
  from KS pks (lower, ls) -> from KS pks (upper, us) ->
  lu <> (None, None) -> (forall l, fst lu = Some l -> In l ls) -> (forall u, snd lu = Some u -> In u us) ->
  good_row pks (map fst (merge_join_cols bt lower upper)) (proj_row bt lower upper lu) /\
  forall ro k, ro = OldPk \/ ro = NewPk ->
    as_key (read_key (map fst (merge_join_cols bt lower upper)) (proj_row bt lower upper lu) ro pks) = Some k -> KS k.
Proof.
  intros [GL HL] [GU HU] Hne Il Iu. cbn [fst snd] in *.
  split; [apply merged_row_good; auto; intros; [apply HL|apply HU]; auto|].
  assert (DL : NoDup (descs lower)) by apply GL. assert (DU : NoDup (descs upper)) by apply GU.
  assert (LL : forall l, fst lu = Some l -> length l = length lower) by (intros; apply HL; auto).
  assert (LU : forall u, snd lu = Some u -> length u = length upper) by (intros; apply HU; auto).
  assert (KO : read_key (map fst (merge_join_cols bt lower upper)) (proj_row bt lower upper lu) OldPk pks =
               match lu with (Some l, _) => read_key lower l OldPk pks | (None, Some u) => read_key upper u OldPk pks | _ => [] end).
  { destruct lu as [[l|] [u|]]; try congruence; cbn [fst snd] in *.
    1,2: rewrite (read_key_fkey lower); auto. 3: rewrite (read_key_fkey upper); auto.
    all: unfold read_key, fkey; apply map_ext_in; intros n Hn; rewrite (read_old bt pks); auto. }
  assert (KN : read_key (map fst (merge_join_cols bt lower upper)) (proj_row bt lower upper lu) NewPk pks =
               match lu with (_, Some u) => read_key upper u NewPk pks | (Some l, None) => read_key lower l NewPk pks | _ => [] end).
  { destruct lu as [[l|] [u|]]; try congruence; cbn [fst snd] in *.
    1,3: rewrite (read_key_fkey upper); auto. 3: rewrite (read_key_fkey lower); auto.
    all: unfold read_key, fkey; apply map_ext_in; intros n Hn; rewrite (read_new bt pks); auto. }
  intros ro k [-> | ->]; [rewrite KO|rewrite KN]; destruct lu as [[l|] [u|]]; try congruence; cbn [fst snd] in *.
  1,2: apply (HL l); auto. 2,4: apply (HU u); auto.
  - apply (HU u); auto.
  - apply (HL l); auto.
Qed.

Lemma merge_from KS bt pks lower upper ls us :
  from KS pks (lower, ls) -> from KS pks (upper, us) -> from KS pks (merge_syncs bt lower upper ls us).
Proof.
  intros FL FU. pose proof FL as [GL HL]. pose proof FU as [GU HU]. cbn [fst snd] in *.
  unfold merge_syncs. destruct (append_only upper us).
  - rewrite union_as_proj. split; [now apply merged_good|]. cbn [fst snd].
    intros r Hr. apply in_app_or in Hr as [Hr|Hr]; apply in_map_iff in Hr as (x & <- & Hx);
      apply (proj_from KS bt pks lower upper ls us); auto; cbn; try congruence; intros ? [= <-]; auto.
  - split; [now apply merged_good|]. unfold join_syncs. cbn [fst snd]. intros r Hr.
    apply in_map_iff in Hr as (lu & <- & H). apply in_full_join in H.
    change (map (fun p => snd p (fst lu) (snd lu)) (merge_join_cols bt lower upper)) with (proj_row bt lower upper lu).
    apply (proj_from KS bt pks lower upper ls us); auto;
      destruct H as [(l & u & -> & ?)|[(u & -> & ?)|(l & -> & ?)]]; cbn; try congruence; intros ? [= <-]; tauto.
Qed.
Lemma merge_names bt pks lower upper ls us n : good_schema pks lower -> good_schema pks upper ->
  In n (names_of (fst (merge_syncs bt lower upper ls us)) Value) -> In n (names_of lower Value) \/ In n (names_of upper Value).
Proof.
  intros GL GU. assert (EF : fst (merge_syncs bt lower upper ls us) = map fst (merge_join_cols bt lower upper)).
  { unfold merge_syncs. destruct (append_only upper us); [|reflexivity]. now rewrite union_as_proj. }
  rewrite EF. intros H. apply in_names_merged in H. apply merged_value in H as [H|H]; apply has_col_names in H; auto.
Qed.
Lemma fold_from KS bt pks items : forall sch rows,
  from KS pks (sch, rows) -> (forall it, In it items -> from KS pks it) ->
  let res := fold_left (fun acc it => merge_syncs bt (fst acc) (fst it) (snd acc) (snd it)) items (sch, rows) in
  from KS pks res /\
  forall n, In n (names_of (fst res) Value) -> In n (names_of sch Value) \/ exists it, In it items /\ In n (names_of (fst it) Value).
Proof.
  induction items as [|[us urows] items IH]; intros sch rows F H; cbn; [auto|].
  pose proof (merge_from KS bt pks sch us rows urows F (H _ (or_introl eq_refl))) as FM.
  destruct (merge_syncs bt sch us rows urows) as [sch' rows'] eqn:E.
  destruct (IH sch' rows' FM) as [A B]; [intros; apply H; cbn; auto|]. split; auto.
  intros n Hn. apply B in Hn as [Hn|(it & Hi & Hn)]; [|eauto].
  pose proof (merge_names bt pks sch us rows urows n (proj1 F) (proj1 (H _ (or_introl eq_refl)))) as X.
  rewrite E in X. destruct (X Hn) as [?|?]; auto. right. exists (us, urows). auto.
Qed.

(* ----- the squashed items ----- *)
Lemma squash_all_from (KS : list value -> Prop) pks items : forall its,
  (forall it, In it items -> good_item pks it) ->
  (forall k, mentioned pks items k -> KS k) ->
  squash_all items = Some its ->
  (forall it, In it its -> from KS pks it) /\ map fst its = map fst items.
Proof.
  induction items as [|[sch data] items IH]; intros its HG HK E.
  - injection E as <-. split; [contradiction|auto].
  - cbn in E. destruct (squash_batches sch data) as [rows|] eqn:S; [|discriminate].
    destruct (squash_all items) as [rest|] eqn:SA; [|discriminate]. injection E as <-.
    assert (G : good_item pks (sch, data)) by (apply HG; cbn; auto).
    pose proof (squash_batches_good pks (sch, data) G) as E. cbn [fst snd] in E. rewrite S in E. symmetry in E.
    destruct (IH rest) as [A B]; auto.
    { intros; apply HG; cbn; auto. }
    { intros k (it & r & ro & Hi & X). apply HK. exists it, r, ro. cbn; auto. }
    split; [|cbn; now rewrite B]. intros it [<-|Hi]; auto.
    apply (squash_from KS pks sch (item_rows (sch, data))); auto.
    destruct G as (GS & _ & _ & GR). split; auto. cbn [fst snd]. intros r Hr. split; [now apply GR|].
    intros ro k Hro K. apply HK. exists (sch, data), r, ro. cbn; auto.
Qed.

Definition row_dec := list_eq_dec value_eq_dec.
Lemma count_filter (p : list value -> bool) l x : p x = true -> count_occ row_dec (filter p l) x = count_occ row_dec l x.
Proof.
  intros P. induction l as [|a l IH]; cbn; auto. destruct (row_dec a x) as [->|N].
  - rewrite P. cbn. destruct (row_dec x x); congruence.
  - destruct (p a); cbn; auto. destruct (row_dec a x); congruence.
Qed.
Lemma count_none (l : list (list value)) x : (forall y, In y l -> y <> x) -> count_occ row_dec l x = 0.
Proof. intros H. apply count_occ_not_In. intros I. exact (H x I eq_refl). Qed.
Lemma count_perm (l l' : list (list value)) x : Permutation l l' -> count_occ row_dec l x = count_occ row_dec l' x.
Proof. intros P. now apply (Permutation_count_occ row_dec). Qed.

Section Frame.
Variables (bt : nat) (tcols pks vals : list nat) (files : list (list (list value))) (st : fstats)
          (pp : list (list (nat * (value * value))) -> list bool).
Hypothesis GC : good_columns tcols pks vals.
Hypothesis GT : good_table tcols pks (concat files).
Hypothesis PP : pp_ok tcols files pp.
Variables (items : list (list column * list rbatch)) (result : list (list value)).
Hypothesis GI : forall it, In it items -> good_item pks it.
Hypothesis E : flush_rows bt pp st tcols files items = Some result.

Lemma flush_shape : exists its keep sch rows,
  squash_all items = Some its /\ (forall it, In it its -> from (mentioned pks items) pks it) /\ map fst its = map fst items /\
  prune_partitions pp its st (length files) = Some keep /\ length keep = length files /\
  from (mentioned pks items) pks (sch, rows) /\
  (forall n, In n (names_of sch Value) -> carried items n) /\
  result = concat (select (map negb keep) files) ++ apply_syncs tcols sch (concat (select keep files)) (normalize sch rows) /\
  squash_syncs bt its = Some (sch, rows).
Proof.
  unfold flush_rows in E. destruct (squash_all items) as [its|] eqn:S; [|discriminate].
  destruct (squash_all_from (mentioned pks items) pks items its GI (fun _ H => H) S) as [F M].
  unfold plan_delta_syncs in E. destruct (prune_partitions pp its st (length files)) as [keep|] eqn:PK; [|discriminate].
  destruct (squash_syncs bt its) as [[sch rows]|] eqn:SS; [|discriminate]. injection E as <-.
  exists its, keep, sch, rows. do 4 (split; auto).
  assert (NE : its <> []) by (intros ->; discriminate).
  assert (GI' : forall it, In it its -> good_schema pks (fst it) /\ forall r, In r (snd it) -> good_row pks (fst it) r).
  { intros it Hi. destruct (F it Hi) as [A B]. split; auto. intros; now apply B. }
  split; [exact (prune_length tcols pks its GI' files st pp PP keep NE PK)|].
  destruct its as [|[s0 r0] rest]; [congruence|]. cbn [squash_syncs] in SS. injection SS as SS.
  destruct (fold_from (mentioned pks items) bt pks rest s0 r0) as [A B]; [apply F; cbn; auto|intros; apply F; cbn; auto|].
  rewrite SS in A, B. split; auto. split; [|split; [auto|cbn [squash_syncs]; now rewrite SS]].
  intros n Hn. assert (X : exists it, In it ((s0, r0) :: rest) /\ In n (names_of (fst it) Value)).
  { apply B in Hn as [Hn|(it & Hi & Hn)]; [exists (s0, r0)|exists it]; cbn; auto. }
  destruct X as (it & Hi & Hn'). apply (in_map fst) in Hi. rewrite M in Hi. apply in_map_iff in Hi as (it' & Ei & Hi').
  exists it'. split; auto. now rewrite Ei.
Qed.

Lemma stay_base keep : length keep = length files ->
  good_table tcols pks (concat (select (map negb keep) files) ++ concat (select keep files)).
Proof. intros L. exact (good_table_perm _ _ _ _ (select_perm keep files L) GT). Qed.

Theorem frame_rows row : ~ mentioned pks items (row_key tcols pks row) ->
  count_occ row_dec result row = count_occ row_dec (concat files) row.
Proof.
  intros NM. destruct flush_shape as (its & keep & sch & rows & S & F & M & PK & LK & FS & CA & -> & SS).
  destruct FS as [G GR]. cbn [fst snd] in *.
  assert (GR' : forall r, In r rows -> good_row pks sch r) by (intros; now apply GR).
  set (stay := concat (select (map negb keep) files)). set (base := concat (select keep files)).
  pose proof (stay_base keep LK) as GB. fold stay base in GB.
  rewrite (count_perm _ _ row (select_perm keep files LK)). fold stay base. rewrite !count_occ_app. f_equal.
  assert (KN : forall s, In s (normalize sch rows) -> mentioned pks items (n_pk s)).
  { intros s Hs. destruct (in_N0 tcols pks vals GC sch rows G GR' s Hs) as (Hr & ro & Hro & A). eapply GR; eauto. }
  unfold apply_syncs. unfold full_join.
  rewrite !filter_app, !map_app, !count_occ_app.
  set (names := names_of sch OldPk).
  assert (KP : forall b s, In s (normalize sch rows) -> map (apply_cell tcols sch names b (Some s)) tcols <> row).
  { intros b s Hs Er. apply NM. rewrite <- Er.
    pose proof (outp_key tcols pks vals GC sch rows G GR' b s Hs) as X. unfold outp in X. cbn [fst snd] in X. unfold names. rewrite X. auto. }
  match goal with |- ?a + (?b + ?c) = _ => assert (Ea : a = 0); [|assert (Eb : b = 0); [|rewrite Ea, Eb; cbn [plus]]] end.
  - apply count_none. intros y Hy. apply in_map_iff in Hy as (bs & <- & Hy). apply filter_In in Hy as [Hy _].
    apply in_flat_map in Hy as (s & Hs & Hy). apply in_map_iff in Hy as (b & <- & _). cbn. auto.
  - apply count_none. intros y Hy. apply in_map_iff in Hy as (bs & <- & Hy). apply filter_In in Hy as [Hy _].
    apply in_map_iff in Hy as (s & <- & Hy). apply filter_In in Hy as [Hy _]. cbn. auto.
  - assert (Ec : map (fun bs => map (apply_cell tcols sch names (fst bs) (snd bs)) tcols)
                  (filter (fun bs : option (list value) * option nrow => not_false (snd bs))
                   (map (fun l => (Some l, None)) (filter (fun l => negb (existsb (base_match tcols names l) (normalize sch rows))) base))) =
                 filter (fun l => negb (existsb (base_match tcols names l) (normalize sch rows))) base).
    { rewrite filter_map, map_map. cbn [snd not_false].
      rewrite <- (map_id (filter _ base)) at 2.
      assert (TT : forall l : list (list value), filter (fun _ => true) l = l) by (induction l as [|x l IHl]; cbn; congruence).
      rewrite TT.
      apply map_ext_in. intros b Hb. apply filter_In in Hb as [Hb _].
      exact (outp_base tcols pks vals GC sch base stay GB b Hb). }
    rewrite Ec. destruct (in_dec row_dec row base) as [Hb|Hb].
    + apply count_filter. apply negb_true_iff. apply not_true_iff_false. intros X. apply existsb_exists in X as (s & Hs & X).
      unfold names in X. rewrite (proj1 (proj2 G)) in X.
      rewrite (base_match_key tcols pks vals GC sch rows G GR' base stay GB row s Hb Hs) in X.
      destruct (keqb_spec (row_key tcols pks row) (n_pk s)) as [K|]; [|discriminate]. apply NM. rewrite K. auto.
    + rewrite (count_none base row); [|intros; congruence]. apply count_none. intros y Hy Ey. apply filter_In in Hy as [Hy _]. congruence.
Qed.

Hypothesis SO : stats_ok tcols files st.
Theorem frame_cols r b n : In n vals -> ~ carried items n ->
  In r result -> In b (concat files) -> row_key tcols pks r = row_key tcols pks b -> tread tcols r n = tread tcols b n.
Proof.
  intros Hn NC Hr Hb K. destruct flush_shape as (its & keep & sch & rows & S & F & M & PK & LK & FS & CA & -> & SS).
  destruct FS as [G GR]. cbn [fst snd] in *.
  assert (GR' : forall r, In r rows -> good_row pks sch r) by (intros; now apply GR).
  pose proof (select_perm keep files LK) as PM.
  set (stay := concat (select (map negb keep) files)) in *. set (base := concat (select keep files)) in *.
  pose proof (stay_base keep LK) as GB. fold stay base in GB.
  apply (Permutation_in _ PM) in Hb.
  pose proof (nodup_base tcols pks base stay GB) as (NB & _ & DB).
  assert (INJ : forall x, In x (stay ++ base) -> row_key tcols pks x = row_key tcols pks b -> x = b).
  { intros x Hx Ex. eapply nodup_map_inj; [apply GB| | |]; eauto. }
  apply in_app_or in Hr as [Hr|Hr].
  - rewrite (INJ r); auto. apply in_or_app; auto.
  - unfold apply_syncs in Hr. apply in_map_iff in Hr as (bs & Er & Hbs).
    assert (NV : find_col sch n Value = None).
    { destruct (find_col sch n Value) eqn:FV; auto. exfalso. apply NC, CA. apply has_col_names. unfold has_col. now rewrite FV. }
    pose proof GC as (ND & INC & DJ).
    assert (NP : pos_of n (names_of sch OldPk) = None).
    { rewrite (proj1 (proj2 G)). destruct (pos_of n pks) eqn:P; auto. exfalso. apply (DJ n); auto. apply pos_of_some in P. eapply nth_error_In; eauto. }
    pose proof (P_key tcols pks vals GC sch rows G GR' base stay GB bs Hbs) as KP. unfold outp in KP. rewrite Er in KP.
    assert (TR : tread tcols r n = if missing (fst bs) then VNull else tcell tcols n (fst bs)).
    { rewrite <- Er. rewrite tread_map by (apply INC; auto). unfold apply_cell. now rewrite NV, NP. }
    apply (in_P tcols pks vals GC sch rows G GR' base stay GB) in Hbs
      as [(b' & s & -> & Hb' & Hs & U & Mk)|[(s & -> & Hs & U & Mk)|(b' & -> & Hb' & Mk)]]; unfold pkey in KP; cbn [fst snd missing] in *.
    + rewrite TR. rewrite <- tread_tcell by (apply GB; apply in_or_app; auto).
      rewrite (INJ b'); auto; [apply in_or_app; auto|congruence].
    + exfalso. apply in_app_or in Hb as [Hb|Hb]; [|apply (Mk b); auto; congruence].
      (* the file of [b] was kept, so its key is not in a change *)
      apply in_concat in Hb as (f & Hf & Hb). apply in_select in Hf as (i & Hi & Hk).
      rewrite nth_error_map in Hk. destruct (nth_error keep i) as [x|] eqn:Kx; [|discriminate]. cbn in Hk. injection Hk as Hk.
      assert (GI' : forall it, In it its -> good_schema pks (fst it) /\ forall r, In r (snd it) -> good_row pks (fst it) r).
      { intros it Hit. destruct (F it Hit) as [A B]. split; auto. intros; now apply B. }
      destruct its as [|[s0 r0] rest]; [discriminate|]. set (its := (s0, r0) :: rest) in *.
      pose (KS := fun k => exists it r ro, In it its /\ In r (snd it) /\ (ro = OldPk \/ ro = NewPk) /\ as_key (read_key (fst it) r ro pks) = Some k).
      assert (FK : forall it, In it its -> from KS pks it).
      { intros it Hit. split; [now apply GI'|]. intros r' Hr'. split; [now apply GI'|]. intros ro k Hro A. exists it, r', ro. auto. }
      cbn [squash_syncs its] in SS. injection SS as SS.
      destruct (fold_from KS bt pks rest s0 r0) as [A _]; [apply FK; cbn; auto|intros; apply FK; cbn; auto|].
      rewrite SS in A. destruct A as [_ A]. cbn [fst snd] in A.
      destruct (in_N0 tcols pks vals GC sch rows G GR' s Hs) as (Hr & ro & Hro & As).
      destruct (proj2 (A _ Hr) ro _ Hro As) as (it & r' & ro' & Hit & Hr' & Hro' & Ak).
      assert (X : nth i keep false = true).
      { refine (prune_sound tcols pks its GI' files st pp PP SO keep it r' ro' _ i f b PK Hit Hr' Hro' Ak Hi Hb _). congruence. }
      rewrite (nth_error_nth _ _ false Kx) in X. subst x. discriminate.
    + rewrite TR. rewrite <- tread_tcell by (apply GB; apply in_or_app; auto).
      rewrite (INJ b'); auto; [apply in_or_app; auto|congruence].
Qed.
End Frame.
