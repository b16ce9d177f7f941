(* The property lemmas about the sync writer; SyncWriterProps.v restates them. *)
From Coq Require Import List Arith NArith Bool Lia Sorted.
From Verif Require Import SyncWriterModel SyncWriterSpec SyncWriterProofs SyncWriterLog SyncWriterExtra.
Import ListNotations.
Open Scope N_scope.

Lemma run_reachable cf T0 : forall evs wd wd' rs, reachable cf T0 wd -> run cf wd evs = (wd', rs) -> reachable cf T0 wd'.
Proof.
  induction evs as [|ev evs IH]; intros wd wd' rs H E; cbn in E; [injection E as <- <-; auto|].
  destruct (step cf wd ev) as [w1 r] eqn:E1. destruct (run cf w1 evs) as [w2 rs'] eqn:E2.
  injection E as <- <-. apply (IH w1 w2 rs'); [|exact E2]. exact (reach_step _ _ _ _ _ _ H E1).
Qed.

Lemma before_prefix lo l : StronglySorted le_tx l ->
  exists q, l = filter (before_tx lo) l ++ q /\ forall e, In e q -> (lo <= l_tx e)%nat.
Proof.
  induction 1 as [|e l HS [q [E Hq]] HF]; [exists []; split; [auto|intros ? []]|]. cbn [filter].
  destruct (before_tx lo e) eqn:Eb; unfold before_tx in Eb; [apply Nat.ltb_lt in Eb|apply Nat.ltb_ge in Eb].
  - exists q. split; [|auto]. cbn [app]. f_equal. exact E.
  - exists (e :: l). rewrite filter_empty.
    + split; [reflexivity|]. intros e' [<-|He']; [auto|]. rewrite Forall_forall in HF.
      specialize (HF _ He'). unfold le_tx in HF. lia.
    + intros e' He'. rewrite Forall_forall in HF. specialize (HF _ He'). unfold le_tx in HF.
      unfold before_tx. apply Nat.ltb_ge. lia.
Qed.

(* ---------- C01 ---------- *)
Lemma c01 cf T0 wd ev wd' a n m lock now en :
  reachable cf T0 wd -> ev = EMsg m lock now en -> step cf wd ev = (wd', RSeqs a (Some n)) ->
  exists l1 e l2, wd_log wd' = l1 ++ e :: l2 /\ closes (m_origin m) n e /\
    forall e', In e' (l1 ++ [e]) -> durable_entry T0 (wd_T wd') e'.
Proof.
  intros HR -> E. pose proof (reachable_full _ _ _ HR) as HF.
  pose proof (full_step _ _ _ _ _ _ HF E) as SF.
  destruct (sf_reply _ _ _ _ _ _ SF _ _ eq_refl) as (m' & k' & n' & e' & Eev & _ & Hb).
  injection Eev as <- <- <- <-.
  pose proof (f_inv _ _ (sf_full _ _ _ _ _ _ SF)) as [HI HL].
  rewrite (L_dur _ _ _ _ _ HL) in Hb. symmetry in Hb. apply last_seq_In in Hb.
  destruct Hb as (e & He & Hc). apply filter_In in He. destruct He as [He Hlo].
  apply in_split in He. destruct He as (l1 & l2 & El). exists l1, e, l2. split; [auto|]. split; [auto|].
  intros e0 He0. pose proof (L_sorted _ _ _ _ _ HL) as HS. rewrite El in HS.
  apply (sorted_split _ _ _ _ HS) in He0 as Hle. unfold before_tx in Hlo. apply Nat.ltb_lt in Hlo.
  eapply not_pending_durable; eauto; [|unfold le_tx in Hle; lia].
  rewrite El. apply in_app_or in He0. apply in_or_app. destruct He0 as [|[<-|[]]]; [auto|right; now left].
Qed.

(* ---------- C02 ---------- *)
Lemma stored_prefix cf T0 wd o : reachable cf T0 wd ->
  exists p q, wd_log wd = p ++ q /\ get o (w_mem (wd_w wd)) = last_seq o (p ++ q) /\
              get o (w_dur (wd_w wd)) = last_seq o p.
Proof.
  intros HR. pose proof (f_inv _ _ (reachable_full _ _ _ HR)) as [HI HL].
  destruct (before_prefix (lo_of (wd_w wd)) _ (L_sorted _ _ _ _ _ HL)) as (q & E & _).
  exists (filter (before_tx (lo_of (wd_w wd))) (wd_log wd)), q. rewrite <- E.
  split; [auto|]. split; [apply (L_mem _ _ _ _ _ HL)|apply (L_dur _ _ _ _ _ HL)].
Qed.

Lemma opt_le_prefix o p q : nondecreasing o (p ++ q) -> opt_le (last_seq o p) (last_seq o (p ++ q)).
Proof.
  intros HN. destruct (last_seq o p) as [a|] eqn:Ea; cbn; [|auto]. rewrite last_seq_app.
  destruct (last_seq o q) as [b|] eqn:Eb; [|exists a; split; [auto|lia]].
  exists b. split; [auto|]. apply last_seq_In in Ea, Eb. destruct Ea as (e1 & H1 & C1), Eb as (e2 & H2 & C2).
  apply in_split in H1, H2. destruct H1 as (x & y & ->), H2 as (z & t & ->).
  apply (HN x e1 (y ++ z) e2 t); auto. rewrite <- app_assoc. cbn. now rewrite <- app_assoc.
Qed.

Lemma run_extends cf T0 : forall evs wd wd' rs, Full T0 wd -> run cf wd evs = (wd', rs) ->
  Full T0 wd' /\ (lo_of (wd_w wd) <= lo_of (wd_w wd'))%nat /\ exists l, wd_log wd' = wd_log wd ++ l.
Proof.
  induction evs as [|ev evs IH]; intros wd wd' rs H E; cbn in E.
  - injection E as <- <-. split; [auto|]. split; [lia|]. exists []. now rewrite app_nil_r.
  - destruct (step cf wd ev) as [w1 r] eqn:E1. destruct (run cf w1 evs) as [w2 rs'] eqn:E2.
    injection E as <- <-. pose proof (full_step _ _ _ _ _ _ H E1) as SF.
    destruct (IH _ _ _ (sf_full _ _ _ _ _ _ SF) E2) as (A & B & l & C).
    split; [auto|]. split; [pose proof (sf_lo _ _ _ _ _ _ SF); lia|].
    destruct (sf_log _ _ _ _ _ _ SF) as (l0 & D & _). exists (l0 ++ l). now rewrite C, D, app_assoc.
Qed.

Lemma nondecreasing_prefix o p q : nondecreasing o (p ++ q) -> nondecreasing o p.
Proof.
  intros H l1 e1 l2 e2 l3 n1 n2 -> C1 C2. apply (H l1 e1 l2 e2 (l3 ++ q)); auto.
  rewrite <- app_assoc. cbn. f_equal. f_equal. now rewrite <- app_assoc.
Qed.

Lemma c02 cf T0 wd evs wd' rs o :
  reachable cf T0 wd -> run cf wd evs = (wd', rs) -> nondecreasing o (wd_log wd') ->
  opt_le (get o (w_mem (wd_w wd))) (get o (w_mem (wd_w wd'))) /\
  opt_le (get o (w_dur (wd_w wd))) (get o (w_dur (wd_w wd'))) /\
  opt_le (get o (w_dur (wd_w wd'))) (get o (w_mem (wd_w wd'))).
Proof.
  intros HR E HN. pose proof (reachable_full _ _ _ HR) as HF.
  destruct (run_extends _ _ _ _ _ _ HF E) as (HF' & Hlo & l & El).
  pose proof (f_inv _ _ HF) as [_ HL]. pose proof (f_inv _ _ HF') as [_ HL'].
  rewrite (L_mem _ _ _ _ _ HL), (L_mem _ _ _ _ _ HL'), (L_dur _ _ _ _ _ HL), (L_dur _ _ _ _ _ HL').
  destruct (before_prefix (lo_of (wd_w wd)) _ (L_sorted _ _ _ _ _ HL)) as (q & Eq & _).
  destruct (before_prefix (lo_of (wd_w wd')) _ (L_sorted _ _ _ _ _ HL')) as (q' & Eq' & _).
  split; [rewrite El in *; now apply opt_le_prefix|]. split.
  - set (F := filter (before_tx (lo_of (wd_w wd))) (wd_log wd)) in *.
    assert (EF : filter (before_tx (lo_of (wd_w wd'))) (wd_log wd') = F ++ filter (before_tx (lo_of (wd_w wd'))) (q ++ l)).
    { rewrite El, Eq, <- app_assoc, filter_app. f_equal. apply filter_full. intros x Hx.
      unfold F in Hx. apply filter_In in Hx. destruct Hx as [_ Hx]. unfold before_tx in *.
      apply Nat.ltb_lt in Hx. apply Nat.ltb_lt. lia. }
    rewrite EF. apply opt_le_prefix. rewrite <- EF. apply (nondecreasing_prefix o _ q'). now rewrite <- Eq'.
  - rewrite Eq' at 2. apply opt_le_prefix. now rewrite <- Eq'.
Qed.

(* ---------- C03 ---------- *)
Lemma probe_dec m : {is_probe m} + {~ is_probe m}.
Proof.
  unfold is_probe. destruct (N.eq_dec (m_rows m) 0); [|right; tauto].
  destruct (m_seq m); [right; intros [_ X]; discriminate|left; auto].
Qed.
Lemma probe_test m : ((m_rows m =? 0) && match m_seq m with None => true | Some _ => false end = true) <-> is_probe m.
Proof.
  unfold is_probe. rewrite andb_true_iff, N.eqb_eq. destruct (m_seq m); split; intros [A B]; split; auto; discriminate.
Qed.
Lemma not_probe_test m : ~ is_probe m -> (m_rows m =? 0) && match m_seq m with None => true | Some _ => false end = false.
Proof. intros H. apply not_true_is_false. now rewrite probe_test. Qed.

Lemma upsert_none_iff log w m : last_inv log w -> ~ is_probe m -> (upsert_tx w m = None <-> must_refuse log m).
Proof.
  intros HL Hnp. unfold must_refuse.
  assert (Fresh : ((if (m_rows m =? 0) && match m_seq m with Some _ => true | None => false end then None
     else Some (w_next w, w_txs w ++ [(w_next w, {| t_origin := m_origin m; t_seq := m_seq m; t_locs := [m_url m] |})], S (w_next w))) = None)
     <-> (m_rows m = 0 /\ m_seq m <> None)).
  { destruct (N.eqb_spec (m_rows m) 0); cbn; [|split; [discriminate|tauto]].
    destruct (m_seq m); split; try tauto; try discriminate; intros; split; auto; discriminate. }
  unfold last_inv in HL. destruct log as [|e l _] using rev_ind.
  - cbn in HL. unfold upsert_tx. rewrite HL. cbn [last_opt app]. rewrite HL in Fresh. cbn [app] in Fresh.
    rewrite Fresh. split; [intros H; right; split; [left; auto|auto]|].
    intros [(l & e & E & _)|[_ H]]; [destruct l; discriminate|auto].
  - rewrite last_opt_snoc in HL.
    assert (HT : last_opt (tview w) = option_map (fun p => (fst p, t_origin (snd p), t_seq (snd p))) (last_opt (w_txs w))).
    { unfold tview. destruct (w_txs w) as [|x xs _] using rev_ind; [reflexivity|].
      rewrite map_app. cbn [map]. now rewrite !last_opt_snoc. }
    rewrite HT in HL. unfold upsert_tx.
    destruct (m_seq (l_msg e)) as [s|] eqn:Es.
    + assert (HX : upsert_tx w m = None <-> (m_rows m = 0 /\ m_seq m <> None)).
      { unfold upsert_tx. destruct (last_opt (w_txs w)) as [[t x]|]; [|exact Fresh].
        cbn in HL. specialize (HL _ eq_refl). cbn in HL. destruct (t_seq x); [exact Fresh|contradiction]. }
      fold (upsert_tx w m). rewrite HX. split.
      * intros H. right. split; [right; exists l, e; split; [auto|congruence]|auto].
      * intros [(l' & e' & E & Es' & _)|[_ H]]; [|auto]. apply app_inj_tail in E. destruct E as [_ <-]. congruence.
    + destruct (last_opt (w_txs w)) as [[t x]|]; [|discriminate]. cbn in HL. injection HL as -> Ho Hs.
      rewrite Hs, Ho. destruct (Nat.eqb_spec (m_origin m) (m_origin (l_msg e))) as [Eo|Eo]; cbn [negb].
      * split; [discriminate|]. intros [(l' & e' & E & _ & Hne)|[[H|(l' & e' & E & Hne)] _]].
        -- apply app_inj_tail in E. destruct E as [_ <-]. contradiction.
        -- destruct l; discriminate.
        -- apply app_inj_tail in E. destruct E as [_ <-]. contradiction.
      * split; [|auto]. intros _. left. exists l, e. auto.
Qed.

Lemma c03_refused cf T0 wd m now e : reachable cf T0 wd -> ~ is_probe m ->
  forall wd' r, step cf wd (EMsg m true now e) = (wd', r) -> (r = RInvalid <-> must_refuse (wd_log wd) m).
Proof.
  intros HR Hnp wd' r E. pose proof (reachable_full _ _ _ HR) as HF. pose proof HF as [[HI HL] H1 _ _].
  rewrite <- (upsert_none_iff _ _ _ H1 Hnp). cbn [step] in E. rewrite (not_probe_test _ Hnp) in E. cbn [negb] in E.
  destruct (enqueue_sync cf now (wd_id wd) m (wd_w wd)) as [w1 st] eqn:EQ.
  destruct (upsert_tx (wd_w wd) m) as [p|] eqn:EU.
  - split; [|discriminate]. intros ->. destruct st.
    + destruct (flush cf e w1 (wd_T wd)) as [[[? ?] [| |]]|]; discriminate.
    + apply enqueue_err in EQ. destruct EQ; congruence.
    + discriminate.
  - unfold enqueue_sync in EQ. rewrite EU in EQ. injection EQ as <- <-. injection E as <- <-. tauto.
Qed.

Lemma c03_unchanged cf wd ev wd' : step cf wd ev = (wd', RInvalid) -> wd' = wd.
Proof.
  destruct ev as [m lock now e|e|u]; cbn [step].
  - destruct (_ && _); [discriminate|]. destruct lock; cbn [negb]; [|discriminate].
    destruct (enqueue_sync cf now (wd_id wd) m (wd_w wd)) as [w1 st] eqn:EQ. destruct st.
    + destruct (flush cf e w1 (wd_T wd)) as [[[? ?] [| |]]|]; discriminate.
    + intros [= <-]. apply enqueue_err in EQ. destruct EQ as [-> _]. now destruct wd.
    + discriminate.
  - destruct (flush _ _ _ _) as [[[? ?] [| |]]|]; discriminate.
  - destruct (wd_T wd u); discriminate.
Qed.
Lemma c03_busy cf wd ev wd' : step cf wd ev = (wd', RBusy) -> wd' = wd.
Proof.
  destruct ev as [m lock now e|e|u]; cbn [step].
  - destruct (_ && _); [discriminate|]. destruct lock; cbn [negb]; [|congruence].
    destruct (enqueue_sync cf now (wd_id wd) m (wd_w wd)) as [w1 [| |]]; [|discriminate..].
    destruct (flush cf e w1 (wd_T wd)) as [[[? ?] [| |]]|]; discriminate.
  - destruct (flush _ _ _ _) as [[[? ?] [| |]]|]; discriminate.
  - destruct (wd_T wd u); discriminate.
Qed.
Lemma c03_probe cf wd m lock now e wd' r : is_probe m -> step cf wd (EMsg m lock now e) = (wd', r) ->
  wd' = wd /\ r = stored (wd_w wd) (m_origin m).
Proof. intros H. cbn [step]. apply probe_test in H. rewrite H. intros [= <- <-]. auto. Qed.

(* which messages the log records *)
Lemma step_log cf T0 wd m lock now e wd' r : reachable cf T0 wd -> step cf wd (EMsg m lock now e) = (wd', r) ->
  (is_probe m \/ r = RBusy \/ r = RInvalid -> wd_log wd' = wd_log wd) /\
  (~ is_probe m -> r <> RBusy -> r <> RInvalid ->
     exists x, wd_log wd' = wd_log wd ++ [x] /\ l_msg x = m /\ forall y, In y (wd_log wd) -> l_id y <> l_id x).
Proof.
  intros HR E. split.
  - intros [H|[->| ->]]; [now apply (c03_probe _ _ _ _ _ _ _ _ H) in E as [-> _]|now rewrite (c03_busy _ _ _ _ E)|now rewrite (c03_unchanged _ _ _ _ E)].
  - intros Hp Hb Hi. cbn [step] in E. rewrite (not_probe_test _ Hp) in E.
    pose proof (f_inv _ _ (reachable_full _ _ _ HR)) as [HI HL].
    destruct lock; cbn [negb] in E; [|congruence].
    destruct (enqueue_sync cf now (wd_id wd) m (wd_w wd)) as [w1 st] eqn:EQ.
    destruct (enqueue_inv _ _ _ _ _ _ _ HI (probe_false _ (not_probe_test _ Hp)) EQ) as [(-> & -> & _)|(-> & _ & _)]; [congruence|].
    destruct (flush cf e w1 (wd_T wd)) as [[[? ?] st]|]; injection E as <- <-; cbn; (eexists; split; [reflexivity|]; split; [reflexivity|]);
      intros y Hy; apply (L_id _ _ _ _ _ HL) in Hy; cbn; lia.
Qed.

(* ---------- C04 ---------- *)
Lemma c04 cf T0 wd : reachable cf T0 wd ->
  w_size (wd_w wd) = pending_bytes (wd_w wd) /\
  (forall u c, In (u, c) (w_syncs (wd_w wd)) ->
     c_size c = sum_size (flat_map i_data (c_items c)) /\ c_rows c = sum_rows (flat_map i_data (c_items c))).
Proof.
  intros HR. pose proof (f_inv _ _ (reachable_full _ _ _ HR)) as [HI _].
  assert (HS : forall its, items_size its = sum_size (flat_map i_data its)).
  { reflexivity. }
  assert (HRw : forall its, items_rows its = sum_rows (flat_map i_data its)).
  { reflexivity. }
  assert (HC : forall u c, In (u, c) (w_syncs (wd_w wd)) -> coll_ok c).
  { intros u c H. apply In_get in H; [|apply HI]. now apply (I_coll _ HI) in H. }
  split.
  - rewrite (I_size _ HI). unfold pending_bytes, total. clear - HC HS.
    induction (w_syncs (wd_w wd)) as [|[u c] l IH]; [reflexivity|]. cbn. rewrite IH; [|intros; eapply HC; right; eauto].
    f_equal. destruct (HC u c (or_introl eq_refl)) as (E & _). now rewrite <- HS.
  - intros u c H. destruct (HC _ _ H) as (E1 & E2 & _). now rewrite <- HS, <- HRw.
Qed.

Lemma squash_checked sq items : forall i size csize crows,
  items_size items <= csize -> csize <= size -> items_rows items <= crows ->
  squash_items_checked sq i items size csize crows = Some (squash_items sq i items size csize crows).
Proof.
  induction items as [|it items IH]; intros i size csize crows Hs Hc Hr; [reflexivity|].
  cbn [squash_items_checked squash_items]. rewrite items_size_cons, items_rows_cons in *.
  destruct (i_squashed it).
  - rewrite IH by lia. destruct (squash_items _ _ _ _ _ _) as [[[[? ?] ?] ?] ?]. reflexivity.
  - destruct (sq i) as [[s r]|]; [|reflexivity]. unfold sub_checked.
    destruct (N.leb_spec (sum_size (i_data it)) size); [|lia].
    destruct (N.leb_spec (sum_size (i_data it)) csize); [|lia].
    destruct (N.leb_spec (sum_rows (i_data it)) crows); [|lia].
    rewrite IH by lia. destruct (squash_items _ _ _ _ _ _) as [[[[? ?] ?] ?] ?]. reflexivity.
Qed.

Lemma total_In u c l : In (u, c) l -> c_size c <= total l.
Proof. induction l as [|[v d] l IH]; [intros []|]. unfold total in *. cbn. intros [[= -> ->]|H]; [lia|]. specialize (IH H). lia. Qed.

Lemma c04_no_underflow cf T0 wd u c sq : reachable cf T0 wd -> get u (w_syncs (wd_w wd)) = Some c ->
  squash_items_checked sq 0 (c_items c) (w_size (wd_w wd)) (c_size c) (c_rows c)
    = Some (squash_items sq 0 (c_items c) (w_size (wd_w wd)) (c_size c) (c_rows c)) /\
  sub_checked (w_size (wd_w wd)) (c_size c) = Some (w_size (remove_sync u (wd_w wd))).
Proof.
  intros HR Hg. pose proof (f_inv _ _ (reachable_full _ _ _ HR)) as [HI _].
  destruct (I_coll _ HI _ _ Hg) as (E1 & E2 & _). pose proof (get_In _ _ _ Hg) as HIn. apply total_In in HIn.
  rewrite (I_size _ HI). split.
  - apply squash_checked; [rewrite E1; lia|auto|rewrite E2; lia].
  - unfold sub_checked, remove_sync. rewrite Hg. cbn. rewrite (I_size _ HI).
    destruct (N.leb_spec (c_size c) (total (w_syncs (wd_w wd)))); [reflexivity|lia].
Qed.

(* ---------- C05 ---------- *)
Lemma step_accepted cf T0 wd m lock now e wd' r :
  reachable cf T0 wd -> ~ is_probe m -> step cf wd (EMsg m lock now e) = (wd', r) -> r <> RBusy -> r <> RInvalid ->
  exists w1 t T2 st,
    WInv w1 /\ enq_ok (wd_id wd) now m (wd_w wd) w1 t /\
    LInv T0 w1 (wd_T wd) (wd_log wd ++ [{| l_id := wd_id wd; l_msg := m; l_tx := t |}]) (S (wd_id wd)) /\
    flush cf e w1 (wd_T wd) = Some (wd_w wd', T2, st) /\ wd_T wd' = T2 /\ WInv (wd_w wd') /\
    loop_ok T0 cf e w1 (wd_T wd) (wd_w wd') T2 st /\ r = match st with SOk => stored (wd_w wd') (m_origin m) | SErr => RFlushErr | SPanic => RPanic end.
Proof.
  intros HR Hp E Hb Hi. pose proof (f_inv _ _ (reachable_full _ _ _ HR)) as [HI HL].
  cbn [step] in E. rewrite (not_probe_test _ Hp) in E.
  destruct lock; cbn [negb] in E; [|congruence].
  destruct (enqueue_sync cf now (wd_id wd) m (wd_w wd)) as [w1 st0] eqn:EQ.
  pose proof (probe_false _ (not_probe_test _ Hp)) as Hprobe.
  destruct (enqueue_inv _ _ _ _ _ _ _ HI Hprobe EQ) as [(-> & -> & _)|(-> & HI1 & t & Hq)]; [congruence|].
  pose proof (enqueue_log _ _ _ _ _ _ _ _ _ HI HL Hprobe HI1 Hq) as HL1.
  destruct (flush_inv _ cf e _ _ _ _ HI1 HL1) as (w2 & T2 & st & EF & HI2 & HL2 & HK).
  rewrite EF in E. injection E as <- <-. exists w1, t, T2, st. cbn. auto 10.
Qed.

Lemma flush_ready_none cf now sq w w' : WInv w -> flush_ready cf now sq w = (w', Some None) ->
  (forall u c, In (u, c) (w_syncs w') -> (length (c_items c) < cf_syncs cf)%nat) /\
  (w_size w' < cf_bytes cf \/ w_syncs w' = []) /\
  match w_syncs w' with [] => True | (u, c) :: _ => lag_of now (c_time c) < cf_lag cf end.
Proof.
  intros HI E. pose proof (flush_ready_same _ _ _ _ _ _ HI E) as (SC & HI' & _).
  unfold flush_ready in E.
  assert (Third : forall w0, (w0, Some (find_many cf (w_syncs w0))) = (w', Some None) ->
     w0 = w' /\ (forall u c, In (u, c) (w_syncs w') -> (length (c_items c) < cf_syncs cf)%nat)).
  { intros w0 [= -> Ef]. split; [auto|]. intros u c HIn. unfold find_many in Ef.
    destruct (find _ (w_syncs w')) eqn:Efd; [discriminate|].
    pose proof (find_none _ _ Efd _ HIn) as Hn. cbn in Hn. apply Nat.leb_gt in Hn. exact Hn. }
  assert (Second : (if cf_bytes cf <=? w_size w then
      match max_by_size (w_syncs w) with
      | Some (u, _) =>
          let '(w', ok) := physical_squashing sq u w in
          if negb ok then (w', None)
          else if cf_bytes cf <=? w_size w' then (w', Some (Some u))
          else (w', Some (find_many cf (w_syncs w')))
      | None => (w, Some (find_many cf (w_syncs w)))
      end
    else (w, Some (find_many cf (w_syncs w)))) = (w', Some None) ->
    (forall u c, In (u, c) (w_syncs w') -> (length (c_items c) < cf_syncs cf)%nat) /\
    (w_size w' < cf_bytes cf \/ w_syncs w' = [])).
  { destruct (N.leb_spec (cf_bytes cf) (w_size w)) as [Hle|Hgt].
    - destruct (max_by_size (w_syncs w)) as [[u c]|] eqn:Em.
      + destruct (physical_squashing sq u w) as [wq ok]. destruct ok; cbn [negb]; [|discriminate].
        destruct (N.leb_spec (cf_bytes cf) (w_size wq)); [discriminate|].
        intros H0. apply Third in H0. destruct H0 as [-> H0]. auto.
      + intros H0. apply Third in H0. destruct H0 as [-> H0]. split; [auto|]. right.
        destruct (w_syncs w') as [|x l]; [auto|]. cbn in Em. destruct (max_by_size l); [destruct (_ <=? _)|]; discriminate.
    - intros H0. apply Third in H0. destruct H0 as [-> H0]. auto. }
  pose proof (times_same _ _ HI HI' SC) as HT.
  destruct (w_syncs w) as [|[u c] l] eqn:Es.
  - destruct (Second E) as [A B]. split; [auto|]. split; [auto|].
    unfold times in HT. rewrite Es in HT. destruct (w_syncs w'); [auto|discriminate].
  - destruct (N.leb_spec (cf_lag cf) (lag_of now (c_time c))) as [Hle|Hgt]; [discriminate|].
    destruct (Second E) as [A B]. split; [auto|]. split; [auto|].
    unfold times in HT. rewrite Es in HT. destruct (w_syncs w') as [|[u' c'] l']; [auto|].
    cbn in HT. injection HT as -> _. exact Hgt.
Qed.

Lemma c05_limits cf T0 wd m lock now e wd' a b : reachable cf T0 wd -> ~ is_probe m ->
  step cf wd (EMsg m lock now e) = (wd', RSeqs a b) ->
  (forall u c, In (u, c) (w_syncs (wd_w wd')) -> (length (c_items c) < cf_syncs cf)%nat) /\
  (pending_bytes (wd_w wd') < cf_bytes cf \/ w_syncs (wd_w wd') = []).
Proof.
  intros HR Hp E. destruct (step_accepted _ _ _ _ _ _ _ _ _ HR Hp E) as (w1 & t & T2 & st & HI1 & Hq & HL1 & EF & ET & HI2 & HK & Er); [discriminate..|].
  destruct st; try discriminate. destruct (lk_ready _ _ _ _ _ _ _ _ HK eq_refl) as (i & w3 & HI3 & EFR).
  destruct (flush_ready_none _ _ _ _ _ HI3 EFR) as (A & B & _). split; [auto|].
  destruct (c04 cf T0 wd') as [<- _]; [|exact B]. econstructor; eauto.
Qed.

Lemma reachable_at_reachable cf T0 t wd : reachable_at cf T0 t wd -> reachable cf T0 wd.
Proof. induction 1; [constructor|econstructor; eauto]. Qed.

Lemma time_inv_weaken t t' w : t <= t' -> time_inv t w -> time_inv t' w.
Proof. intros Hle [A B]. split; [auto|]. rewrite Forall_forall in *. intros x Hx. specialize (B x Hx). lia. Qed.

Lemma SSorted_snoc l x : StronglySorted N.le l -> Forall (fun y => y <= x) l -> StronglySorted N.le (l ++ [x]).
Proof.
  induction 1 as [|a l HS IH HF]; intros HX; [repeat constructor|]. inversion HX; subst. cbn. constructor; [auto|].
  apply Forall_app. split; [auto|]. constructor; [auto|constructor].
Qed.

Lemma enqueue_time id now m w w' t t0 : enq_ok id now m w w' t -> t0 <= now -> time_inv t0 w -> time_inv now w'.
Proof.
  intros Hq Hle HT. apply (time_inv_weaken _ _ _ Hle) in HT. destruct HT as [A B].
  unfold time_inv, times in *. destruct (q_times _ _ _ _ _ _ Hq) as [->| ->]; [auto|].
  split; [now apply SSorted_snoc|]. apply Forall_app. split; [auto|]. constructor; [lia|constructor].
Qed.

Lemma e_now_ge (e : env) : (forall i, e_now e i <= e_now e (S i)) -> forall i, e_now e 0 <= e_now e i.
Proof. intros H. induction i; [lia|]. specialize (H i). lia. Qed.

Lemma c05_step cf T0 t wd ev wd' r t' : reachable cf T0 wd -> time_inv t (wd_w wd) -> clocked t ev t' ->
  step cf wd ev = (wd', r) -> time_inv t' (wd_w wd').
Proof.
  intros HR HT HC E. pose proof (f_inv _ _ (reachable_full _ _ _ HR)) as [HI HL].
  destruct ev as [m lock now e|e|u]; cbn [clocked] in HC.
  - destruct HC as (C1 & C2 & C3 & C4).
    assert (Htt : t <= t') by (specialize (C4 0%nat); lia).
    destruct (probe_dec m) as [Hp|Hp].
    { apply (c03_probe _ _ _ _ _ _ _ _ Hp) in E. destruct E as [-> _]. eapply time_inv_weaken; eauto. }
    assert (Hx : r = RBusy \/ r = RInvalid \/ (r <> RBusy /\ r <> RInvalid)) by (destruct r; auto; right; right; split; discriminate).
    destruct Hx as [->|[->|[H1 H2]]].
    + rewrite (c03_busy _ _ _ _ E). eapply time_inv_weaken; eauto.
    + rewrite (c03_unchanged _ _ _ _ E). eapply time_inv_weaken; eauto.
    + destruct (step_accepted _ _ _ _ _ _ _ _ _ HR Hp E H1 H2) as (w1 & t1 & T2 & st & HI1 & Hq & HL1 & EF & _).
      apply (enqueue_time _ _ _ _ _ _ _ Hq C1) in HT. unfold flush in EF.
      apply (time_flush _ _ _ _ _ _ _ _ _ _ _ _ _ HI1 HL1 HT) in EF.
      eapply time_inv_weaken; [|exact EF]. specialize (C4 0%nat). lia.
  - destruct HC as (C1 & C3 & C4). cbn [step] in E.
    destruct (flush_inv _ cf e _ _ _ _ HI HL) as (w2 & T2 & st & EF & HI2 & HL2 & HK).
    rewrite EF in E. injection E as <- <-. cbn. unfold flush in EF.
    apply (time_flush _ _ _ _ _ _ _ _ _ _ _ _ _ HI HL HT) in EF.
    eapply time_inv_weaken; [|exact EF]. specialize (C4 0%nat). lia.
  - cbn [step] in E. destruct (wd_T wd u); injection E as <- <-; cbn; eapply time_inv_weaken; eauto.
Qed.

Lemma reachable_at_time cf T0 t wd : reachable_at cf T0 t wd -> time_inv t (wd_w wd).
Proof.
  induction 1 as [id0 t|t wd ev wd' r t' H IH HC E].
  - split; constructor.
  - eapply c05_step; eauto using reachable_at_reachable.
Qed.

Lemma c05_lag cf T0 t wd m lock now e wd' a b t' : reachable_at cf T0 t wd -> clocked t (EMsg m lock now e) t' ->
  ~ is_probe m -> step cf wd (EMsg m lock now e) = (wd', RSeqs a b) ->
  exists i, forall u c, In (u, c) (w_syncs (wd_w wd')) ->
    c_time c <= e_now e i /\ e_now e i - c_time c < cf_lag cf.
Proof.
  intros HRA HC Hp E. pose proof (reachable_at_reachable _ _ _ _ HRA) as HR.
  pose proof (reachable_at_time _ _ _ _ HRA) as HT. cbn in HC. destruct HC as (C1 & C2 & C3 & C4).
  destruct (step_accepted _ _ _ _ _ _ _ _ _ HR Hp E) as (w1 & t1 & T2 & st & HI1 & Hq & HL1 & EF & ET & HI2 & HK & Er); [discriminate..|].
  destruct st; try discriminate. destruct (lk_ready _ _ _ _ _ _ _ _ HK eq_refl) as (i & w3 & HI3 & EFR).
  destruct (flush_ready_none _ _ _ _ _ HI3 EFR) as (_ & _ & Hl). exists i.
  apply (enqueue_time _ _ _ _ _ _ _ Hq C1) in HT. unfold flush in EF.
  apply (time_flush _ _ _ _ _ _ _ _ _ _ _ _ _ HI1 HL1 HT) in EF. destruct EF as [HS HB].
  intros u c HIn. pose proof (e_now_ge e C3 i) as Hi.
  assert (Hc : In (c_time c) (times (wd_w wd'))) by (unfold times; change (c_time c) with ((fun p : nat * coll => c_time (snd p)) (u, c)); now apply in_map).
  rewrite Forall_forall in HB. pose proof (HB _ Hc) as Hcb. split; [lia|].
  unfold times in *. destruct (w_syncs (wd_w wd')) as [|[u0 c0] l]; [destruct HIn|].
  cbn in HS, HB, Hc. assert (Hc0 : c_time c0 <= now) by (apply HB; now left).
  assert (Hle : c_time c0 <= c_time c).
  { inversion HS; subst. destruct Hc as [->|Hc]; [lia|]. rewrite Forall_forall in H2. now apply H2. }
  unfold lag_of in Hl. destruct (N.leb_spec (c_time c0) (e_now e i)); lia.
Qed.

(* ---------- C06 ---------- *)
Lemma c06 cf T0 wd ev wd' r : reachable cf T0 wd -> step cf wd ev = (wd', r) -> r <> RPanic.
Proof. intros HR E. pose proof (f_inv _ _ (reachable_full _ _ _ HR)) as HInv. now destruct (inv_step _ _ _ _ _ _ HInv E). Qed.

(* ---------- C07 ---------- *)
Lemma c07_clean cf T0 id0 evs wd rs : Forall clean_event evs -> run cf (init T0 id0) evs = (wd, rs) ->
  forall u, committed (new_commits T0 (wd_T wd) u) ++ pending (wd_w wd) u = accepted_for u (wd_log wd).
Proof.
  intros HF E u.
  assert (G : forall evs wd0 wd rs, reachable cf T0 wd0 ->
     accepted_for u (wd_log wd0) = committed_all T0 (wd_T wd0) (wd_w wd0) u -> Forall clean_event evs ->
     run cf wd0 evs = (wd, rs) -> accepted_for u (wd_log wd) = committed_all T0 (wd_T wd) (wd_w wd) u).
  { clear. induction evs as [|ev evs IH]; intros wd0 wd rs HR HA HF E; cbn in E; [injection E as <- <-; auto|].
    destruct (step cf wd0 ev) as [w1 r] eqn:E1. destruct (run cf w1 evs) as [w2 rs'] eqn:E2. injection E as <- <-.
    inversion HF; subst. apply (IH w1 w2 rs'); auto; [exact (reach_step _ _ _ _ _ _ HR E1)|].
    apply (sf_clean _ _ _ _ _ _ (full_step _ _ _ _ _ _ (reachable_full _ _ _ HR) E1)); auto. }
  symmetry. apply (G evs (init T0 id0) wd rs); auto; [constructor|].
  unfold committed_all. cbn. unfold new_commits. rewrite skipn_all. reflexivity.
Qed.

Lemma c07_nothing_lost cf T0 wd u : reachable cf T0 wd ->
  exists old, accepted_for u (wd_log wd) = old ++ pending (wd_w wd) u /\
              incl old (committed (new_commits T0 (wd_T wd) u)).
Proof. intros HR. pose proof (f_inv _ _ (reachable_full _ _ _ HR)) as [_ HL]. apply (L_sfx _ _ _ _ _ HL). Qed.

Lemma accepted_nodup cf T0 wd u : reachable cf T0 wd -> NoDup (accepted_for u (wd_log wd)).
Proof.
  intros HR. pose proof (f_inv _ _ (reachable_full _ _ _ HR)) as [_ HL]. pose proof (L_nd _ _ _ _ _ HL) as HN.
  unfold accepted_for. generalize (wd_log wd) HN. clear. induction l as [|e l IH]; intros HN; [constructor|].
  cbn in HN. inversion HN as [|? ? Hn HN']; subst. cbn [filter].
  destruct (has_rows e && Nat.eqb (m_url (l_msg e)) u); [|auto]. cbn [flat_map].
  assert (HT : NoDup (tags e)).
  { unfold tags. generalize (length (m_batches (l_msg e))) 0%nat. induction n as [|n IHn]; intros k; cbn; constructor; auto.
    intros HI. apply in_map_iff in HI. destruct HI as (j & [= ->] & Hj). apply in_seq in Hj. lia. }
  assert (HD : forall p, In p (tags e) -> ~ In p (flat_map tags (filter (fun e => has_rows e && Nat.eqb (m_url (l_msg e)) u) l))).
  { intros p Hp Hq. apply in_flat_map in Hq. destruct Hq as (e' & He' & Hp'). apply filter_In in He'.
    apply tags_id in Hp, Hp'. apply Hn. rewrite <- Hp, Hp'. apply in_map. tauto. }
  specialize (IH HN'). revert HT HD IH. generalize (flat_map tags (filter (fun e => has_rows e && Nat.eqb (m_url (l_msg e)) u) l)).
  generalize (tags e). clear. induction l as [|a l IH]; intros l' H1 H2 H3; [auto|]. cbn. inversion H1; subst. constructor.
  - intros HI. apply in_app_or in HI. destruct HI as [HI|HI]; [auto|]. apply (H2 a); [now left|auto].
  - apply IH; auto. intros p Hp. apply H2. now right.
Qed.

(* ---------- C08 ---------- *)
Lemma head_reach cf T0 wd : reachable cf T0 wd ->
  (forall e, In e (wd_log wd) -> m_seq (l_msg e) <> None -> m_rows (l_msg e) <> 0) -> head_inv (wd_w wd).
Proof.
  induction 1 as [id0|wd ev wd' r HR IH HS]; intros HA; [exact I|].
  pose proof (full_step _ _ _ _ _ _ (reachable_full _ _ _ HR) HS) as SF.
  apply (sf_head _ _ _ _ _ _ SF HA). apply IH. intros e He. apply HA.
  destruct (sf_log _ _ _ _ _ _ SF) as (l & -> & _). apply in_or_app. auto.
Qed.

Lemma tags_nonempty e : has_rows e = true -> exists p, In p (tags e).
Proof.
  unfold has_rows, tags, m_rows. destruct (m_batches (l_msg e)) as [|b bs]; [discriminate|]. intros _. cbn. eauto.
Qed.

Lemma c08 cf T0 wd o n l1 e l2 : reachable cf T0 wd ->
  (forall e, In e (wd_log wd) -> m_seq (l_msg e) <> None -> m_rows (l_msg e) <> 0) ->
  wd_log wd = l1 ++ e :: l2 -> closes o n e ->
  (forall e' p, In e' (l1 ++ [e]) -> has_rows e' = true -> In p (tags e') -> ~ In p (pending (wd_w wd) (m_url (l_msg e')))) ->
  exists p q, l2 = p ++ q /\ get o (w_dur (wd_w wd)) = last_seq o (l1 ++ e :: p).
Proof.
  intros HR HA El Hc Hnp. pose proof (head_reach _ _ _ HR HA) as Hh.
  pose proof (reachable_full _ _ _ HR) as [[HI HL] _ HA2 HCl].
  assert (Hlt : (l_tx e < lo_of (wd_w wd))%nat).
  { destruct (Nat.lt_ge_cases (l_tx e) (lo_of (wd_w wd))) as [|Hge]; [auto|exfalso].
    assert (HIn : In e (wd_log wd)) by (rewrite El; apply in_or_app; right; now left).
    pose proof (L_lt _ _ _ _ _ HL _ HIn) as Hnx. unfold head_inv in Hh. unfold lo_of in Hge.
    destruct (w_txs (wd_w wd)) as [|[t x] txs] eqn:Et; [lia|].
    assert (Gx : get t (w_txs (wd_w wd)) = Some x) by (rewrite Et; cbn; now rewrite Nat.eqb_refl).
    destruct Hh as [Hh|Hh].
    - destruct txs as [|y ys]; [|exact (I_open _ HI [] t x y ys Et Hh)].
      destruct (I_ids _ HI) as (lo & k & Eids & En). rewrite Et in Eids. cbn in Eids.
      destruct k as [|[|k]]; try discriminate. cbn in Eids. injection Eids as <-.
      assert (l_tx e = t) by lia. destruct (L_seq _ _ _ _ _ HL _ _ Gx) as [Hq Ho]. rewrite Hh in Hq.
      destruct Hc as [Hco Hcs]. apply (last_seq_some (t_origin x) n (filter (in_tx t) (wd_log wd)) e); [|split; auto|auto].
      apply filter_In. split; [auto|]. unfold in_tx. now apply Nat.eqb_eq.
    - destruct (t_locs x) as [|u us] eqn:Eu; [contradiction|].
      destruct (I_loc2 _ HI t x u Gx) as (s & Hs & Ht); [rewrite Eu; now left|].
      destruct (HA2 _ _ _ Hs Ht) as (e0 & He0 & Et0 & Eurl & Hr & Hincl).
      assert (H0 : In e0 (l1 ++ [e])).
      { rewrite El in He0. apply in_app_or in He0. apply in_or_app. destruct He0 as [|[<-|He0]]; [auto|right; now left|exfalso].
        destruct Hc as [_ Hcs]. assert (Hne : m_seq (l_msg e) <> None) by congruence.
        pose proof (HCl _ _ _ El Hne _ He0). lia. }
      destruct (tags_nonempty _ Hr) as [p Hp]. apply (Hnp _ _ H0 Hr Hp). rewrite pending_sh, Eurl.
      apply in_flat_map. exists s. split; [auto|now apply Hincl]. }
  destruct (before_prefix (lo_of (wd_w wd)) _ (L_sorted _ _ _ _ _ HL)) as (q & Eq & Hq).
  rewrite (L_dur _ _ _ _ _ HL).
  set (F := filter (before_tx (lo_of (wd_w wd))) (wd_log wd)) in *.
  assert (HF : F = (l1 ++ [e]) ++ filter (before_tx (lo_of (wd_w wd))) l2).
  { unfold F. rewrite El. change (e :: l2) with ([e] ++ l2). rewrite app_assoc, filter_app. f_equal. apply filter_full.
    intros e' He'. pose proof (L_sorted _ _ _ _ _ HL) as HS. rewrite El in HS.
    apply (sorted_split _ _ _ _ HS) in He'. unfold le_tx in He'. unfold before_tx. apply Nat.ltb_lt. lia. }
  exists (filter (before_tx (lo_of (wd_w wd))) l2), q. split.
  - rewrite HF in Eq. rewrite El in Eq. change (e :: l2) with ([e] ++ l2) in Eq. rewrite app_assoc, <- !app_assoc in Eq.
    rewrite !app_assoc in Eq. rewrite <- (app_assoc (l1 ++ [e])) in Eq. now apply app_inv_head in Eq.
  - rewrite HF, <- app_assoc. reflexivity.
Qed.

(* ---------- C09 ---------- *)
Lemma c09_covers cf T0 wd u cs1 k cs2 i : reachable cf T0 wd ->
  new_commits T0 (wd_T wd) u = cs1 ++ k :: cs2 -> k_info k = Some i ->
  (exists l1 e l2, wd_log wd = l1 ++ e :: l2 /\ closes (k_origin i) (k_seq i) e /\
    forall e', In e' (l1 ++ [e]) -> m_url (l_msg e') = u -> has_rows e' = true -> incl (tags e') (committed (cs1 ++ [k]))) \/
  (exists i0, table_sequence (T0 u) = Some i0 /\ k_origin i = k_origin i0 /\ k_seq i = k_seq i0).
Proof.
  intros HR E Ei. pose proof (f_inv _ _ (reachable_full _ _ _ HR)) as [_ HL]. apply (L_info _ _ _ _ _ HL _ _ _ _ _ E Ei).
Qed.
Lemma c09_flag cf T0 wd u k : reachable cf T0 wd -> In k (new_commits T0 (wd_T wd) u) ->
  k = create_commit \/ exists l1 l2, wd_log wd = l1 ++ l2 /\ info_ok u l1 (k_info k).
Proof.
  intros HR E. pose proof (f_inv _ _ (reachable_full _ _ _ HR)) as [_ HL]. exact (L_flag _ _ _ _ _ HL _ _ E).
Qed.

(* ---------- C10 ---------- *)
Lemma c10_failed cf T0 wd sq out u w' T' : reachable cf T0 wd ->
  flush_syncs sq out u (wd_w wd) (wd_T wd) = (w', T', SErr) ->
  (forall o, stored w' o = stored (wd_w wd) o) /\ (forall v, pending w' v = pending (wd_w wd) v) /\
  (out <> FCommitFail -> forall v, committed (new_commits T0 T' v) = committed (new_commits T0 (wd_T wd) v)).
Proof.
  intros HR E. pose proof (f_inv _ _ (reachable_full _ _ _ HR)) as [HI HL].
  destruct (flush_syncs_inv _ _ _ _ _ _ _ _ _ _ _ HI HL E) as (HI' & HL' & HF).
  pose proof (fo_err _ _ _ _ _ _ _ _ HF eq_refl) as SC. destruct SC as (E1 & E2 & E3 & E4 & E5 & E6 & _).
  split; [intros o; unfold stored; now rewrite E2, E3|]. split; [intros v; now rewrite !pending_sh, E6|].
  intros HN v. apply (fo_clean _ _ _ _ _ _ _ _ HF eq_refl HN).
Qed.

Lemma c10_retry cf T0 wd sq out u w1 T1 sq' w2 T2 : reachable cf T0 wd ->
  flush_syncs sq out u (wd_w wd) (wd_T wd) = (w1, T1, SErr) -> out <> FCommitFail ->
  flush_syncs sq' FOk u w1 T1 = (w2, T2, SOk) ->
  forall v, committed (new_commits T0 T2 v) =
     committed (new_commits T0 (wd_T wd) v) ++ (if Nat.eqb u v then pending (wd_w wd) v else []) /\
     pending w2 v = if Nat.eqb u v then [] else pending (wd_w wd) v.
Proof.
  intros HR E HN E2 v. pose proof (f_inv _ _ (reachable_full _ _ _ HR)) as [HI HL].
  destruct (c10_failed _ _ _ _ _ _ _ _ HR E) as (_ & Hp & Hcm).
  destruct (flush_syncs_inv _ _ _ _ _ _ _ _ _ _ _ HI HL E) as (HI1 & HL1 & _).
  destruct (flush_syncs_inv _ _ _ _ _ _ _ _ _ _ _ HI1 HL1 E2) as (HI2 & HL2 & HF).
  destruct (get u (w_syncs w1)) as [c|] eqn:Eg.
  - destruct (fo_ok _ _ _ _ _ _ _ _ HF eq_refl) as (_ & _ & Hsh & _ & Hc); [congruence|].
    rewrite Hc, Hcm by auto. split; [destruct (Nat.eqb u v); [now rewrite Hp|auto]|].
    rewrite pending_sh, Hsh. destruct (Nat.eqb u v); [reflexivity|]. now rewrite <- pending_sh.
  - assert (Hpu : pending (wd_w wd) u = []) by (rewrite <- Hp; unfold pending; now rewrite Eg).
    unfold flush_syncs, physical_squashing in E2. rewrite Eg in E2. cbn [negb] in E2. rewrite Eg in E2. injection E2 as <- <-.
    rewrite Hcm, Hp by auto. destruct (Nat.eqb_spec u v) as [<-|]; rewrite ?Hpu, ?app_nil_r; auto.
Qed.

(* ---------- restatements used in SyncWriterProps.v ---------- *)
Lemma c02_stored cf T0 wd o : reachable cf T0 wd ->
  exists p q, wd_log wd = p ++ q /\ stored (wd_w wd) o = RSeqs (last_seq o (p ++ q)) (last_seq o p).
Proof.
  intros HR. destruct (stored_prefix cf T0 wd o HR) as (p & q & E & H1 & H2). exists p, q. unfold stored. now rewrite H1, H2.
Qed.
Lemma c02_mono cf T0 wd evs wd' rs o a b a' b' :
  reachable cf T0 wd -> run cf wd evs = (wd', rs) -> nondecreasing o (wd_log wd') ->
  stored (wd_w wd) o = RSeqs a b -> stored (wd_w wd') o = RSeqs a' b' ->
  opt_le a a' /\ opt_le b b' /\ opt_le b' a'.
Proof. intros HR E HN [= <- <-] [= <- <-]. eapply c02; eauto. Qed.
Lemma c04_zero cf T0 wd : reachable cf T0 wd -> w_syncs (wd_w wd) = [] -> w_size (wd_w wd) = 0.
Proof. intros HR E. destruct (c04 _ _ _ HR) as [-> _]. unfold pending_bytes. now rewrite E. Qed.
Lemma c08_stored cf T0 wd o n l1 e l2 : reachable cf T0 wd ->
  (forall e, In e (wd_log wd) -> m_seq (l_msg e) <> None -> m_rows (l_msg e) <> 0) ->
  wd_log wd = l1 ++ e :: l2 -> closes o n e ->
  (forall e' p, In e' (l1 ++ [e]) -> has_rows e' = true -> In p (tags e') -> ~ In p (pending (wd_w wd) (m_url (l_msg e')))) ->
  exists p q, l2 = p ++ q /\ stored (wd_w wd) o = RSeqs (last_seq o (wd_log wd)) (last_seq o (l1 ++ e :: p)).
Proof.
  intros HR HA El Hc Hn. destruct (c08 _ _ _ _ _ _ _ _ HR HA El Hc Hn) as (p & q & E & Hd). exists p, q. split; [auto|].
  unfold stored. rewrite Hd. pose proof (f_inv _ _ (reachable_full _ _ _ HR)) as [_ HL]. now rewrite (L_mem _ _ _ _ _ HL).
Qed.

(* the counterexamples *)
Definition cx_env : env := {| e_now := fun _ => 0; e_sq_ready := fun _ _ => Some (8, 1); e_sq_flush := fun _ _ => Some (8, 1); e_out := fun _ => FOk |}.
Definition cx_cf (syncs : nat) : config := {| cf_lag := 100; cf_bytes := 1000; cf_syncs := syncs; cf_max_rows := 10 |}.
Definition cx_msg (s : option N) (rows : N) : msg :=
  {| m_url := 0%nat; m_origin := 1%nat; m_seq := s; m_schema := [1%nat]; m_batches := [(10 * rows, rows)] |}.
Definition cx_wd8 := fst (run (cx_cf 1) (init (fun _ => []) 0) [EMsg (cx_msg None 3) true 0 cx_env; EMsg (cx_msg (Some 7) 0) true 0 cx_env]).
Lemma c08_counterexample : exists cf T0 wd e l1, reachable cf T0 wd /\ wd_log wd = l1 ++ [e] /\ closes 1 7 e /\
    (forall u, pending (wd_w wd) u = []) /\ (forall e', In e' (wd_log wd) -> l_tx e' = l_tx e) /\
    stored (wd_w wd) 1 = RSeqs (Some 7) None.
Proof.
  exists (cx_cf 1), (fun _ => []), cx_wd8,
    (last (wd_log cx_wd8) {| l_id := 0; l_msg := cx_msg None 3; l_tx := 0 |}), (removelast (wd_log cx_wd8)).
  split; [eapply run_reachable; [apply reach_init|apply surjective_pairing]|].
  split; [vm_compute; reflexivity|].
  split; [split; reflexivity|]. split; [intros u; vm_compute; reflexivity|].
  split; [|vm_compute; reflexivity]. vm_compute. intros e' [<-|[<-|[]]]; reflexivity.
Qed.
Definition cx_wd10 := fst (run (cx_cf 5) (init (fun _ => []) 0) [EMsg (cx_msg None 3) true 0 cx_env]).
Lemma c10_counterexample : exists cf T0 wd u w1 T1 w2 T2 sq, reachable cf T0 wd /\
    flush_syncs sq FCommitFail u (wd_w wd) (wd_T wd) = (w1, T1, SErr) /\
    flush_syncs sq FOk u w1 T1 = (w2, T2, SOk) /\
    pending (wd_w wd) u <> [] /\
    committed (new_commits T0 T2 u) = pending (wd_w wd) u ++ pending (wd_w wd) u.
Proof.
  pose (sq := fun _ : nat => Some (8, 1)).
  pose (r1 := flush_syncs sq FCommitFail 0 (wd_w cx_wd10) (wd_T cx_wd10)).
  pose (r2 := flush_syncs sq FOk 0 (fst (fst r1)) (snd (fst r1))).
  exists (cx_cf 5), (fun _ => []), cx_wd10, 0%nat, (fst (fst r1)), (snd (fst r1)), (fst (fst r2)), (snd (fst r2)), sq.
  split; [eapply run_reachable; [apply reach_init|apply surjective_pairing]|].
  split; [vm_compute; reflexivity|]. split; [vm_compute; reflexivity|]. split; [discriminate|vm_compute; reflexivity].
Qed.
