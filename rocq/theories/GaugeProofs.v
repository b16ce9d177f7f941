(* Proofs about the metrics of the data sync writer. *)
From Coq Require Import List Arith NArith ZArith Bool Lia Sorted.
From Verif Require Import SyncWriterModel SyncWriterSpec SyncWriterProofs SyncWriterLog SyncWriterExtra
  SyncWriterMain GaugeModel GaugeSpec.
Import ListNotations.
Open Scope N_scope.

(* ---------- rows of the queue ---------- *)
Definition rtotal (l : list (url * coll)) : N := fold_right (fun p a => c_rows (snd p) + a) 0 l.
Lemma rtotal_cons p l : rtotal (p :: l) = c_rows (snd p) + rtotal l. Proof. reflexivity. Qed.
Lemma rtotal_app a b : rtotal (a ++ b) = rtotal a + rtotal b.
Proof. induction a as [|p a IH]; [reflexivity|]. cbn [app]. rewrite !rtotal_cons. lia. Qed.
Lemma rtotal_upd k c c' l : get k l = Some c -> rtotal (upd k (fun _ => c') l) + c_rows c = rtotal l + c_rows c'.
Proof.
  induction l as [|[j x] l IH]; [discriminate|]. cbn [get upd]. destruct (Nat.eqb k j).
  - intros [= ->]. rewrite !rtotal_cons. cbn [snd]. lia.
  - intros H; apply IH in H. rewrite !rtotal_cons. cbn [snd]. lia.
Qed.
Lemma del_absent {A} k (l : list (nat * A)) : ~ In k (map fst l) -> del k l = l.
Proof.
  unfold del. induction l as [|[j y] l IH]; intros H; [reflexivity|]. cbn in *. destruct (Nat.eqb_spec k j); [subst; tauto|].
  cbn. f_equal. apply IH. tauto.
Qed.
Lemma rtotal_del k c l : NoDup (map fst l) -> get k l = Some c -> rtotal (del k l) + c_rows c = rtotal l.
Proof.
  induction l as [|[j x] l IH]; [discriminate|]. cbn [map fst]. intros HN. inversion HN as [|? ? HJ HN']; subst.
  cbn [get]. destruct (Nat.eqb_spec k j) as [->|NE].
  - intros [= ->]. unfold del. cbn [filter fst]. rewrite Nat.eqb_refl. cbn [negb].
    fold (del j l). rewrite del_absent by auto. rewrite rtotal_cons. cbn [snd]. lia.
  - intros H. apply IH in H; auto. unfold del in *. cbn [filter fst].
    destruct (Nat.eqb_spec k j) as [|]; [contradiction|]. cbn [negb]. rewrite !rtotal_cons. cbn [snd]. lia.
Qed.

(* ---------- the invariant ---------- *)
Record GInv (w : writer) (g : meters) : Prop := {
  G_bytes : g_mem_bytes g = Z.of_N (total (w_syncs w));
  G_rows : (g_mem_rows g = 2 * (Z.of_N (g_req_rows g) - Z.of_N (g_fl_rows g)) - Z.of_N (rtotal (w_syncs w)))%Z;
  G_crows : g_req_rows g + g_more_rows g = g_fl_rows g + g_sq_rows g + rtotal (w_syncs w);
  G_cbytes : g_req_bytes g + g_more_bytes g = g_fl_bytes g + g_sq_bytes g + total (w_syncs w);
  G_smem : forall o, get o (g_seq_mem g) = option_map f64 (get o (w_mem w));
  G_sdur : forall o, get o (g_seq_dur g) = option_map f64 (get o (w_dur w))
}.

(* ---------- squashing ---------- *)
Record sq_rel (a b a' b' : N) (g g' : meters) : Prop := {
  (* bytes a -> a', rows b -> b' *)
  Q_bytes : (g_mem_bytes g' = g_mem_bytes g - Z.of_N a + Z.of_N a')%Z;
  Q_rows : (g_mem_rows g' = g_mem_rows g + Z.of_N b - Z.of_N b')%Z;
  Q_sqr : g_sq_rows g' + b' + g_more_rows g = g_sq_rows g + b + g_more_rows g';
  Q_sqb : g_sq_bytes g' + a' + g_more_bytes g = g_sq_bytes g + a + g_more_bytes g';
  Q_same : g_req_rows g' = g_req_rows g /\ g_req_bytes g' = g_req_bytes g /\ g_fl_rows g' = g_fl_rows g /\
           g_fl_bytes g' = g_fl_bytes g /\ g_oldest g' = g_oldest g /\ g_seq_mem g' = g_seq_mem g /\
           g_seq_dur g' = g_seq_dur g
}.

Lemma sq_items sq items : forall i size csize crows items' size' csize' crows' ok g,
  squash_items sq i items size csize crows = (items', size', csize', crows', ok) ->
  sq_rel (items_size items) (items_rows items) (items_size items') (items_rows items') g (g_squash_items sq i items g).
Proof.
  induction items as [|it items IH]; intros i size csize crows items' size' csize' crows' ok g E.
  - cbn in E. injection E as <- <- <- <- <-. constructor; cbn; auto 10; lia.
  - cbn [squash_items g_squash_items] in *. destruct (i_squashed it).
    + destruct (squash_items sq (S i) items size csize crows) as [[[[rs s1] s2] s3] ok'] eqn:ER.
      injection E as <- <- <- <- <-.
      apply (IH _ _ _ _ _ _ _ _ _ g) in ER. destruct ER as [H1 H2 H3 H4 H5].
      rewrite !items_size_cons, !items_rows_cons. constructor; auto; lia.
    + destruct (sq i) as [[s r]|].
      * destruct (squash_items sq (S i) items _ _ _) as [[[[r' s1] s2] s3] ok'] eqn:ER.
        injection E as <- <- <- <- <-.
        apply (IH _ _ _ _ _ _ _ _ _ (g_squash_one (sum_size (i_data it)) (sum_rows (i_data it)) s r g)) in ER.
        destruct ER as [H1 H2 H3 H4 H5].
        rewrite !items_size_cons, !items_rows_cons. cbn [i_data].
        rewrite sum_size_single, sum_rows_single. cbn [b_size b_rows].
        set (g1 := g_squash_one (sum_size (i_data it)) (sum_rows (i_data it)) s r g) in *.
        assert (K1 : g_mem_bytes g1 = (g_mem_bytes g - (Z.of_N (sum_size (i_data it)) - Z.of_N s))%Z) by reflexivity.
        assert (K2 : g_mem_rows g1 = (g_mem_rows g + (Z.of_N (sum_rows (i_data it)) - Z.of_N r))%Z) by reflexivity.
        assert (K3 : g_sq_rows g1 = g_sq_rows g + (sum_rows (i_data it) - r)) by reflexivity.
        assert (K4 : g_sq_bytes g1 = g_sq_bytes g + (sum_size (i_data it) - s)) by reflexivity.
        assert (K5 : g_more_rows g1 = g_more_rows g + (r - sum_rows (i_data it))) by reflexivity.
        assert (K6 : g_more_bytes g1 = g_more_bytes g + (s - sum_size (i_data it))) by reflexivity.
        rewrite K1, K2, K3, K4, K5, K6 in *.
        constructor; [lia..|exact H5].
      * injection E as <- <- <- <- <-. constructor; auto 10; lia.
Qed.

Lemma squash_ginv sq u w w' ok g :
  WInv w -> GInv w g -> physical_squashing sq u w = (w', ok) ->
  GInv w' (g_squash sq u w g) /\ g_oldest (g_squash sq u w g) = g_oldest g.
Proof.
  intros HI HG E. destruct (squash_same _ _ _ _ _ HI E) as (SC & HI').
  unfold physical_squashing in E. unfold g_squash.
  destruct (get u (w_syncs w)) as [c|] eqn:Eg; [|injection E as <- <-; auto].
  destruct (squash_items sq 0 (c_items c) (w_size w) (c_size c) (c_rows c)) as [[[[its s1] s2] s3] ok'] eqn:ES.
  pose proof (sq_items _ _ _ _ _ _ _ _ _ _ _ g ES) as [Q1 Q2 Q3 Q4 Q5].
  pose proof (I_coll _ HI _ _ Eg) as (Hs & Hr & Hne & Htx).
  pose proof (total_get _ _ _ Eg) as Htot. rewrite <- (I_size _ HI) in Htot.
  pose proof (squash_items_spec _ _ _ _ _ _ _ _ _ _ _ ES) as HS.
  destruct HS as (_ & _ & E2 & E3 & E4); [lia|lia|lia|].
  injection E as <- <-.
  set (c' := {| c_size := s2; c_rows := s3; c_time := c_time c; c_items := its |}) in *.
  pose proof (total_upd _ _ c' _ Eg) as HT. pose proof (rtotal_upd _ _ c' _ Eg) as HR.
  cbn [c' c_size c_rows] in HT, HR.
  destruct Q5 as (S1 & S2 & S3 & S4 & S5 & S6 & S7). destruct HG as [G1 G2 G3 G4 G5 G6].
  split; [|exact S5].
  constructor; cbn [w_syncs w_mem w_dur].
  - lia.
  - rewrite S1, S3. lia.
  - lia.
  - lia.
  - intros o. now rewrite S6.
  - intros o. now rewrite S7.
Qed.

Lemma ready_ginv cf now sq w w' r g :
  WInv w -> GInv w g -> flush_ready cf now sq w = (w', r) ->
  GInv w' (g_ready cf now sq w g) /\ g_oldest (g_ready cf now sq w g) = g_oldest g.
Proof.
  intros HI HG E. unfold flush_ready in E. unfold g_ready.
  assert (Second : forall w1 r0,
     (if cf_bytes cf <=? w_size w then
        match max_by_size (w_syncs w) with
        | Some (u, _) =>
          let '(w', ok) := physical_squashing sq u w in
          if negb ok then (w', None)
          else if cf_bytes cf <=? w_size w' then (w', Some (Some u))
          else (w', Some (find_many cf (w_syncs w')))
        | None => (w, Some (find_many cf (w_syncs w)))
        end
      else (w, Some (find_many cf (w_syncs w)))) = (w1, r0) ->
     let g' := if cf_bytes cf <=? w_size w then
       match max_by_size (w_syncs w) with Some (u, _) => g_squash sq u w g | None => g end else g in
     GInv w1 g' /\ g_oldest g' = g_oldest g).
  { intros w1 r0 E2. destruct (cf_bytes cf <=? w_size w); [|injection E2 as <- <-; cbn; auto].
    destruct (max_by_size (w_syncs w)) as [[u c]|]; [|injection E2 as <- <-; cbn; auto].
    destruct (physical_squashing sq u w) as [wq ok] eqn:Eq.
    pose proof (squash_ginv _ _ _ _ _ _ HI HG Eq) as HQ.
    destruct ok; cbn [negb] in E2; [destruct (cf_bytes cf <=? w_size wq)|]; injection E2 as <- <-; exact HQ. }
  destruct (w_syncs w) as [|[u c] rest] eqn:Ew.
  - apply (Second _ r). rewrite <- E. reflexivity.
  - destruct (cf_lag cf <=? lag_of now (c_time c)).
    + injection E as <- <-. auto.
    + apply (Second _ r). rewrite <- E. reflexivity.
Qed.

(* ---------- the durable gauge ---------- *)
Lemma get_put {A} k (v : A) m o : get o (put k v m) = if Nat.eqb o k then Some v else get o m.
Proof.
  unfold put. cbn [get]. destruct (Nat.eqb_spec o k) as [|NE]; [reflexivity|].
  induction m as [|[j y] m IH]; [reflexivity|]. cbn [filter fst]. destruct (Nat.eqb_spec k j) as [->|NJ]; cbn [negb].
  - rewrite IH. cbn [get]. destruct (Nat.eqb_spec o j); [contradiction|reflexivity].
  - cbn [get]. destruct (Nat.eqb o j); [reflexivity|exact IH].
Qed.
Lemma get_publish dur base o :
  get o (fold_right (fun p a => put (fst p) (f64 (snd p)) a) base dur) =
  match get o dur with Some s => Some (f64 s) | None => get o base end.
Proof.
  induction dur as [|[k s] dur IH]; [reflexivity|]. cbn [fold_right fst snd get]. rewrite get_put.
  destruct (Nat.eqb o k); [reflexivity|exact IH].
Qed.
Lemma advance_keys txs : forall dur txs' dur' o, advance txs dur = (txs', dur') -> get o dur' = None -> get o dur = None.
Proof.
  induction txs as [|[t x] txs IH]; intros dur txs' dur' o E H; cbn in E; [injection E as <- <-; auto|].
  destruct x as [xo [s|] [|l ls]]; try (injection E as <- <-; exact H).
  pose proof (IH _ _ _ o E H) as H2. rewrite get_put in H2. destruct (Nat.eqb o xo); [discriminate|exact H2].
Qed.

Lemma after_flush_dur u its w o : get o (w_dur (after_flush u its w)) = None -> get o (w_dur w) = None.
Proof.
  unfold after_flush, advance_durable, remove_sync. cbn [w_syncs].
  destruct (get u (w_syncs w)); cbn [w_txs w_dur];
    destruct (advance _ (w_dur w)) as [txs' dur'] eqn:EA; cbn [w_dur]; intros H; exact (advance_keys _ _ _ _ _ EA H).
Qed.
Lemma after_flush_mem u its w : w_mem (after_flush u its w) = w_mem w.
Proof.
  unfold after_flush, advance_durable, remove_sync. cbn [w_syncs].
  destruct (get u (w_syncs w)); cbn [w_txs w_dur]; destruct (advance _ (w_dur w)); reflexivity.
Qed.

Lemma flush_ginv u c w g : WInv w -> GInv w g -> get u (w_syncs w) = Some c ->
  GInv (after_flush u (c_items c) w)
       (g_flushed (c_size c) (c_rows c) (w_dur (after_flush u (c_items c) w)) (g_remove u w g)).
Proof.
  intros HI HG Eg. destruct (after_flush_inv u c w HI Eg) as (_ & _ & Hs).
  pose proof (total_del _ _ _ (I_nodup _ HI) Eg) as HT. pose proof (rtotal_del _ _ _ (I_nodup _ HI) Eg) as HR.
  unfold g_remove. rewrite Eg. destruct HG as [G1 G2 G3 G4 G5 G6].
  constructor; cbn [g_flushed g_mem_bytes g_mem_rows g_req_rows g_fl_rows g_req_bytes g_fl_bytes g_sq_rows
    g_sq_bytes g_more_rows g_more_bytes g_seq_mem g_seq_dur]; rewrite ?Hs.
  - lia.
  - lia.
  - lia.
  - lia.
  - intros o. rewrite after_flush_mem. apply G5.
  - intros o. rewrite get_publish. destruct (get o (w_dur (after_flush u (c_items c) w))) as [s|] eqn:E; [reflexivity|].
    rewrite G6. cbn. now rewrite (after_flush_dur _ _ _ _ E).
Qed.

Lemma syncs_ginv sq out u w w' T T' st g :
  WInv w -> GInv w g -> flush_syncs sq out u w T = (w', T', st) ->
  GInv w' (g_flush_syncs sq u w w' st g) /\ g_oldest (g_flush_syncs sq u w w' st g) = g_oldest g.
Proof.
  intros HI HG EF. unfold flush_syncs in EF. unfold g_flush_syncs.
  destruct (physical_squashing sq u w) as [wq ok] eqn:Eq. cbn [fst].
  destruct (squash_same _ _ _ _ _ HI Eq) as (SC & HIq).
  destruct (squash_ginv _ _ _ _ _ _ HI HG Eq) as (HGq & HO).
  destruct ok; cbn [negb] in EF; [|injection EF as <- <- <-; auto].
  destruct (get u (w_syncs wq)) as [c|] eqn:Eg; [|injection EF as <- <- <-; auto].
  pose proof (I_coll _ HIq _ _ Eg) as (_ & _ & Hne & _).
  destruct out; [| injection EF as <- <- <-; auto | |];
    (destruct (commit_info wq _ (c_items c)) as [info|]; [|injection EF as <- <- <-; auto]);
    (destruct (c_items c) as [|it0 its] eqn:Eits; [contradiction|]);
    injection EF as <- <- <-; auto.
  change (advance_durable _) with (after_flush u (it0 :: its) wq). rewrite <- Eits.
  split; [now apply flush_ginv|].
  unfold g_flushed, g_remove. rewrite Eg. cbn. exact HO.
Qed.

Lemma loop_ginv cf e T0 log nid : forall fuel i w T w' T' st g,
  WInv w -> LInv T0 w T log nid -> GInv w g -> flush_loop cf e fuel i w T = Some (w', T', st) ->
  GInv w' (g_loop cf e fuel i w T g).
Proof.
  induction fuel as [|fuel IH]; intros i w T w' T' st g HI HL HG E; [discriminate|].
  cbn [flush_loop g_loop] in *.
  destruct (flush_ready cf (e_now e i) (e_sq_ready e i) w) as [w1 r] eqn:ER.
  destruct (flush_ready_same _ _ _ _ _ _ HI ER) as (SC & HI1 & Hget).
  pose proof (LInv_same_core _ _ _ _ _ _ SC HL) as HL1.
  destruct (ready_ginv _ _ _ _ _ _ _ HI HG ER) as (HG1 & _).
  destruct r as [[u|]|]; [|injection E as <- <- <-; auto..].
  destruct (flush_syncs (e_sq_flush e i) (e_out e i) u w1 T) as [[w2 T2] st2] eqn:EF.
  destruct (flush_syncs_inv _ _ _ _ _ _ _ _ _ _ _ HI1 HL1 EF) as (HI2 & HL2 & _).
  destruct (syncs_ginv _ _ _ _ _ _ _ _ _ HI1 HG1 EF) as (HG2 & _).
  destruct st2; [eapply IH; eauto|injection E as <- <- <-; auto..].
Qed.

Lemma set_oldest_ginv w x g : GInv w g -> GInv w (set_oldest x g).
Proof. intros [G1 G2 G3 G4 G5 G6]. constructor; auto. Qed.

Lemma flush_ginv_all cf e T0 log nid w T w' T' st g :
  WInv w -> LInv T0 w T log nid -> GInv w g -> flush cf e w T = Some (w', T', st) -> GInv w' (g_flush cf e w T g).
Proof.
  intros HI HL HG E. unfold g_flush. rewrite E. unfold flush in E.
  pose proof (loop_ginv _ _ _ _ _ _ _ _ _ _ _ _ _ HI HL HG E) as H.
  destruct st; auto. now apply set_oldest_ginv.
Qed.

(* ---------- enqueue ---------- *)
Lemma m_size_tag id m : sum_size (tag id 0 (m_batches m)) = m_size m.
Proof. apply sum_size_tag. Qed.
Lemma m_rows_tag id m : sum_rows (tag id 0 (m_batches m)) = m_rows m.
Proof. apply sum_rows_tag. Qed.

Lemma enqueue_ginv cf now id m w w' st g :
  WInv w -> GInv w g -> enqueue_sync cf now id m w = (w', st) -> st <> SPanic -> GInv w' (g_enqueue m w' st g).
Proof.
  intros HI HG E HP. unfold g_enqueue. destruct st; [| |contradiction].
  2:{ apply enqueue_err in E. destruct E as [-> _]. exact HG. }
  unfold enqueue_sync in E. destruct (upsert_tx w m) as [[[t txs] next]|]; [|discriminate].
  pose proof (m_size_tag id m) as HS. pose proof (m_rows_tag id m) as HR.
  destruct HG as [G1 G2 G3 G4 G5 G6].
  assert (Seq : forall o, get o (g_seq_mem (match m_seq m with Some s => g_memory (m_origin m) s g | None => g end))
     = option_map f64 (get o (match m_seq m with Some s => put (m_origin m) s (w_mem w) | None => w_mem w end))).
  { intros o. destruct (m_seq m) as [s|]; [|apply G5]. cbn [g_memory g_seq_mem]. rewrite !get_put.
    destruct (Nat.eqb o (m_origin m)); [reflexivity|apply G5]. }
  assert (Fin : forall l, total l = total (w_syncs w) + m_size m -> rtotal l = rtotal (w_syncs w) + m_rows m ->
    w_syncs w' = l -> w_dur w' = w_dur w ->
    w_mem w' = match m_seq m with Some s => put (m_origin m) s (w_mem w) | None => w_mem w end ->
    GInv w' (match m_seq m with Some s => g_memory (m_origin m) s (g_added m w' (g_request m g))
                              | None => g_added m w' (g_request m g) end)).
  { intros l HL HLr E1 E2 E3.
    destruct (m_seq m) as [s|]; constructor; cbn [g_memory g_added g_request g_mem_bytes g_mem_rows g_req_rows g_fl_rows
      g_req_bytes g_fl_bytes g_sq_rows g_sq_bytes g_more_rows g_more_bytes g_seq_mem g_seq_dur];
      rewrite ?E1, ?E2, ?E3; auto; lia. }
  destruct (N.eqb_spec (m_rows m) 0) as [E0|E0].
  - injection E as <-. destruct (m_seq m) as [s|] eqn:Es; constructor; cbn; auto.
  - destruct (get (m_url m) (w_syncs w)) as [c|] eqn:Eg.
    + destruct (coll_append cf t (m_schema m) (tag id 0 (m_batches m)) c) as [c'|] eqn:Ec; [|discriminate].
      injection E as <-.
      assert (Hc : c_size c' = c_size c + m_size m /\ c_rows c' = c_rows c + m_rows m).
      { unfold coll_append in Ec. destruct (last_opt (c_items c)); [|discriminate]. injection Ec as <-. cbn [c_size c_rows].
        rewrite HS, HR. auto. }
      pose proof (total_upd _ _ c' _ Eg). pose proof (rtotal_upd _ _ c' _ Eg).
      eapply Fin; cbn [w_syncs w_dur w_mem]; [| |reflexivity..]; lia.
    + injection E as <-. eapply Fin; cbn [w_syncs w_dur w_mem]; [| |reflexivity..].
      * rewrite total_app, total_single. cbn [c_size]. lia.
      * rewrite rtotal_app, rtotal_cons. cbn. lia.
Qed.

(* ---------- events ---------- *)
Lemma metered_reachable cf T0 wd g : metered cf T0 wd g -> reachable cf T0 wd.
Proof. induction 1; [constructor|econstructor; eauto]. Qed.

Lemma enq_world cf T0 wd m now w1 :
  reachable cf T0 wd -> ~ is_probe m -> enqueue_sync cf now (wd_id wd) m (wd_w wd) = (w1, SOk) ->
  exists t, WInv w1 /\ LInv T0 w1 (wd_T wd) (wd_log wd ++ [{| l_id := wd_id wd; l_msg := m; l_tx := t |}]) (S (wd_id wd)).
Proof.
  intros HR Hnp EQ.
  pose proof (f_inv _ _ (reachable_full _ _ _ HR)) as [HI HL].
  pose proof (probe_false _ (not_probe_test _ Hnp)) as Hprobe.
  destruct (enqueue_inv _ _ _ _ _ _ _ HI Hprobe EQ) as [(X & _)|(_ & HI1 & t & Hq)]; [discriminate|].
  exists t. split; [exact HI1|]. exact (enqueue_log _ _ _ _ _ _ _ _ _ HI HL Hprobe HI1 Hq).
Qed.

Lemma step_ginv cf T0 wd ev wd' r g :
  reachable cf T0 wd -> GInv (wd_w wd) g -> step cf wd ev = (wd', r) -> GInv (wd_w wd') (g_step cf wd ev g).
Proof.
  intros HR HG E. pose proof (f_inv _ _ (reachable_full _ _ _ HR)) as [HI HL].
  destruct ev as [m lock now e|e|u]; cbn [step g_step] in *.
  - destruct (probe_dec m) as [Hp|Hnp].
    + apply probe_test in Hp. rewrite Hp in *. injection E as <- <-. exact HG.
    + pose proof (probe_false _ (not_probe_test _ Hnp)) as Hprobe.
      rewrite (not_probe_test _ Hnp) in *. destruct lock; cbn [negb] in *; [|injection E as <- <-; exact HG].
      destruct (enqueue_sync cf now (wd_id wd) m (wd_w wd)) as [w1 st] eqn:EQ.
      destruct (enqueue_inv _ _ _ _ _ _ _ HI Hprobe EQ) as [(-> & -> & _)|(-> & HI1 & t & Hq)].
      * injection E as <- <-. exact HG.
      * pose proof (enqueue_log _ _ _ _ _ _ _ _ _ HI HL Hprobe HI1 Hq) as HL1.
        assert (HG1 : GInv w1 (g_enqueue m w1 SOk g)) by (apply (enqueue_ginv _ _ _ _ _ _ _ _ HI HG EQ); discriminate).
        destruct (flush_inv _ cf e _ _ _ _ HI1 HL1) as (w2 & T2 & st & EF & _).
        rewrite EF in E. injection E as <- <-. cbn [wd_w].
        exact (flush_ginv_all _ _ _ _ _ _ _ _ _ _ _ HI1 HL1 HG1 EF).
  - destruct (flush_inv _ cf e _ _ _ _ HI HL) as (w2 & T2 & st & EF & _).
    rewrite EF in E. injection E as <- <-. cbn [wd_w].
    exact (flush_ginv_all _ _ _ _ _ _ _ _ _ _ _ HI HL HG EF).
  - destruct (wd_T wd u); injection E as <- <-; exact HG.
Qed.

Lemma metered_ginv cf T0 wd g : metered cf T0 wd g -> GInv (wd_w wd) g.
Proof.
  induction 1 as [id0|wd g ev wd' r H IH E].
  - constructor; reflexivity.
  - exact (step_ginv _ _ _ _ _ _ _ (metered_reachable _ _ _ _ H) IH E).
Qed.

(* pending amounts as the specification states them *)
Lemma rtotal_pending w : (forall u c, In (u, c) (w_syncs w) -> c_rows c = sum_rows (flat_map i_data (c_items c))) ->
  rtotal (w_syncs w) = pending_rows w.
Proof.
  unfold pending_rows. generalize (w_syncs w) as l. induction l as [|[u c] l IH]; intros H; [reflexivity|].
  rewrite rtotal_cons. cbn [fold_right snd]. rewrite (H u c) by (now left). f_equal. apply IH.
  intros v d Hd. apply (H v d). now right.
Qed.

Lemma metered_facts cf T0 wd g : metered cf T0 wd g ->
  GInv (wd_w wd) g /\ total (w_syncs (wd_w wd)) = pending_bytes (wd_w wd) /\
  rtotal (w_syncs (wd_w wd)) = pending_rows (wd_w wd).
Proof.
  intros H. pose proof (metered_reachable _ _ _ _ H) as HR. destruct (c04 _ _ _ HR) as [E1 E2].
  pose proof (f_inv _ _ (reachable_full _ _ _ HR)) as [HI _].
  split; [exact (metered_ginv _ _ _ _ H)|]. split.
  - rewrite <- (I_size _ HI). exact E1.
  - apply rtotal_pending. intros u c Hc. apply (E2 u c Hc).
Qed.

(* ---------- the age gauge ---------- *)
Lemma first_time_oldest l : StronglySorted N.le (map (fun p : nat * coll => c_time (snd p)) l) ->
  (l = [] /\ first_time l = 0) \/
  ((exists u c, In (u, c) l /\ c_time c = first_time l) /\ forall u c, In (u, c) l -> first_time l <= c_time c).
Proof.
  destruct l as [|[u c] l]; intros H; [left; auto|right]. cbn [first_time]. split.
  - exists u, c. split; [now left|reflexivity].
  - cbn in H. inversion H as [|? ? _ HF]; subst. rewrite Forall_forall in HF.
    intros v d [[= -> ->]|Hd]; [lia|]. apply HF. apply in_map_iff. exists (v, d). auto.
Qed.

Lemma metered_at_both cf T0 t wd g : metered_at cf T0 t wd g -> reachable_at cf T0 t wd /\ metered cf T0 wd g.
Proof.
  induction 1 as [id0 t|t wd g ev wd' r t' H [I1 I2] HC E]; [split; constructor|].
  split; econstructor; eauto.
Qed.

Lemma oldest_after cf T0 t wd g ev wd' r t' :
  metered_at cf T0 t wd g -> clocked t ev t' -> step cf wd ev = (wd', r) -> flushes_succeed cf wd ev r ->
  shows_oldest (wd_w wd') (g_oldest (g_step cf wd ev g)).
Proof.
  intros H HC E HF. destruct (metered_at_both _ _ _ _ _ H) as [HA HM].
  pose proof (metered_reachable _ _ _ _ HM) as HR.
  assert (HS : time_inv t' (wd_w wd')) by (apply (reachable_at_time cf T0); eapply reach_at_step; eauto).
  assert (Hold : g_oldest (g_step cf wd ev g) = first_time (w_syncs (wd_w wd'))).
  { destruct ev as [m lock now e|e|u]; cbn [flushes_succeed] in HF; [| |contradiction].
    - destruct HF as (Hnp & a & b & ->).
      destruct (step_accepted _ _ _ _ _ _ _ _ _ HR Hnp E) as (w1 & t1 & T2 & st & HI1 & Hq & HL1 & EF & _ & _ & _ & Er); [discriminate..|].
      cbn [step g_step] in *. rewrite (not_probe_test _ Hnp) in *. destruct lock; cbn [negb] in *; [|discriminate].
      destruct (enqueue_sync cf now (wd_id wd) m (wd_w wd)) as [w1' st1].
      destruct st1; [|discriminate..].
      destruct (flush cf e w1' (wd_T wd)) as [[[w2 T2'] st2]|] eqn:EF'; [|discriminate].
      injection E as <- E. cbn [wd_w]. unfold g_flush. rewrite EF'. destruct st2; [reflexivity|discriminate..].
    - destruct HF as (w2 & T2 & EF). cbn [step g_step] in *. rewrite EF in E. injection E as <- <-. cbn [wd_w].
      unfold g_flush. now rewrite EF. }
  rewrite Hold. destruct HS as [HS _]. unfold shows_oldest. exact (first_time_oldest _ HS).
Qed.

(* the loop of flush does not touch the age gauge *)
Lemma loop_oldest cf e T0 log nid : forall fuel i w T w' T' st g,
  WInv w -> LInv T0 w T log nid -> GInv w g -> flush_loop cf e fuel i w T = Some (w', T', st) ->
  g_oldest (g_loop cf e fuel i w T g) = g_oldest g.
Proof.
  induction fuel as [|fuel IH]; intros i w T w' T' st g HI HL HG E; [discriminate|].
  cbn [flush_loop g_loop] in *.
  destruct (flush_ready cf (e_now e i) (e_sq_ready e i) w) as [w1 r] eqn:ER.
  destruct (flush_ready_same _ _ _ _ _ _ HI ER) as (SC & HI1 & Hget).
  pose proof (LInv_same_core _ _ _ _ _ _ SC HL) as HL1.
  destruct (ready_ginv _ _ _ _ _ _ _ HI HG ER) as (HG1 & HO1).
  destruct r as [[u|]|]; [|exact HO1..].
  destruct (flush_syncs (e_sq_flush e i) (e_out e i) u w1 T) as [[w2 T2] st2] eqn:EF.
  destruct (flush_syncs_inv _ _ _ _ _ _ _ _ _ _ _ HI1 HL1 EF) as (HI2 & HL2 & _).
  destruct (syncs_ginv _ _ _ _ _ _ _ _ _ HI1 HG1 EF) as (HG2 & HO2).
  destruct st2; [|congruence..].
  rewrite (IH _ _ _ _ _ _ _ HI2 HL2 HG2 E). congruence.
Qed.
Lemma oldest_failed cf T0 t wd g m now e wd' r t' w1 :
  metered_at cf T0 t wd g -> clocked t (EMsg m true now e) t' -> ~ is_probe m -> m_rows m <> 0 ->
  enqueue_sync cf now (wd_id wd) m (wd_w wd) = (w1, SOk) ->
  step cf wd (EMsg m true now e) = (wd', r) -> (forall a b, r <> RSeqs a b) ->
  shows_oldest w1 (g_oldest (g_step cf wd (EMsg m true now e) g)).
Proof.
  intros H HC Hnp Hrows EQ E HF. destruct (metered_at_both _ _ _ _ _ H) as [HA HM].
  pose proof (metered_reachable _ _ _ _ HM) as HR. pose proof (metered_ginv _ _ _ _ HM) as HG.
  pose proof (f_inv _ _ (reachable_full _ _ _ HR)) as [HI HL].
  pose proof (probe_false _ (not_probe_test _ Hnp)) as Hprobe.
  destruct (enqueue_inv _ _ _ _ _ _ _ HI Hprobe EQ) as [(X & _)|(_ & HI1 & tx & Hq)]; [discriminate|].
  pose proof (enqueue_log _ _ _ _ _ _ _ _ _ HI HL Hprobe HI1 Hq) as HL1.
  assert (HG1 : GInv w1 (g_enqueue m w1 SOk g)) by (apply (enqueue_ginv _ _ _ _ _ _ _ _ HI HG EQ); discriminate).
  assert (HT : time_inv now w1).
  { apply (enqueue_time _ _ _ _ _ _ t Hq); [cbn in HC; lia|]. exact (reachable_at_time _ _ _ _ HA). }
  cbn [step g_step] in *. rewrite (not_probe_test _ Hnp) in *. cbn [negb] in *. rewrite EQ in *.
  destruct (flush cf e w1 (wd_T wd)) as [[[w2 T2] st]|] eqn:EF; [|].
  - injection E as <- <-. unfold g_flush. rewrite EF.
    assert (HO : g_oldest (g_loop cf e (S (length (w_syncs w1))) 0 w1 (wd_T wd) (g_enqueue m w1 SOk g)) = first_time (w_syncs w1)).
    { unfold flush in EF. rewrite (loop_oldest _ _ _ _ _ _ _ _ _ _ _ _ _ HI1 HL1 HG1 EF). cbn [g_enqueue].
      destruct (N.eqb_spec (m_rows m) 0); [contradiction|]. destruct (m_seq m); reflexivity. }
    destruct st; [exfalso; eapply HF; reflexivity| |]; rewrite HO; destruct HT as [HS _]; exact (first_time_oldest _ HS).
  - unfold g_flush. rewrite EF. destruct (flush_inv _ cf e _ _ _ _ HI1 HL1) as (w2 & T2 & st & EF' & _). congruence.
Qed.

(* ---------- floats ---------- *)
Lemma pow_pos k : 0 < 2 ^ k. Proof. apply N.neq_0_lt_0, N.pow_nonzero. discriminate. Qed.

Lemma size_le n : N.size n <= 53 <-> n < 2 ^ 53.
Proof.
  destruct (N.eq_dec n 0) as [->|H0]; [cbn; split; intros; [reflexivity|discriminate]|].
  split; intros H.
  - pose proof (N.size_gt n) as G. eapply N.lt_le_trans; [exact G|]. apply N.pow_le_mono_r; [discriminate|exact H].
  - rewrite N.size_log2 by exact H0. apply N.le_succ_l. apply N.log2_lt_pow2; [lia|exact H].
Qed.

Lemma f64_exact n : n <= 2 ^ 53 -> f64 n = n.
Proof.
  intros H. unfold f64. destruct (N.eqb_spec (N.size n - 53) 0) as [E|E]; [reflexivity|].
  assert (~ n < 2 ^ 53) as X by (intros L; apply size_le in L; lia).
  assert (n = 2 ^ 53) as -> by lia. reflexivity.
Qed.

(* the rounding of a number with more than 53 bits *)
Lemma f64_round n k : k = N.size n - 53 -> k <> 0 ->
  2 ^ (52 + k) <= n /\ n < 2 ^ (53 + k) /\
  (exists q, f64 n = q * 2 ^ k /\ q <= 2 ^ 53) /\
  forall m, (distance (f64 n) n <= distance (m * 2 ^ k) n)%Z.
Proof.
  intros Ek Hk. assert (H0 : n <> 0) by (intros ->; cbn in Ek; lia).
  pose proof (N.size_gt n) as Gt. pose proof (N.size_log2 n H0) as Hl.
  pose proof (proj1 (N.log2_spec n ltac:(lia))) as Gl.
  replace (N.size n) with (53 + k) in Gt by lia.
  replace (N.log2 n) with (52 + k) in Gl by lia.
  split; [exact Gl|]. split; [exact Gt|].
  pose proof (pow_pos k) as P. pose proof (N.div_mod n (2 ^ k) ltac:(lia)) as DM.
  pose proof (N.mod_lt n (2 ^ k) ltac:(lia)) as ML.
  assert (HH : 2 ^ k = 2 * 2 ^ (k - 1)) by (rewrite <- N.pow_succ_r'; f_equal; lia).
  assert (Q : n / 2 ^ k < 2 ^ 53).
  { apply N.div_lt_upper_bound; [lia|]. rewrite <- N.pow_add_r. now rewrite (N.add_comm k). }
  assert (S : exists q, f64 n = q * 2 ^ k /\ q <= 2 ^ 53 /\
     ((q = n / 2 ^ k /\ n mod 2 ^ k <= 2 ^ (k - 1)) \/ (q = n / 2 ^ k + 1 /\ 2 ^ (k - 1) <= n mod 2 ^ k))).
  { unfold f64. rewrite <- Ek. destruct (N.eqb_spec k 0); [contradiction|]. cbv zeta.
    destruct (N.ltb_spec (n mod 2 ^ k) (2 ^ (k - 1))).
    - exists (n / 2 ^ k). repeat split; [lia|]. left. split; [reflexivity|lia].
    - destruct (N.ltb_spec (2 ^ (k - 1)) (n mod 2 ^ k)).
      + exists (n / 2 ^ k + 1). repeat split; [lia|]. right. split; [reflexivity|lia].
      + destruct (N.even (n / 2 ^ k)).
        * exists (n / 2 ^ k). repeat split; [lia|]. left. split; [reflexivity|lia].
        * exists (n / 2 ^ k + 1). repeat split; [lia|]. right. split; [reflexivity|lia]. }
  destruct S as (q & Ef & Hq & HC). split; [exists q; auto|].
  intros m. rewrite Ef. unfold distance. clear Ef Gl Gt Hl Q.
  set (p := 2 ^ k) in *. set (d := n / p) in *. set (r := n mod p) in *. set (h := 2 ^ (k - 1)) in *.
  clearbody p d r h.
  assert (m <= d \/ d + 1 <= m) as [M|M] by lia.
  - assert (m * p <= d * p) by (apply N.mul_le_mono_r; lia).
    destruct HC as [[-> C]|[-> C]]; lia.
  - assert ((d + 1) * p <= m * p) by (apply N.mul_le_mono_r; lia).
    destruct HC as [[-> C]|[-> C]]; lia.
Qed.

Lemma f64_nearest n : double (f64 n) /\ forall d, double d -> (distance (f64 n) n <= distance d n)%Z.
Proof.
  destruct (N.eq_dec (N.size n - 53) 0) as [E|E].
  - assert (Hn : n < 2 ^ 53) by (apply size_le; lia).
    rewrite (f64_exact n) by lia. split.
    + exists n, 0. split; [lia|]. rewrite N.pow_0_r. lia.
    + intros d _. unfold distance. lia.
  - destruct (f64_round n _ eq_refl E) as (Lo & Hi & (q & Ef & Hq) & Near).
    set (k := N.size n - 53) in *. split; [exists q, k; auto|].
    intros d (p & j & Hp & ->).
    assert (Lo2 : 2 ^ (52 + k) = 2 ^ 52 * 2 ^ k) by apply N.pow_add_r.
    destruct (N.lt_ge_cases (p * 2 ^ j) (2 ^ (52 + k))) as [L|G].
    + pose proof (Near (2 ^ 52)) as H. rewrite <- Lo2 in H. unfold distance in *. lia.
    + (* a float this large is a multiple of 2^k *)
      assert (Hm : exists m, p * 2 ^ j = m * 2 ^ k).
      { destruct (N.le_gt_cases k j) as [J|J].
        - exists (p * 2 ^ (j - k)). rewrite <- N.mul_assoc, <- N.pow_add_r. do 2 f_equal. lia.
        - assert (j = k - 1) as ->.
          { destruct (N.lt_ge_cases j (k - 1)) as [X|X]; [exfalso|lia].
            assert (2 ^ j * 2 <= 2 ^ (k - 1)).
            { rewrite N.mul_comm, <- N.pow_succ_r'. apply N.pow_le_mono_r; [discriminate|lia]. }
            assert (p * 2 ^ j <= 2 ^ 53 * 2 ^ j) by (apply N.mul_le_mono_r; exact Hp).
            assert (2 ^ (52 + k) = 2 ^ 53 * 2 ^ (k - 1)) by (rewrite <- N.pow_add_r; f_equal; lia).
            pose proof (pow_pos j). change (2 ^ 53) with 9007199254740992 in *. lia. }
          assert (HH : 2 ^ k = 2 * 2 ^ (k - 1)) by (rewrite <- N.pow_succ_r'; f_equal; lia).
          assert (2 ^ (52 + k) = 2 ^ 53 * 2 ^ (k - 1)) as X by (rewrite <- N.pow_add_r; f_equal; lia).
          rewrite X in G. apply N.mul_le_mono_pos_r in G; [|apply pow_pos].
          assert (p = 2 ^ 53) as -> by lia. exists (2 ^ 52). rewrite HH.
          change (2 ^ 53) with (2 ^ 52 * 2). now rewrite N.mul_assoc. }
      destruct Hm as (m & ->). apply Near.
Qed.

(* ---------- monotone counters, and what counts as a request ---------- *)
Record grows (g g' : meters) : Prop := {
  W_rr : g_req_rows g <= g_req_rows g'; W_rb : g_req_bytes g <= g_req_bytes g';
  W_fr : g_fl_rows g <= g_fl_rows g'; W_fb : g_fl_bytes g <= g_fl_bytes g';
  W_sr : g_sq_rows g <= g_sq_rows g'; W_sb : g_sq_bytes g <= g_sq_bytes g'
}.
Lemma grows_refl g : grows g g. Proof. constructor; lia. Qed.
Lemma grows_trans a b c : grows a b -> grows b c -> grows a c.
Proof. intros [A1 A2 A3 A4 A5 A6] [B1 B2 B3 B4 B5 B6]. constructor; lia. Qed.
(* the request counters are not touched *)
Definition same_req (g g' : meters) : Prop := g_req_rows g' = g_req_rows g /\ g_req_bytes g' = g_req_bytes g.

Lemma squash_items_mono sq items : forall i g,
  grows g (g_squash_items sq i items g) /\ same_req g (g_squash_items sq i items g).
Proof.
  induction items as [|it items IH]; intros i g; cbn [g_squash_items]; [split; [apply grows_refl|split; reflexivity]|].
  destruct (i_squashed it); [apply IH|]. destruct (sq i) as [[s r]|]; [|split; [apply grows_refl|split; reflexivity]].
  destruct (IH (S i) (g_squash_one (sum_size (i_data it)) (sum_rows (i_data it)) s r g)) as [H1 [H2 H3]]. split.
  - eapply grows_trans; [|exact H1]. constructor; cbn; lia.
  - split; [rewrite H2|rewrite H3]; reflexivity.
Qed.
Lemma squash_mono sq u w g : grows g (g_squash sq u w g) /\ same_req g (g_squash sq u w g).
Proof. unfold g_squash. destruct (get u (w_syncs w)); [apply squash_items_mono|split; [apply grows_refl|split; reflexivity]]. Qed.
Lemma ready_mono cf now sq w g : grows g (g_ready cf now sq w g) /\ same_req g (g_ready cf now sq w g).
Proof.
  assert (R : grows g g /\ same_req g g) by (split; [apply grows_refl|split; reflexivity]).
  unfold g_ready.
  assert (S : forall g', g' = (if cf_bytes cf <=? w_size w then
       match max_by_size (w_syncs w) with Some (u, _) => g_squash sq u w g | None => g end else g) -> grows g g' /\ same_req g g').
  { intros g' ->. destruct (_ <=? _); [|exact R]. destruct (max_by_size _) as [[u c]|]; [apply squash_mono|exact R]. }
  destruct (w_syncs w) as [|[u c] l]; [now apply S|]. destruct (cf_lag cf <=? lag_of now (c_time c)); [exact R|now apply S].
Qed.
Lemma syncs_mono sq u w w' st g : grows g (g_flush_syncs sq u w w' st g) /\ same_req g (g_flush_syncs sq u w w' st g).
Proof.
  destruct (squash_mono sq u w g) as [H1 H2]. unfold g_flush_syncs.
  destruct st; [|split; assumption..]. destruct (get u _) as [c|] eqn:Eg; [|split; assumption].
  unfold g_remove. rewrite Eg. destruct H2 as [H2 H3].
  destruct (c_items c); (split; [eapply grows_trans; [exact H1|constructor; cbn; lia]|split; cbn; assumption]).
Qed.
Lemma loop_mono cf e : forall fuel i w T g, grows g (g_loop cf e fuel i w T g) /\ same_req g (g_loop cf e fuel i w T g).
Proof.
  induction fuel as [|fuel IH]; intros i w T g; cbn [g_loop]; [split; [apply grows_refl|split; reflexivity]|].
  destruct (ready_mono cf (e_now e i) (e_sq_ready e i) w g) as [H1 [H2 H2b]].
  destruct (flush_ready cf (e_now e i) (e_sq_ready e i) w) as [w1 [[u|]|]]; [|split; [assumption|split; assumption]..].
  destruct (flush_syncs (e_sq_flush e i) (e_out e i) u w1 T) as [[w2 T2] st].
  set (g1 := g_ready cf (e_now e i) (e_sq_ready e i) w g) in *.
  destruct (syncs_mono (e_sq_flush e i) u w1 w2 st g1) as [H3 [H4 H4b]].
  destruct st; [|split; [eapply grows_trans; eassumption|split; congruence]..].
  destruct (IH (S i) w2 T2 (g_flush_syncs (e_sq_flush e i) u w1 w2 SOk g1)) as [H5 [H6 H6b]].
  split; [|split; congruence]. eapply grows_trans; [exact H1|]. eapply grows_trans; [exact H3|exact H5].
Qed.
Lemma flush_mono cf e w T g : grows g (g_flush cf e w T g) /\ same_req g (g_flush cf e w T g).
Proof.
  unfold g_flush. destruct (loop_mono cf e (S (length (w_syncs w))) 0 w T g) as [H1 [H2 H3]].
  destruct (flush cf e w T) as [[[w' T'] [| |]]|]; try (split; [assumption|split; assumption]).
  split; [|split; cbn; assumption]. eapply grows_trans; [exact H1|]. constructor; cbn; lia.
Qed.
Lemma enqueue_mono m w' st g : grows g (g_enqueue m w' st g).
Proof.
  unfold g_enqueue. destruct st; [|apply grows_refl|constructor; cbn; lia].
  destruct (m_rows m =? 0); destruct (m_seq m); constructor; cbn; lia.
Qed.
Lemma step_grows cf wd ev g :
  let g' := g_step cf wd ev g in
  g_req_rows g <= g_req_rows g' /\ g_req_bytes g <= g_req_bytes g' /\
  g_fl_rows g <= g_fl_rows g' /\ g_fl_bytes g <= g_fl_bytes g' /\
  g_sq_rows g <= g_sq_rows g' /\ g_sq_bytes g <= g_sq_bytes g'.
Proof.
  cbv zeta. assert (G : grows g (g_step cf wd ev g)); [|destruct G; auto 10].
  destruct ev as [m lock now e|e|u]; cbn [g_step]; [|apply flush_mono|apply grows_refl].
  destruct (_ && _); [apply grows_refl|]. destruct lock; cbn [negb]; [|apply grows_refl].
  destruct (enqueue_sync cf now (wd_id wd) m (wd_w wd)) as [w1 st].
  destruct st; [eapply grows_trans; [apply enqueue_mono|apply flush_mono]|apply enqueue_mono..].
Qed.

Lemma step_requests cf T0 wd ev wd' r g : reachable cf T0 wd -> step cf wd ev = (wd', r) ->
  let g' := g_step cf wd ev g in
  match ev with
  | EMsg m _ _ _ =>
      if match r with RBusy | RInvalid => true | _ => false end
      then g_req_rows g' = g_req_rows g /\ g_req_bytes g' = g_req_bytes g
      else g_req_rows g' = g_req_rows g + m_rows m /\
           (m_rows m <> 0 -> g_req_bytes g' = g_req_bytes g + m_size m)
  | _ => g_req_rows g' = g_req_rows g /\ g_req_bytes g' = g_req_bytes g
  end.
Proof.
  intros HR E. cbv zeta. pose proof (f_inv _ _ (reachable_full _ _ _ HR)) as [HI HL].
  destruct ev as [m lock now e|e|u]; cbn [g_step step] in *; [|apply flush_mono|split; reflexivity].
  destruct (probe_dec m) as [Hp|Hnp].
  - pose proof (proj2 (probe_test m) Hp) as Ht. rewrite Ht in *. injection E as <- <-. cbn [stored].
    destruct Hp as [-> _]. split; [lia|intros []; reflexivity].
  - pose proof (probe_false _ (not_probe_test _ Hnp)) as Hprobe.
    rewrite (not_probe_test _ Hnp) in *. destruct lock; cbn [negb] in *; [|injection E as <- <-; auto].
    destruct (enqueue_sync cf now (wd_id wd) m (wd_w wd)) as [w1 st] eqn:EQ.
    destruct (enqueue_inv _ _ _ _ _ _ _ HI Hprobe EQ) as [(-> & -> & _)|(-> & HI1 & t & Hq)].
    + injection E as <- <-. auto.
    + pose proof (enqueue_log _ _ _ _ _ _ _ _ _ HI HL Hprobe HI1 Hq) as HL1.
      destruct (flush_inv _ cf e _ _ _ _ HI1 HL1) as (w2 & T2 & st & EF & _).
      rewrite EF in E. injection E as <- <-.
      destruct (flush_mono cf e w1 (wd_T wd) (g_enqueue m w1 SOk g)) as [_ [K1 K2]].
      rewrite K1, K2. unfold g_enqueue, stored.
      destruct (N.eqb_spec (m_rows m) 0) as [Z|Z]; destruct st; destruct (m_seq m); cbn [g_memory g_added g_request g_req_rows g_req_bytes];
        (split; [rewrite ?Z; lia|intros; (reflexivity || contradiction)]).
Qed.
