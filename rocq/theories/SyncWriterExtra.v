(* Further invariants of the sync writer, and the lemmas behind the property theorems. *)
From Coq Require Import List Arith NArith Bool Lia Sorted.
From Coq Require Import ZifyBool ZifyNat ZifyN.
From Verif Require Import SyncWriterModel SyncWriterSpec SyncWriterProofs SyncWriterLog.
Import ListNotations.
Open Scope N_scope.

(* properties of the writer preserved by squashing and by successful flushes *)
Section Preserve.
  Variable P : writer -> Prop.
  Hypothesis P_same : forall w w', same_core w w' -> P w -> P w'.
  Hypothesis P_after : forall w u c, WInv w -> get u (w_syncs w) = Some c -> P w ->
                                     P (after_flush u (c_items c) w).

  Lemma flush_syncs_P sq out u w T w' T' st :
    WInv w -> P w -> flush_syncs sq out u w T = (w', T', st) -> P w'.
  Proof.
    intros HI HP E. unfold flush_syncs in E.
    destruct (physical_squashing sq u w) as [w1 ok] eqn:Eq.
    destruct (squash_same _ _ _ _ _ HI Eq) as (SC & HI1).
    pose proof (P_same _ _ SC HP) as HP1.
    destruct ok; cbn [negb] in E; [|injection E as <- <- <-; auto].
    destruct (get u (w_syncs w1)) as [c|] eqn:Eg; [|injection E as <- <- <-; auto].
    pose proof (I_coll _ HI1 _ _ Eg) as (_ & _ & Hne & _).
    destruct out; [| injection E as <- <- <-; auto | |];
      (destruct (commit_info w1 _ (c_items c)) as [info|]; [|injection E as <- <- <-; auto]);
      (destruct (c_items c) as [|it0 its] eqn:Eits; [contradiction|]);
      injection E as <- <- <-; auto.
    change (advance_durable _) with (after_flush u (it0 :: its) w1). rewrite <- Eits. auto.
  Qed.

  Lemma flush_loop_P T0 cf e log nid : forall fuel i w T w' T' st,
    WInv w -> LInv T0 w T log nid -> P w -> flush_loop cf e fuel i w T = Some (w', T', st) -> P w'.
  Proof.
    induction fuel as [|fuel IH]; intros i w T w' T' st HI HL HP E; [discriminate|].
    cbn [flush_loop] in E.
    destruct (flush_ready cf (e_now e i) (e_sq_ready e i) w) as [w1 r] eqn:ER.
    destruct (flush_ready_same _ _ _ _ _ _ HI ER) as (SC & HI1 & Hget).
    pose proof (LInv_same_core _ _ _ _ _ _ SC HL) as HL1.
    pose proof (P_same _ _ SC HP) as HP1.
    destruct r as [[u|]|]; [|injection E as <- <- <-; auto..].
    destruct (flush_syncs (e_sq_flush e i) (e_out e i) u w1 T) as [[w2 T2] st2] eqn:EF.
    destruct (flush_syncs_inv _ _ _ _ _ _ _ _ _ _ _ HI1 HL1 EF) as (HI2 & HL2 & _).
    pose proof (flush_syncs_P _ _ _ _ _ _ _ _ HI1 HP1 EF) as HP2.
    destruct st2; [eapply IH; eauto|injection E as <- <- <-; auto..].
  Qed.
End Preserve.

(* the queue of transactions after a flush *)
Lemma after_flush_txs u c w : WInv w -> get u (w_syncs w) = Some c ->
  exists pre, map (fun p => (fst p, t_origin (snd p), t_seq (snd p))) (w_txs w) =
              pre ++ map (fun p => (fst p, t_origin (snd p), t_seq (snd p))) (w_txs (after_flush u (c_items c) w)) /\
              Forall (fun p => snd p <> None) pre /\
              match w_txs (after_flush u (c_items c) w) with
              | [] => True | (_, x) :: _ => t_seq x = None \/ t_locs x <> [] end.
Proof.
  intros HI Eg. unfold after_flush, advance_durable, remove_sync. cbn. rewrite Eg. cbn.
  destruct (advance _ _) as [txs' dur'] eqn:EA. cbn. apply advance_spec in EA.
  destruct EA as (pre & E & HF & HM).
  exists (map (fun p => (fst p, t_origin (snd p), t_seq (snd p))) pre). rewrite <- map_app, <- E. split; [|split; [|exact HM]].
  - clear. generalize (flat_map i_txs (c_items c)) as ids. generalize (w_txs w) as txs. intros txs ids. revert txs.
    induction ids as [|t ids IH]; intros txs; [reflexivity|]. unfold remove_tx_locations in *. cbn [fold_left].
    rewrite <- IH. clear. induction txs as [|[j x] txs IH]; [reflexivity|]. cbn.
    destruct (Nat.eqb t j); cbn; [reflexivity|]. now f_equal.
  - rewrite Forall_forall in *. intros p Hp. apply in_map_iff in Hp. destruct Hp as (q & <- & Hq). cbn.
    apply HF in Hq. tauto.
Qed.

Definition tview (w : writer) := map (fun p => (fst p, t_origin (snd p), t_seq (snd p))) (w_txs w).

(* the end of the queue mirrors the end of the log *)
Definition last_inv (log : list entry) (w : writer) : Prop :=
  match last_opt log with
  | None => w_txs w = []
  | Some e =>
      match m_seq (l_msg e) with
      | None => last_opt (tview w) = Some (l_tx e, m_origin (l_msg e), None)
      | Some _ => forall p, last_opt (tview w) = Some p -> snd p <> None
      end
  end.

Lemma last_opt_app_r {A} (a b : list A) : b <> [] -> last_opt (a ++ b) = last_opt b.
Proof.
  intros H. destruct b as [|x b] using rev_ind; [contradiction|]. now rewrite app_assoc, !last_opt_snoc.
Qed.

Lemma tview_same w w' : same_core w w' -> tview w' = tview w.
Proof. intros (E & _). unfold tview. now rewrite E. Qed.

Lemma last_inv_same log w w' : same_core w w' -> last_inv log w -> last_inv log w'.
Proof.
  intros SC H. unfold last_inv in *. rewrite (tview_same _ _ SC). destruct SC as (E & _). now rewrite E.
Qed.
Lemma last_inv_after log w u c : WInv w -> get u (w_syncs w) = Some c -> last_inv log w ->
  last_inv log (after_flush u (c_items c) w).
Proof.
  intros HI Eg H. destruct (after_flush_txs u c w HI Eg) as (pre & E & HF & _).
  fold (tview w) in E. fold (tview (after_flush u (c_items c) w)) in E. unfold last_inv in *.
  destruct (last_opt log) as [e|].
  - destruct (m_seq (l_msg e)) as [s|].
    + intros p Hp. apply H. rewrite E, last_opt_app_r; [auto|]. intros X. rewrite X in Hp. discriminate.
    + rewrite E in H. destruct (tview (after_flush u (c_items c) w)) as [|y ys] eqn:Ev.
      * rewrite app_nil_r in H. apply last_opt_Some in H. destruct H as [p ->].
        apply Forall_app in HF. destruct HF as [_ HF]. inversion HF; subst. cbn in *. congruence.
      * rewrite last_opt_app_r in H by discriminate. exact H.
  - assert (E' : tview (after_flush u (c_items c) w) = []).
    { unfold tview in E at 1. rewrite H in E. cbn in E. symmetry in E. now apply app_eq_nil in E. }
    unfold tview in E'. now apply map_eq_nil in E'.
Qed.

(* every transaction id recorded in an item comes from a message whose rows the item holds *)
Definition assoc2 (log : list entry) (w : writer) : Prop :=
  forall u s t, In s (sh w u) -> In t (fst s) ->
    exists e, In e log /\ l_tx e = t /\ m_url (l_msg e) = u /\ has_rows e = true /\ incl (tags e) (snd s).
Lemma assoc2_same log w w' : same_core w w' -> assoc2 log w -> assoc2 log w'.
Proof. intros (_ & _ & _ & _ & _ & E & _) H u s t. rewrite E. apply H. Qed.
Lemma assoc2_after log w u c : WInv w -> get u (w_syncs w) = Some c -> assoc2 log w ->
  assoc2 log (after_flush u (c_items c) w).
Proof.
  intros HI Eg H v s t. destruct (after_flush_inv u c w HI Eg) as (_ & Hsh & _). rewrite Hsh.
  destruct (Nat.eqb u v); [intros []|]. apply H.
Qed.

(* a closing message is the last one of its transaction *)
Definition close_inv (log : list entry) : Prop :=
  forall l1 e l2, log = l1 ++ e :: l2 -> m_seq (l_msg e) <> None -> forall e', In e' l2 -> (l_tx e < l_tx e')%nat.

(* the first transaction of the queue is open or has rows pending *)
Definition head_inv (w : writer) : Prop :=
  match w_txs w with [] => True | (_, x) :: _ => t_seq x = None \/ t_locs x <> [] end.
Lemma head_inv_same w w' : same_core w w' -> head_inv w -> head_inv w'.
Proof. intros (E & _). unfold head_inv. now rewrite E. Qed.
Lemma head_inv_after w u c : WInv w -> get u (w_syncs w) = Some c -> head_inv w ->
  head_inv (after_flush u (c_items c) w).
Proof. intros HI Eg _. destruct (after_flush_txs u c w HI Eg) as (pre & _ & _ & H). exact H. Qed.

(* the oldest transaction id never goes back *)
Lemma lo_same w w' : same_core w w' -> lo_of w' = lo_of w.
Proof. intros (E1 & _ & _ & E4 & _). unfold lo_of. now rewrite E1, E4. Qed.
Lemma lo_after w u c : WInv w -> get u (w_syncs w) = Some c -> (lo_of w <= lo_of (after_flush u (c_items c) w))%nat.
Proof.
  intros HI Eg. destruct (after_flush_inv u c w HI Eg) as (HI' & _ & _).
  destruct (I_ids _ HI) as (lo & n & E & En). destruct (I_ids _ HI') as (lo' & n' & E' & En').
  rewrite (lo_of_spec _ _ _ E En), (lo_of_spec _ _ _ E' En').
  destruct (after_flush_txs u c w HI Eg) as (pre & EV & _ & _).
  apply (f_equal (map (fun p : nat * nat * option N => fst (fst p)))) in EV.
  rewrite map_app, !map_map in EV.
  apply (f_equal (@length nat)) in EV. rewrite app_length, !map_length in EV.
  rewrite <- (map_length fst (w_txs w)), E in EV.
  rewrite <- (map_length fst (w_txs (after_flush u (c_items c) w))), E' in EV. rewrite !seq_length in EV.
  destruct (after_flush_fields u (c_items c) w) as [_ Hn]. lia.
Qed.

(* insertion times are sorted along the queue of tables, and not later than [t] *)
Definition times (w : writer) : list N := map (fun p => c_time (snd p)) (w_syncs w).
Definition time_inv (t : N) (w : writer) : Prop := StronglySorted N.le (times w) /\ Forall (fun x => x <= t) (times w).

Lemma times_same w w' : WInv w -> WInv w' -> same_core w w' -> times w' = times w.
Proof.
  intros HI HI' (_ & _ & _ & _ & Ef & _ & Et). unfold times.
  assert (G : forall l l' : list (nat * coll), NoDup (map fst l) -> map fst l' = map fst l ->
     (forall u c', In (u, c') l' -> exists c, In (u, c) l /\ c_time c' = c_time c) ->
     map (fun p => c_time (snd p)) l' = map (fun p => c_time (snd p)) l).
  { induction l as [|[u c] l IH]; intros [|[u' c'] l'] HN E H; try discriminate; [reflexivity|].
    cbn in E. injection E as -> E. cbn. inversion HN as [|? ? Hn HN']; subst. f_equal.
    - destruct (H u c') as (c0 & [X|X] & Ec); [now left|injection X as ->; auto|].
      exfalso. apply Hn. now apply (in_map fst) in X.
    - apply IH; auto. intros v d Hd. destruct (H v d) as (c0 & [X|X] & Ec); [now right| |eauto].
      injection X as <- <-. exfalso. apply Hn. rewrite <- E. now apply (in_map fst) in Hd. }
  apply G; [apply HI|auto|]. intros u c' Hc'. apply In_get in Hc'; [|apply HI'].
  destruct (Et _ _ Hc') as (c & Gc & Ec & _). exists c. split; [now apply get_In|auto].
Qed.

Lemma SSorted_filter {A} (R : A -> A -> Prop) (f : A -> bool) l : StronglySorted R l -> StronglySorted R (filter f l).
Proof.
  induction l as [|a l IH]; intros H; [constructor|]. inversion H; subst. cbn. destruct (f a); [|auto].
  constructor; [auto|]. rewrite Forall_forall in *. intros x Hx. apply filter_In in Hx. apply H3. tauto.
Qed.
Lemma times_del_sorted t u (l : list (nat * coll)) :
  StronglySorted N.le (map (fun p => c_time (snd p)) l) /\ Forall (fun x => x <= t) (map (fun p => c_time (snd p)) l) ->
  StronglySorted N.le (map (fun p => c_time (snd p)) (del u l)) /\ Forall (fun x => x <= t) (map (fun p => c_time (snd p)) (del u l)).
Proof.
  induction l as [|[k c] l IH]; intros [H1 H2]; [split; constructor|]. cbn in *. inversion H1; inversion H2; subst.
  destruct IH as [I1 I2]; [auto|]. destruct (Nat.eqb u k); cbn; [auto|]. split; constructor; auto.
  rewrite Forall_forall in *. intros x Hx. apply in_map_iff in Hx. destruct Hx as (p & <- & Hp).
  apply filter_In in Hp. apply H4. apply (in_map (fun p => c_time (snd p))). tauto.
Qed.

(* time_inv together with WInv is preserved *)
Lemma time_flush T0 cf e log nid t : forall fuel i w T w' T' st,
  WInv w -> LInv T0 w T log nid -> time_inv t w -> flush_loop cf e fuel i w T = Some (w', T', st) -> time_inv t w'.
Proof.
  induction fuel as [|fuel IH]; intros i w T w' T' st HI HL HP E; [discriminate|].
  cbn [flush_loop] in E.
  destruct (flush_ready cf (e_now e i) (e_sq_ready e i) w) as [w1 r] eqn:ER.
  destruct (flush_ready_same _ _ _ _ _ _ HI ER) as (SC & HI1 & Hget).
  pose proof (LInv_same_core _ _ _ _ _ _ SC HL) as HL1.
  assert (HP1 : time_inv t w1) by (unfold time_inv; rewrite (times_same _ _ HI HI1 SC); exact HP).
  destruct r as [[u|]|]; [|injection E as <- <- <-; auto..].
  destruct (flush_syncs (e_sq_flush e i) (e_out e i) u w1 T) as [[w2 T2] st2] eqn:EF.
  destruct (flush_syncs_inv _ _ _ _ _ _ _ _ _ _ _ HI1 HL1 EF) as (HI2 & HL2 & HF).
  assert (HP2 : time_inv t w2).
  { clear - HI1 HP1 EF. unfold flush_syncs in EF.
    destruct (physical_squashing _ u w1) as [wq ok] eqn:Eq.
    destruct (squash_same _ _ _ _ _ HI1 Eq) as (SC & HIq).
    assert (HPq : time_inv t wq) by (unfold time_inv; rewrite (times_same _ _ HI1 HIq SC); exact HP1).
    destruct ok; cbn [negb] in EF; [|injection EF as <- <- <-; auto].
    destruct (get u (w_syncs wq)) as [c|] eqn:Eg; [|injection EF as <- <- <-; auto].
    pose proof (I_coll _ HIq _ _ Eg) as (_ & _ & Hne & _).
    destruct (e_out e i); [| injection EF as <- <- <-; auto | |];
      (destruct (commit_info wq _ (c_items c)) as [info|]; [|injection EF as <- <- <-; auto]);
      (destruct (c_items c) as [|it0 its] eqn:Eits; [contradiction|]);
      injection EF as <- <- <-; auto.
    change (advance_durable _) with (after_flush u (it0 :: its) wq). rewrite <- Eits.
    destruct (after_flush_inv u c wq HIq Eg) as (_ & _ & Hs). unfold time_inv, times. rewrite Hs.
    now apply times_del_sorted. }
  destruct st2; [eapply IH; eauto|injection E as <- <- <-; auto..].
Qed.

(* ---------- the combined invariant ---------- *)
Record Full (T0 : tables) (wd : world) : Prop := {
  f_inv : Inv T0 wd;
  f_last : last_inv (wd_log wd) (wd_w wd);
  f_assoc : assoc2 (wd_log wd) (wd_w wd);
  f_close : close_inv (wd_log wd)
}.

Lemma last_seq_some o s l e : In e l -> closes o s e -> last_seq o l <> None.
Proof.
  induction l as [|a l IH]; [intros []|intros [<-|HI] HC].
  - rewrite last_seq_cons. destruct (last_seq o l); [discriminate|]. rewrite last_seq_single.
    destruct HC as [-> ->]. rewrite Nat.eqb_refl. discriminate.
  - rewrite last_seq_cons. specialize (IH HI HC). destruct (last_seq o l); [discriminate|contradiction].
Qed.

Lemma enqueue_extra T0 now m w w' T log nid t :
  WInv w -> LInv T0 w T log nid -> WInv w' -> enq_ok nid now m w w' t ->
  last_inv log w -> assoc2 log w -> close_inv log ->
  StronglySorted le_tx (log ++ [{| l_id := nid; l_msg := m; l_tx := t |}]) ->
  last_inv (log ++ [{| l_id := nid; l_msg := m; l_tx := t |}]) w' /\
  assoc2 (log ++ [{| l_id := nid; l_msg := m; l_tx := t |}]) w' /\
  close_inv (log ++ [{| l_id := nid; l_msg := m; l_tx := t |}]).
Proof.
  intros HI HL HI' [(txs & next & EU & Etx & Enx) _ _ Hsh0 Hsh1 Hsh2 _ _ _] H1 H2 H3 HS.
  set (e := {| l_id := nid; l_msg := m; l_tx := t |}) in *. apply upsert_spec in EU.
  split; [|split].
  - unfold last_inv. rewrite last_opt_snoc. cbn [l_msg l_tx e]. unfold tview. rewrite Etx.
    destruct EU as [(_ & -> & _)|(pre & x & _ & Ex & Eo & -> & _)]; rewrite map_app; cbn [map]; rewrite last_opt_snoc;
      cbn; destruct (m_seq m) as [s|]; try (intros p [= <-]; discriminate); try reflexivity.
    now rewrite Ex, Eo.
  - assert (Old : forall u s j, In s (sh w u) -> In j (fst s) ->
              exists e0, In e0 (log ++ [e]) /\ l_tx e0 = j /\ m_url (l_msg e0) = u /\ has_rows e0 = true /\ incl (tags e0) (snd s)).
    { intros u s j Hs Hj. destruct (H2 _ _ _ Hs Hj) as (e0 & He0 & R). exists e0. split; [apply in_or_app; auto|auto]. }
    intros u s j Hs Hj. destruct (N.eq_dec (m_rows m) 0) as [E0|E0]; [rewrite Hsh0 in Hs by auto; auto|].
    destruct (Nat.eq_dec u (m_url m)) as [->|HN]; [|rewrite Hsh1 in Hs by auto; auto].
    assert (He : In e (log ++ [e])) by (apply in_or_app; right; now left).
    assert (Hr : has_rows e = true) by (unfold has_rows; cbn; now destruct (N.eqb_spec (m_rows m) 0)).
    assert (Hnp : flat_map b_prov (tag nid 0 (m_batches m)) = tags e) by apply (tag_tags e).
    rewrite Hnp in Hsh2.
    destruct (add_shape_In _ _ _ _ _ (Hsh2 E0) Hs) as [Hs'|[->|(a & b & Hab & ->)]]; [auto| |].
    + cbn in Hj. destruct Hj as [<-|[]]. exists e. repeat split; auto. cbn. apply incl_refl.
    + cbn in Hj. apply in_app_or in Hj. destruct Hj as [Hj|[<-|[]]].
      * destruct (Old _ _ _ Hab Hj) as (e0 & A1 & A2 & A3 & A4 & A5). exists e0. repeat split; auto.
        cbn in *. now apply incl_appl.
      * exists e. repeat split; auto. cbn. apply incl_appr, incl_refl.
  - intros l1 e0 l2 E Hc e' He'. apply app_eq_snoc in E. destruct E as [(-> & _)|(l2' & -> & E)]; [destruct He'|].
    apply in_app_or in He'. destruct He' as [He'|[<-|[]]]; [eapply H3; eauto|]. cbn.
    assert (HIn : In e0 log) by (rewrite E; apply in_or_app; right; now left).
    destruct EU as [(-> & _)|(pre & x & Ew & Ex & Eo & _ & _)]; [now apply (L_lt _ _ _ _ _ HL)|].
    assert (Hle : (l_tx e0 <= t)%nat).
    { apply (sorted_split log e [] e0) in HS; [exact HS|apply in_or_app; auto]. }
    destruct (Nat.eq_dec (l_tx e0) t) as [Et|]; [|lia]. exfalso.
    assert (Gx : get t (w_txs w) = Some x).
    { rewrite Ew. apply (txs_get_snoc w). rewrite <- Ew. now apply ids_nodup. }
    destruct (L_seq _ _ _ _ _ HL _ _ Gx) as [Hq Ho]. rewrite Ex in Hq.
    destruct (m_seq (l_msg e0)) as [s|] eqn:Es; [|congruence].
    apply (last_seq_some (t_origin x) s (filter (in_tx t) log) e0); [|split; auto|auto].
    apply filter_In. split; [auto|]. unfold in_tx. now apply Nat.eqb_eq.
Qed.

Lemma flush_extra T0 cf e w T w' T' st log nid :
  WInv w -> LInv T0 w T log nid -> flush cf e w T = Some (w', T', st) ->
  (last_inv log w -> last_inv log w') /\ (assoc2 log w -> assoc2 log w') /\
  (head_inv w -> head_inv w') /\ (lo_of w <= lo_of w')%nat.
Proof.
  intros HI HL E. unfold flush in E. repeat split.
  - intros H. apply (flush_loop_P (last_inv log) (last_inv_same log) (last_inv_after log) T0 cf e log nid _ _ _ _ _ _ _ HI HL H E).
  - intros H. apply (flush_loop_P (assoc2 log) (assoc2_same log) (assoc2_after log) T0 cf e log nid _ _ _ _ _ _ _ HI HL H E).
  - intros H. apply (flush_loop_P head_inv head_inv_same head_inv_after T0 cf e log nid _ _ _ _ _ _ _ HI HL H E).
  - apply (flush_loop_P (fun v => (lo_of w <= lo_of v)%nat)) with (T0 := T0) (cf := cf) (e := e) (log := log) (nid := nid) (fuel := S (length (w_syncs w))) (i := 0%nat) (w := w) (T := T) (T' := T') (st := st); auto.
    + intros a b SC. rewrite (lo_same _ _ SC). auto.
    + intros a u c HIa Ga Hle. pose proof (lo_after a u c HIa Ga). lia.
Qed.

Lemma enqueue_lo w w' id now m t : WInv w -> WInv w' -> enq_ok id now m w w' t -> lo_of w' = lo_of w.
Proof.
  intros HI HI' [(txs & next & EU & Etx & Enx) _ _ _ _ _ _ _ _].
  apply upsert_spec in EU. unfold lo_of. rewrite Etx, Enx.
  destruct EU as [(-> & -> & -> & _)|(pre & x & Ew & _ & _ & -> & ->)].
  - destruct (w_txs w) as [|[j y] l]; reflexivity.
  - rewrite Ew. destruct pre as [|[j y] l]; reflexivity.
Qed.

Lemma probe_false m : (m_rows m =? 0) && match m_seq m with None => true | Some _ => false end = false ->
  m_rows m = 0 -> m_seq m <> None.
Proof. intros EP E0 Es. rewrite E0, Es in EP. discriminate. Qed.

(* everything about one step *)
Record step_facts (T0 : tables) (cf : config) (wd : world) (ev : event) (wd' : world) (r : reply) : Prop := {
  sf_full : Full T0 wd';
  sf_lo : (lo_of (wd_w wd) <= lo_of (wd_w wd'))%nat;
  sf_log : exists l, wd_log wd' = wd_log wd ++ l /\
                     (forall e, In e l -> exists lock now en, ev = EMsg (l_msg e) lock now en);
  sf_head : (forall e, In e (wd_log wd') -> m_seq (l_msg e) <> None -> m_rows (l_msg e) <> 0) ->
            head_inv (wd_w wd) -> head_inv (wd_w wd');
  sf_reply : forall a b, r = RSeqs a b -> exists m lock now en, ev = EMsg m lock now en /\
             a = get (m_origin m) (w_mem (wd_w wd')) /\ b = get (m_origin m) (w_dur (wd_w wd'));
  sf_clean : clean_event ev -> forall u,
       (accepted_for u (wd_log wd) = committed_all T0 (wd_T wd) (wd_w wd) u) ->
       (accepted_for u (wd_log wd') = committed_all T0 (wd_T wd') (wd_w wd') u)
}.

Theorem full_step T0 cf wd ev wd' r : Full T0 wd -> step cf wd ev = (wd', r) -> step_facts T0 cf wd ev wd' r.
Proof.
  intros [HInv H1 H2 H3] E. pose proof (inv_step _ _ _ _ _ _ HInv E) as [HInv' Hnp].
  pose proof HInv as [HI HL].
  assert (Triv : wd' = wd -> (forall a b, r = RSeqs a b -> exists m lock now en, ev = EMsg m lock now en /\
             a = get (m_origin m) (w_mem (wd_w wd')) /\ b = get (m_origin m) (w_dur (wd_w wd'))) ->
             step_facts T0 cf wd ev wd' r).
  { intros -> Hr. constructor; auto; [constructor; auto|]. exists []. rewrite app_nil_r. split; [auto|intros e []]. }
  destruct ev as [m lock now0 e|e|u]; cbn [step] in E.
  - destruct ((m_rows m =? 0) && match m_seq m with None => true | Some _ => false end) eqn:EP.
    { injection E as <- <-. apply Triv; [reflexivity|]. unfold stored. intros a b [= <- <-]. eauto 8. }
    pose proof (probe_false m EP) as Hprobe.
    destruct lock; cbn [negb] in E; [|injection E as <- <-; apply Triv; [reflexivity|discriminate]].
    destruct (enqueue_sync cf now0 (wd_id wd) m (wd_w wd)) as [w1 st] eqn:EQ.
    destruct (enqueue_inv _ _ _ _ _ _ _ HI Hprobe EQ) as [(-> & -> & _)|(-> & HI1 & t & Hq)].
    { injection E as <- <-. apply Triv; [destruct wd; reflexivity|discriminate]. }
    pose proof (enqueue_log _ _ _ _ _ _ _ _ _ HI HL Hprobe HI1 Hq) as HL1.
    assert (Et : match upsert_tx (wd_w wd) m with Some (t0, _, _) => t0 | None => 0%nat end = t).
    { destruct Hq as [(txs & next & EU & _) _ _ _ _ _ _ _ _]. now rewrite EU. }
    rewrite Et in E. clear Et.
    destruct (flush_inv _ cf e _ _ _ _ HI1 HL1) as (w2 & T2 & st & EF & HI2 & HL2 & HK).
    rewrite EF in E. injection E as <- <-.
    destruct (enqueue_extra _ _ _ _ _ _ _ _ _ HI HL HI1 Hq H1 H2 H3 (L_sorted _ _ _ _ _ HL1)) as (K1 & K2 & K3).
    destruct (flush_extra _ _ _ _ _ _ _ _ _ _ HI1 HL1 EF) as (F1 & F2 & F3 & F4).
    constructor; cbn [wd_w wd_T wd_log wd_id].
    + constructor; cbn; auto.
    + rewrite (enqueue_lo _ _ _ _ _ _ HI HI1 Hq) in F4. exact F4.
    + eexists. split; [reflexivity|]. intros e0 [<-|[]]. cbn. eauto.
    + intros Hm Hh. apply F3.
      assert (Hm' : m_seq m <> None -> m_rows m <> 0).
      { apply (Hm {| l_id := wd_id wd; l_msg := m; l_tx := t |}). apply in_or_app. right. now left. }
      clear Hm. rename Hm' into Hm.
      destruct Hq as [(txs & next & EU & Etx & _) _ _ _ _ _ _ _ _]. apply upsert_spec in EU. unfold head_inv in *. rewrite Etx.
      destruct EU as [(-> & -> & _)|(pre & x & Ew & Ex & _ & -> & _)].
      * destruct (w_txs (wd_w wd)) as [|[j y] l]; cbn; [right; discriminate|exact Hh].
      * rewrite Ew in Hh. destruct pre as [|[j y] l]; cbn in *; [|exact Hh].
        destruct (m_seq m) as [s|] eqn:Es; [|left; auto]. right.
        destruct (N.eqb_spec (m_rows m) 0) as [E0|]; [exfalso; apply Hm; [discriminate|auto]|].
        intros X. assert (HX : In (m_url m) (set_add (m_url m) (t_locs x))) by (apply In_set_add; auto).
        rewrite X in HX. destruct HX.
    + intros a b Hr. exists m, true, now0, e. split; [reflexivity|]. unfold stored in Hr.
      destruct st; try discriminate. now injection Hr as <- <-.
    + intros Hcl u Hu. cbn in Hcl. destruct HK as [_ _ Hcm _ _ _]. rewrite Hcm by exact Hcl.
      rewrite accepted_app, Hu, accepted_single. unfold committed_all. rewrite <- app_assoc. f_equal.
      destruct Hq as [_ _ _ Hsh0 Hsh1 Hsh2 _ _ _]. rewrite !pending_sh. unfold has_rows. cbn [l_msg].
      destruct (N.eqb_spec (m_rows m) 0) as [E0|E0]; cbn [negb andb].
      * rewrite app_nil_r. now rewrite Hsh0.
      * destruct (Nat.eqb_spec (m_url m) u) as [<-|HN].
        -- rewrite (add_shape_snd _ _ _ _ (Hsh2 E0)). f_equal.
           symmetry. apply (tag_tags {| l_id := wd_id wd; l_msg := m; l_tx := t |}).
        -- rewrite app_nil_r, Hsh1 by congruence. reflexivity.
  - destruct (flush_inv _ cf e _ _ _ _ HI HL) as (w2 & T2 & st & EF & HI2 & HL2 & HK).
    rewrite EF in E. injection E as <- <-.
    destruct (flush_extra _ _ _ _ _ _ _ _ _ _ HI HL EF) as (F1 & F2 & F3 & F4).
    constructor; cbn [wd_w wd_T wd_log wd_id].
    + constructor; cbn; auto.
    + exact F4.
    + exists []. rewrite app_nil_r. split; [auto|intros ? []].
    + auto.
    + intros a b. destruct st; discriminate.
    + intros Hcl u Hu. destruct HK as [_ _ Hcm _ _ _]. now rewrite Hcm by exact Hcl.
  - destruct (wd_T wd u) as [|k ks] eqn:ET.
    + injection E as <- <-. apply Triv; [reflexivity|discriminate].
    + injection E as <- <-. constructor; cbn [wd_w wd_T wd_log wd_id]; auto; try discriminate.
      * constructor; cbn; auto.
      * exists []. rewrite app_nil_r. split; [auto|intros ? []].
      * intros _ v Hv. rewrite Hv. unfold committed_all. f_equal.
        pose proof (nc_set T0 (wd_T wd) u [create_commit] v (L_ext _ _ _ _ _ HL)) as Hnc. rewrite ET in Hnc.
        symmetry. etransitivity; [apply f_equal; exact Hnc|].
        destruct (Nat.eqb u v); [|reflexivity]. rewrite committed_app. cbn. now rewrite app_nil_r.
Qed.

Theorem reachable_full T0 cf wd : reachable cf T0 wd -> Full T0 wd.
Proof.
  induction 1 as [id0|wd ev wd' r HR IH HS].
  - constructor; [apply inv_init|reflexivity|intros u s t []|intros [|? ?] ? ? E; discriminate].
  - apply (sf_full _ _ _ _ _ _ (full_step _ _ _ _ _ _ IH HS)).
Qed.
