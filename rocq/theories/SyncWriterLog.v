(* Invariants that relate the sync writer to the log of accepted messages and to the tables. *)
From Coq Require Import List Arith NArith Bool Lia Sorted.
From Coq Require Import ZifyBool ZifyNat ZifyN.
From Verif Require Import SyncWriterModel SyncWriterSpec SyncWriterProofs.
Import ListNotations.
Open Scope N_scope.

Definition le_tx (a b : entry) : Prop := (l_tx a <= l_tx b)%nat.
Definition in_tx (t : txid) (e : entry) : bool := Nat.eqb (l_tx e) t.
Definition before_tx (t : txid) (e : entry) : bool := Nat.ltb (l_tx e) t.

Lemma last_seq_fold o l : forall acc,
  fold_left (fun acc e => if Nat.eqb (m_origin (l_msg e)) o
                          then match m_seq (l_msg e) with Some s => Some s | None => acc end
                          else acc) l acc =
  match last_seq o l with Some s => Some s | None => acc end.
Proof.
  unfold last_seq. induction l as [|e l IH]; intros acc; [reflexivity|]. cbn [fold_left].
  rewrite IH. rewrite (IH (if Nat.eqb (m_origin (l_msg e)) o then match m_seq (l_msg e) with Some s => Some s | None => None end else None)).
  destruct (fold_left _ l None); [reflexivity|].
  destruct (Nat.eqb _ _); [|reflexivity]. destruct (m_seq (l_msg e)); reflexivity.
Qed.
Lemma last_seq_app o a b : last_seq o (a ++ b) = match last_seq o b with Some s => Some s | None => last_seq o a end.
Proof. unfold last_seq at 1. rewrite fold_left_app. fold (last_seq o a). apply last_seq_fold. Qed.
Lemma last_seq_single o e : last_seq o [e] = if Nat.eqb (m_origin (l_msg e)) o then m_seq (l_msg e) else None.
Proof. unfold last_seq. cbn. destruct (Nat.eqb _ _); [|reflexivity]. destruct (m_seq _); reflexivity. Qed.
Lemma last_seq_cons o e l : last_seq o (e :: l) = match last_seq o l with Some s => Some s | None => last_seq o [e] end.
Proof. apply (last_seq_app o [e] l). Qed.
Lemma last_seq_In o l s : last_seq o l = Some s -> exists e, In e l /\ closes o s e.
Proof.
  induction l as [|e l IH]; [discriminate|]. rewrite last_seq_cons.
  destruct (last_seq o l) as [s'|] eqn:E.
  - intros [= ->]. destruct IH as (e' & HI & HC); auto. exists e'. split; [now right|auto].
  - rewrite last_seq_single. destruct (Nat.eqb_spec (m_origin (l_msg e)) o); [|discriminate].
    intros Hs. exists e. split; [now left|split; auto].
Qed.
Lemma last_seq_other o l : (forall e, In e l -> m_origin (l_msg e) <> o) -> last_seq o l = None.
Proof.
  induction l as [|e l IH]; intros H; [reflexivity|]. rewrite last_seq_cons, IH by (intros; apply H; now right).
  rewrite last_seq_single. destruct (Nat.eqb_spec (m_origin (l_msg e)) o); [|reflexivity].
  exfalso. apply (H e); [now left|auto].
Qed.

Lemma sorted_snoc l e : StronglySorted le_tx l -> (forall e', In e' l -> le_tx e' e) -> StronglySorted le_tx (l ++ [e]).
Proof.
  induction l as [|a l IH]; intros HS HA; cbn; [constructor; [constructor|constructor]|].
  inversion HS; subst. constructor.
  - apply IH; [auto|]. intros; apply HA; now right.
  - apply Forall_app. split; [auto|]. constructor; [apply HA; now left|constructor].
Qed.
Lemma sorted_split l1 e l2 e' : StronglySorted le_tx (l1 ++ e :: l2) -> In e' (l1 ++ [e]) -> le_tx e' e.
Proof.
  induction l1 as [|a l1 IH]; intros HS HI; cbn in *.
  - destruct HI as [->|[]]. unfold le_tx; lia.
  - inversion HS; subst. destruct HI as [->|HI]; [|auto].
    rewrite Forall_forall in H2. apply H2. apply in_or_app; right; now left.
Qed.
Lemma filter_empty {A} (f : A -> bool) l : (forall x, In x l -> f x = false) -> filter f l = [].
Proof. induction l as [|a l IH]; intros H; [reflexivity|]. cbn. rewrite (H a) by now left. apply IH. intros; apply H; now right. Qed.
Lemma filter_full {A} (f : A -> bool) l : (forall x, In x l -> f x = true) -> filter f l = l.
Proof. induction l as [|a l IH]; intros H; [reflexivity|]. cbn. rewrite (H a) by now left. f_equal. apply IH. intros; apply H; now right. Qed.

Lemma filter_step l t : StronglySorted le_tx l ->
  filter (before_tx (S t)) l = filter (before_tx t) l ++ filter (in_tx t) l.
Proof.
  induction l as [|e l IH]; intros HS; [reflexivity|]. inversion HS as [|? ? HS' HF]; subst.
  cbn [filter]. rewrite IH by auto. rewrite Forall_forall in HF. unfold le_tx in HF.
  destruct (before_tx (S t) e) eqn:A; destruct (before_tx t e) eqn:B; destruct (in_tx t e) eqn:C;
    unfold before_tx, in_tx in A, B, C; try lia; cbn [app].
  - reflexivity.
  - rewrite (filter_empty (before_tx t) l); [reflexivity|]. intros x Hx. apply HF in Hx. unfold before_tx. apply Nat.ltb_ge. lia.
  - reflexivity.
Qed.

(* ---------- tags ---------- *)
Lemma tag_tags e : flat_map b_prov (tag (l_id e) 0 (m_batches (l_msg e))) = tags e.
Proof.
  unfold tags. generalize 0%nat as k. induction (m_batches (l_msg e)) as [|[s r] bs IH]; intros k; [reflexivity|].
  cbn. now rewrite IH.
Qed.
Lemma tags_id e p : In p (tags e) -> fst p = l_id e.
Proof. unfold tags. rewrite in_map_iff. intros (k & <- & _). reflexivity. Qed.
Lemma accepted_app u a b : accepted_for u (a ++ b) = accepted_for u a ++ accepted_for u b.
Proof. unfold accepted_for. rewrite filter_app. apply flat_map_app. Qed.
Lemma accepted_single u e : accepted_for u [e] = if has_rows e && Nat.eqb (m_url (l_msg e)) u then tags e else [].
Proof. unfold accepted_for. cbn. destruct (_ && _); cbn; [apply app_nil_r|reflexivity]. Qed.
Lemma accepted_In u l e p : In e l -> has_rows e = true -> m_url (l_msg e) = u -> In p (tags e) -> In p (accepted_for u l).
Proof.
  intros HI Hr Hu Hp. unfold accepted_for. apply in_flat_map. exists e. split; [|auto].
  apply filter_In. rewrite Hr, Hu, Nat.eqb_refl. auto.
Qed.
Lemma accepted_ids u l p : In p (accepted_for u l) -> exists e, In e l /\ fst p = l_id e.
Proof.
  unfold accepted_for. rewrite in_flat_map. intros (e & He & Hp). apply filter_In in He.
  exists e. split; [tauto|]. now apply tags_id.
Qed.

(* ---------- commits ---------- *)
Lemma committed_app a b : committed (a ++ b) = committed a ++ committed b.
Proof. apply flat_map_app. Qed.

Definition extends (T0 T : tables) : Prop := forall u, T u = T0 u ++ new_commits T0 T u.

Lemma nc_set T0 T u X v : extends T0 T ->
  new_commits T0 (set_table T u (T u ++ X)) v = if Nat.eqb u v then new_commits T0 T v ++ X else new_commits T0 T v.
Proof.
  intros HE. unfold new_commits at 1, set_table. destruct (Nat.eqb_spec u v) as [<-|]; [|reflexivity].
  rewrite (HE u) at 1. rewrite <- app_assoc, skipn_app, skipn_all, Nat.sub_diag. reflexivity.
Qed.
Lemma extends_set T0 T u X : extends T0 T -> extends T0 (set_table T u (T u ++ X)).
Proof.
  intros HE v. rewrite nc_set by auto. unfold set_table. destruct (Nat.eqb_spec u v) as [<-|]; [|apply HE].
  rewrite app_assoc. now rewrite <- HE.
Qed.

Definition covers (u : url) (log : list entry) (cs : list commit) (o : origin) (s : seqno) : Prop :=
  exists l1 e l2, log = l1 ++ e :: l2 /\ closes o s e /\
    forall e', In e' (l1 ++ [e]) -> m_url (l_msg e') = u -> has_rows e' = true ->
               incl (tags e') (committed cs).

Record LInv (T0 : tables) (w : writer) (T : tables) (log : list entry) (nid : nat) : Prop := {
  L_id : forall e, In e log -> (l_id e < nid)%nat;
  L_nd : NoDup (map l_id log);
  L_sorted : StronglySorted le_tx log;
  L_lt : forall e, In e log -> (l_tx e < w_next w)%nat;
  L_seq : forall t x, get t (w_txs w) = Some x ->
     t_seq x = last_seq (t_origin x) (filter (in_tx t) log) /\
     (forall e, In e log -> l_tx e = t -> m_origin (l_msg e) = t_origin x);
  L_mem : forall o, get o (w_mem w) = last_seq o log;
  L_dur : forall o, get o (w_dur w) = last_seq o (filter (before_tx (lo_of w)) log);
  L_sfx : forall u, exists pre, accepted_for u log = pre ++ pending w u /\
                                incl pre (committed (new_commits T0 T u));
  L_assoc : forall u s e p, In s (sh w u) -> In e log -> In p (tags e) -> In p (snd s) -> In (l_tx e) (fst s);
  L_ext : extends T0 T;
  L_info : forall u cs1 k cs2 i, new_commits T0 T u = cs1 ++ k :: cs2 -> k_info k = Some i ->
     covers u log (cs1 ++ [k]) (k_origin i) (k_seq i) \/
     (exists i0, table_sequence (T0 u) = Some i0 /\ k_origin i = k_origin i0 /\ k_seq i = k_seq i0);
  L_lastu : forall u pre s, sh w u = pre ++ [s] -> exists a e, fst s = a ++ [l_tx e] /\ last_rows_for u log e;
  L_flag : forall u k, In k (new_commits T0 T u) ->
     k = create_commit \/ exists l1 l2, log = l1 ++ l2 /\ info_ok u l1 (k_info k)
}.

Lemma LInv_same_core T0 w w' T log nid : same_core w w' -> LInv T0 w T log nid -> LInv T0 w' T log nid.
Proof.
  intros (E1 & E2 & E3 & E4 & E5 & E6 & _) [H1 H2 H3 H4 H5 H6 H7 H8 H9 H10 H11 H12 H13].
  constructor; auto.
  - now rewrite E4.
  - now rewrite E1.
  - now rewrite E2.
  - unfold lo_of in *. rewrite E1, E3, E4. exact H7.
  - intros u. rewrite pending_sh, E6, <- pending_sh. apply H8.
  - intros u s e p. rewrite E6. apply H9.
  - intros u pre s. rewrite E6. apply H12.
Qed.

(* a message of an unfinished or still pending transaction is the only reason for not being durable *)
Lemma not_pending_durable T0 w T log nid e :
  WInv w -> LInv T0 w T log nid -> In e log -> (l_tx e < lo_of w)%nat -> durable_entry T0 T e.
Proof.
  intros HI HL HIn Hlo Hr p Hp.
  destruct (L_sfx _ _ _ _ _ HL (m_url (l_msg e))) as (pre & EA & Hinc).
  assert (HA := accepted_In _ _ _ p HIn Hr eq_refl Hp). rewrite EA in HA. apply in_app_or in HA.
  destruct HA as [HA|HA]; [auto|]. exfalso.
  rewrite pending_sh in HA. apply in_flat_map in HA. destruct HA as (s & Hs & Hps).
  pose proof (L_assoc _ _ _ _ _ HL _ _ _ _ Hs HIn Hp Hps) as Ht.
  destruct (I_loc1 _ HI _ _ _ Hs Ht) as (x & Gx & _).
  destruct (I_ids _ HI) as (lo & n & Eids & Enext).
  rewrite (lo_of_spec _ _ _ Eids Enext) in Hlo. apply get_In in Gx.
  assert (HX : In (l_tx e) (map fst (w_txs w))) by (apply (in_map fst) in Gx; exact Gx).
  rewrite Eids in HX. apply in_seq in HX. lia.
Qed.

(* ---------- durable map under advance ---------- *)
Definition lo_list (txs : list (txid * transaction)) (next : txid) : txid :=
  match txs with (t, _) :: _ => t | [] => next end.

Lemma advance_dur log next : StronglySorted le_tx log ->
  forall txs dur txs' dur' lo n,
  map fst txs = seq lo n -> (lo + n)%nat = next ->
  (forall t x, In (t, x) txs -> t_seq x = last_seq (t_origin x) (filter (in_tx t) log) /\
     (forall e, In e log -> l_tx e = t -> m_origin (l_msg e) = t_origin x)) ->
  (forall o, get o dur = last_seq o (filter (before_tx lo) log)) ->
  advance txs dur = (txs', dur') ->
  forall o, get o dur' = last_seq o (filter (before_tx (lo_list txs' next)) log).
Proof.
  intros HS. induction txs as [|[t x] rest IH]; intros dur txs' dur' lo n Eids En Hseq Hdur E.
  - cbn in E. injection E as <- <-. destruct n; [|discriminate]. cbn. replace next with lo by lia. exact Hdur.
  - destruct n; [discriminate|]. cbn in Eids. injection Eids as Et Eids. subst t.
    assert (Stop : forall o, get o dur = last_seq o (filter (before_tx (lo_list ((lo, x) :: rest) next)) log)) by exact Hdur.
    destruct x as [o0 [s|] [|l ls]]; cbn in E; try (injection E as <- <-; exact Stop).
    eapply (IH (put o0 s dur) txs' dur' (S lo) n); eauto; [lia|intros; apply Hseq; now right|].
    intros o. rewrite get_put, filter_step, last_seq_app by auto.
    destruct (Hseq lo {| t_origin := o0; t_seq := Some s; t_locs := [] |}) as [Es Eo]; [now left|].
    cbn [t_seq t_origin] in Es, Eo.
    destruct (Nat.eqb_spec o o0) as [->|HN].
    + now rewrite <- Es.
    + rewrite last_seq_other; [apply Hdur|]. intros e He. apply filter_In in He. destruct He as [He Hl].
      unfold in_tx in Hl. apply Nat.eqb_eq in Hl. rewrite (Eo e He Hl). congruence.
Qed.

(* ---------- commit info ---------- *)
Lemma find_closed_spec txs b l i : find_closed txs b l = Some (Some i) ->
  k_new_tx i = b /\
  exists it t x, In it l /\ last_opt (i_txs it) = Some t /\ get t txs = Some x /\
                 t_origin x = k_origin i /\ t_seq x = Some (k_seq i).
Proof.
  induction l as [|it l IH]; [discriminate|]. cbn. destruct (last_opt (i_txs it)) as [t|] eqn:EL; [|discriminate].
  destruct (get t txs) as [[o [s|] lc]|] eqn:G.
  - intros [= <-]. cbn. split; [reflexivity|]. exists it, t, {| t_origin := o; t_seq := Some s; t_locs := lc |}. cbn; auto.
  - intros H. apply IH in H. destruct H as (Hb & it' & t' & x' & HI & H). split; [auto|]. exists it', t', x'. split; [now right|auto].
  - intros H. apply IH in H. destruct H as (Hb & it' & t' & x' & HI & H). split; [auto|]. exists it', t', x'. split; [now right|auto].
Qed.
Lemma find_closed_total txs b l : Forall (fun it => i_txs it <> []) l -> find_closed txs b l <> None.
Proof.
  induction l as [|it l IH]; intros HF; [discriminate|]. inversion HF; subst. cbn.
  destruct (last_opt (i_txs it)) as [t|] eqn:EL; [|apply last_opt_None in EL; contradiction].
  destruct (get t txs) as [[o [s|] lc]|]; auto; discriminate.
Qed.

Lemma last_item_get u c w it t : WInv w -> get u (w_syncs w) = Some c -> In it (c_items c) ->
  last_opt (i_txs it) = Some t -> exists x, get t (w_txs w) = Some x.
Proof.
  intros HI Eg Hit Ht. apply last_opt_Some in Ht. destruct Ht as [p Ht].
  destruct (I_loc1 _ HI u (shape it) t) as (x & Gx & _); [|cbn; rewrite Ht; apply in_or_app; right; now left|eauto].
  unfold sh, items_of. rewrite Eg. now apply in_map.
Qed.

Lemma commit_info_total u c w lastc : WInv w -> get u (w_syncs w) = Some c -> commit_info w lastc (c_items c) <> None.
Proof.
  intros HI Eg. pose proof (I_coll _ HI _ _ Eg) as (_ & _ & Hne & Htx).
  unfold commit_info. destruct (last_opt (c_items c)) as [it|] eqn:EL; [|apply last_opt_None in EL; contradiction].
  apply last_opt_Some in EL. destruct EL as [p EL].
  assert (Hit : In it (c_items c)) by (rewrite EL; apply in_or_app; right; now left).
  destruct (last_opt (i_txs it)) as [t|] eqn:ET.
  2:{ apply last_opt_None in ET. rewrite Forall_forall in Htx. apply Htx in Hit. contradiction. }
  destruct (last_item_get _ _ _ _ _ HI Eg Hit ET) as [x Gx]. rewrite Gx.
  set (b := match t_seq x with None => true | Some _ => false end).
  destruct (find_closed (w_txs w) b (rev (c_items c))) as [[i|]|] eqn:EF; try discriminate.
  exfalso. apply (find_closed_total (w_txs w) b (rev (c_items c))); [|auto].
  rewrite Forall_forall in *. intros z Hz. apply Htx. now apply in_rev.
Qed.

Lemma commit_info_spec w lastc items i : commit_info w lastc items = Some (Some i) ->
  (exists it t x, In it items /\ last_opt (i_txs it) = Some t /\ get t (w_txs w) = Some x /\
                  t_origin x = k_origin i /\ t_seq x = Some (k_seq i)) \/
  (exists i0, lastc = Some i0 /\ k_origin i = k_origin i0 /\ k_seq i = k_seq i0).
Proof.
  unfold commit_info. destruct (match last_opt items with None => _ | Some _ => _ end) as [b|]; [|discriminate].
  destruct (find_closed (w_txs w) b (rev items)) as [[j|]|] eqn:EF; [| |discriminate].
  - intros [= <-]. left. apply find_closed_spec in EF. destruct EF as (_ & it & t & x & HI & H).
    exists it, t, x. split; [now apply in_rev|auto].
  - intros [= H]. right. destruct lastc as [i0|]; [|discriminate]. injection H as <-. exists i0. auto.
Qed.

(* ---------- flushing one table ---------- *)
Lemma covers_weaken u log log' cs cs' o s :
  covers u log cs o s -> covers u (log ++ log') (cs ++ cs') o s.
Proof.
  intros (l1 & e & l2 & -> & HC & H). exists l1, e, (l2 ++ log'). split; [now rewrite <- app_assoc|].
  split; [auto|]. intros e' He' Hu Hr p Hp. rewrite committed_app. apply in_or_app. left. exact (H e' He' Hu Hr p Hp).
Qed.
Lemma covers_weaken_cs u log cs cs' o s : covers u log cs o s -> covers u log (cs ++ cs') o s.
Proof. intros H. rewrite <- (app_nil_r log). now apply covers_weaken. Qed.
Lemma covers_weaken_log u log log' cs o s : covers u log cs o s -> covers u (log ++ log') cs o s.
Proof. intros H. rewrite <- (app_nil_r cs). now apply covers_weaken. Qed.


Lemma app_eq_snoc {A} (l : list A) x a b c : l ++ [x] = a ++ b :: c ->
  (c = [] /\ l = a /\ x = b) \/ (exists c', c = c' ++ [x] /\ l = a ++ b :: c').
Proof.
  destruct c as [|y c] using rev_ind.
  - intros E. apply app_inj_tail in E. destruct E; subst. left; auto.
  - rewrite app_comm_cons, app_assoc. intros E. apply app_inj_tail in E. destruct E; subst. right; eauto.
Qed.

Lemma LInv_commit T0 w T log nid u k :
  LInv T0 w T log nid ->
  (forall i, k_info k = Some i ->
     covers u log (new_commits T0 T u ++ [k]) (k_origin i) (k_seq i) \/
     (exists i0, table_sequence (T0 u) = Some i0 /\ k_origin i = k_origin i0 /\ k_seq i = k_seq i0)) ->
  (k = create_commit \/ info_ok u log (k_info k)) ->
  LInv T0 w (set_table T u (T u ++ [k])) log nid.
Proof.
  intros [H1 H2 H3 H4 H5 H6 H7 H8 H9 H10 H11 H12 H13] Hk Hfl. constructor; auto.
  - intros v. destruct (H8 v) as (pre & EA & Hinc). exists pre. split; [auto|].
    rewrite nc_set by auto. destruct (Nat.eqb_spec u v) as [<-|]; [|auto].
    intros p Hp. rewrite committed_app. apply in_or_app. left. auto.
  - now apply extends_set.
  - intros v cs1 k' cs2 i E Ei. rewrite nc_set in E by auto. destruct (Nat.eqb_spec u v) as [<-|]; [|eauto].
    apply app_eq_snoc in E. destruct E as [(-> & <- & <-)|(c' & -> & E)]; [auto|]. eauto.
  - intros v k' E. rewrite nc_set in E by auto. destruct (Nat.eqb_spec u v) as [<-|]; [|eauto].
    apply in_app_or in E. destruct E as [E|[<-|[]]]; [eauto|].
    destruct Hfl as [Hfl|Hfl]; [auto|]. right. exists log, []. rewrite app_nil_r. auto.
Qed.


Lemma table_sequence_info T0 w T log nid u i :
  LInv T0 w T log nid -> table_sequence (T u) = Some i ->
  covers u log (new_commits T0 T u) (k_origin i) (k_seq i) \/
  (exists i0, table_sequence (T0 u) = Some i0 /\ k_origin i = k_origin i0 /\ k_seq i = k_seq i0).
Proof.
  intros HL E. unfold table_sequence in E. rewrite (L_ext _ _ _ _ _ HL u) in E.
  remember (new_commits T0 T u) as N eqn:EN. destruct N as [|k N'] using rev_ind.
  - rewrite app_nil_r in E. right. exists i. auto.
  - clear IHN'. rewrite app_assoc, last_opt_snoc in E.
    exact (L_info _ _ _ _ _ HL u N' k [] i (eq_sym EN) E).
Qed.

Lemma new_info_covers T0 w T log nid u c k i :
  WInv w -> LInv T0 w T log nid -> get u (w_syncs w) = Some c ->
  k_prov k = pending w u -> k_info k = Some i ->
  commit_info w (table_sequence (T u)) (c_items c) = Some (k_info k) ->
  covers u log (new_commits T0 T u ++ [k]) (k_origin i) (k_seq i) \/
  (exists i0, table_sequence (T0 u) = Some i0 /\ k_origin i = k_origin i0 /\ k_seq i = k_seq i0).
Proof.
  intros HI HL Eg Hp Hi E. rewrite Hi in E. apply commit_info_spec in E.
  destruct E as [(it & t & x & Hit & Ht & Gx & Eo & Es)|(i0 & E0 & Eo & Es)].
  - left. destruct (L_seq _ _ _ _ _ HL _ _ Gx) as [Hq _]. rewrite Es in Hq. symmetry in Hq.
    apply last_seq_In in Hq. destruct Hq as (e & He & HC). apply filter_In in He. destruct He as [He _].
    apply in_split in He. destruct He as (l1 & l2 & El). exists l1, e, l2. split; [auto|].
    rewrite Eo in HC. split; [auto|].
    intros e' He' Hu Hr p Hpp. rewrite committed_app. cbn. rewrite app_nil_r, Hp.
    destruct (L_sfx _ _ _ _ _ HL u) as (pre & EA & Hinc).
    assert (HIn : In e' log).
    { rewrite El. apply in_app_or in He'. apply in_or_app. destruct He' as [|[<-|[]]]; [auto|right; now left]. }
    pose proof (accepted_In _ _ _ p HIn Hr Hu Hpp) as HA. rewrite EA in HA.
    apply in_app_or in HA. apply in_or_app. destruct HA; auto.
  - destruct (table_sequence_info _ _ _ _ _ _ _ HL E0) as [HC|(j & Ej & Eoj & Esj)].
    + left. rewrite Eo, Es. now apply covers_weaken_cs.
    + right. exists j. repeat split; congruence.
Qed.

Lemma new_info_flag T0 w T log nid u c lastc info :
  WInv w -> LInv T0 w T log nid -> get u (w_syncs w) = Some c ->
  commit_info w lastc (c_items c) = Some info -> info_ok u log info.
Proof.
  intros HI HL Eg E. pose proof (I_coll _ HI _ _ Eg) as (_ & _ & Hne & _).
  destruct (c_items c) as [|it its _] eqn:Eits using rev_ind; [contradiction|].
  assert (Esh : sh w u = map shape its ++ [shape it]).
  { unfold sh, items_of. rewrite Eg, Eits, map_app. reflexivity. }
  destruct (L_lastu _ _ _ _ _ HL _ _ _ Esh) as (a & e & Ea & Hlast). cbn in Ea.
  exists e. split; [exact Hlast|].
  assert (Gx : exists x, get (l_tx e) (w_txs w) = Some x).
  { apply (last_item_get u c w it (l_tx e) HI Eg); [rewrite Eits; apply in_or_app; right; now left|].
    rewrite Ea. apply last_opt_snoc. }
  destruct Gx as [x Gx]. destruct (L_seq _ _ _ _ _ HL _ _ Gx) as [Hq Ho].
  assert (Hop : tx_open log e <-> t_seq x = None).
  { unfold tx_open. split.
    - intros Hop. destruct (t_seq x) as [s|]; [exfalso|auto]. symmetry in Hq. apply last_seq_In in Hq.
      destruct Hq as (e' & He' & _ & Hs).
      apply filter_In in He'. destruct He' as [He' Ht]. unfold in_tx in Ht. apply Nat.eqb_eq in Ht.
      rewrite (Hop e' He' Ht) in Hs. discriminate.
    - intros Es e' He' Ht. destruct (m_seq (l_msg e')) as [s'|] eqn:Es'; [|reflexivity]. exfalso.
      assert (HX : last_seq (t_origin x) (filter (in_tx (l_tx e)) log) <> None); [|congruence].
      assert (HIn : In e' (filter (in_tx (l_tx e)) log)) by (apply filter_In; split; [auto|unfold in_tx; now apply Nat.eqb_eq]).
      assert (Hcl : closes (t_origin x) s' e') by (split; auto).
      clear - HIn Hcl. induction (filter (in_tx (l_tx e)) log) as [|b l IH]; [destruct HIn|]. rewrite last_seq_cons.
      destruct HIn as [<-|HIn].
      + destruct (last_seq (t_origin x) l); [discriminate|]. rewrite last_seq_single. destruct Hcl as [-> ->].
        rewrite Nat.eqb_refl. discriminate.
      + specialize (IH HIn). destruct (last_seq (t_origin x) l); [discriminate|contradiction]. }
  unfold commit_info in E. rewrite last_opt_snoc, Ea, last_opt_snoc, Gx, rev_unit in E.
  cbn [find_closed] in E. rewrite Ea, last_opt_snoc, Gx in E. destruct x as [o sq lc]. cbn [t_seq t_origin] in *.
  destruct sq as [s|].
  - injection E as <-. cbn [k_new_tx k_origin k_seq]. split; [rewrite Hop; split; discriminate|]. intros _.
    symmetry in Hq. apply last_seq_In in Hq. destruct Hq as (e' & He' & Hc). apply filter_In in He'.
    destruct He' as [He' Ht]. unfold in_tx in Ht. apply Nat.eqb_eq in Ht. eauto.
  - destruct info as [i|]; [|now apply Hop].
    assert (Ht : k_new_tx i = true).
    { destruct (find_closed (w_txs w) true (rev its)) as [[j|]|] eqn:EF; [| |discriminate].
      - injection E as <-. apply find_closed_spec in EF. tauto.
      - injection E as E. destruct lastc; [|discriminate]. injection E as <-. reflexivity. }
    rewrite Ht, Hop. split; [tauto|discriminate].
Qed.

Lemma after_flush_fields u its w :
  w_mem (after_flush u its w) = w_mem w /\ w_next (after_flush u its w) = w_next w.
Proof.
  unfold after_flush, advance_durable, remove_sync. cbn. destruct (get u (w_syncs w)); cbn;
  destruct (advance _ _); auto.
Qed.

Lemma after_flush_log T0 w T log nid u c :
  WInv w -> LInv T0 w T log nid -> get u (w_syncs w) = Some c ->
  incl (pending w u) (committed (new_commits T0 T u)) ->
  LInv T0 (after_flush u (c_items c) w) T log nid.
Proof.
  intros HI HL Eg Hcm.
  destruct (after_flush_inv u c w HI Eg) as (HI' & Hsh & _).
  destruct (after_flush_fields u (c_items c) w) as [Em En].
  destruct (I_ids _ HI) as (lo & n & Eids & Enext).
  (* the transaction queue after the flush *)
  assert (Htx : exists txs1 txs' dur',
     txs1 = remove_tx_locations u (flat_map i_txs (c_items c)) (w_txs w) /\
     advance txs1 (w_dur w) = (txs', dur') /\
     w_txs (after_flush u (c_items c) w) = txs' /\ w_dur (after_flush u (c_items c) w) = dur').
  { unfold after_flush, advance_durable, remove_sync. cbn. rewrite Eg. cbn.
    destruct (advance _ _) as [a b] eqn:EA. exists (remove_tx_locations u (flat_map i_txs (c_items c)) (w_txs w)), a, b. auto. }
  destruct Htx as (txs1 & txs' & dur' & E1 & EA & Et & Ed).
  assert (Hnd1 : NoDup (map fst txs1)) by (rewrite E1, rtl_fst; now apply ids_nodup).
  assert (Hseq1 : forall t x, In (t, x) txs1 -> t_seq x = last_seq (t_origin x) (filter (in_tx t) log) /\
            (forall e, In e log -> l_tx e = t -> m_origin (l_msg e) = t_origin x)).
  { intros t x HIn. apply In_get in HIn; [|auto]. rewrite E1, rtl_get in HIn.
    destruct (get t (w_txs w)) as [y|] eqn:Gy; [|discriminate]. cbn in HIn. injection HIn as <-.
    destruct (L_seq _ _ _ _ _ HL _ _ Gy) as [Ha Hb]. destruct (existsb _ _); cbn; auto. }
  destruct HL as [H1 H2 H3 H4 H5 H6 H7 H8 H9 H10 H11 H12 H13].
  constructor; auto.
  - now rewrite En.
  - intros t x G. rewrite Et in G. apply Hseq1.
    destruct (advance_spec _ _ _ _ EA) as (pre & -> & _). apply in_or_app; right. now apply get_In.
  - now rewrite Em.
  - rewrite Ed. unfold lo_of. rewrite Et, En. fold (lo_list txs' (w_next w)).
    eapply (advance_dur log (w_next w) H3 txs1 (w_dur w) txs' dur' lo n); eauto.
    + rewrite E1, rtl_fst. exact Eids.
    + intros o. rewrite H7, (lo_of_spec _ _ _ Eids Enext). reflexivity.
  - intros v. destruct (H8 v) as (pre & EAc & Hinc). rewrite pending_sh, Hsh.
    destruct (Nat.eqb_spec u v) as [<-|].
    + exists (pre ++ pending w u). cbn. rewrite app_nil_r. split; [auto|]. now apply incl_app.
    + exists pre. rewrite <- pending_sh. auto.
  - intros v s e p Hs. rewrite Hsh in Hs. destruct (Nat.eqb_spec u v) as [<-|]; [destruct Hs|]. now apply H9 with (u := v).
  - intros v p s Hs. rewrite Hsh in Hs. destruct (Nat.eqb_spec u v) as [<-|]; [destruct p; discriminate|]. eauto.
Qed.

Lemma table_or_create (T : tables) u :
  match T u with [] => [create_commit] | cs => cs end =
  T u ++ match T u with [] => [create_commit] | _ => [] end.
Proof. destruct (T u); [reflexivity|]. now rewrite app_nil_r. Qed.

Lemma set_table_ext (T : tables) u cs (T' : tables) : (forall v, T' v = if Nat.eqb u v then cs else T v) -> forall v, T' v = set_table T u cs v.
Proof. intros H v. rewrite H. reflexivity. Qed.

(* LInv depends on the tables only pointwise *)
Lemma LInv_ext T0 w T T' log nid : (forall v, T' v = T v) -> LInv T0 w T log nid -> LInv T0 w T' log nid.
Proof.
  intros HT [H1 H2 H3 H4 H5 H6 H7 H8 H9 H10 H11 H12 H13].
  assert (HN : forall v, new_commits T0 T' v = new_commits T0 T v) by (intros v; unfold new_commits; now rewrite HT).
  constructor; auto.
  - intros u. rewrite HN. apply H8.
  - intros u. rewrite HN, HT. apply H10.
  - intros u cs1 k cs2 i. rewrite HN. apply H11.
  - intros u k. rewrite HN. apply H13.
Qed.

Record flush_ok (T0 : tables) (out : outcome) (u : url) (w : writer) (T : tables)
       (w' : writer) (T' : tables) (st : status) : Prop := {
  fo_nopanic : st <> SPanic;
  fo_err : st = SErr -> same_core w w';
  fo_clean : st = SErr -> out <> FCommitFail ->
             forall v, committed (new_commits T0 T' v) = committed (new_commits T0 T v);
  fo_ok : st = SOk -> get u (w_syncs w) <> None ->
     map fst (w_syncs w') = map fst (del u (w_syncs w)) /\
     w_mem w' = w_mem w /\
     (forall v, sh w' v = if Nat.eqb u v then [] else sh w v) /\
     (forall v c', get v (w_syncs w') = Some c' ->
         exists c, get v (w_syncs w) = Some c /\ c_time c' = c_time c) /\
     (forall v, committed (new_commits T0 T' v) =
                committed (new_commits T0 T v) ++ (if Nat.eqb u v then pending w v else []))
}.

Lemma map_fst_del_eq {A B} u (m : list (nat * A)) (m' : list (nat * B)) :
  map fst m = map fst m' -> map fst (del u m) = map fst (del u m').
Proof.
  revert m'. induction m as [|[k v] m IH]; intros [|[k' v'] m'] E; try discriminate; [reflexivity|].
  cbn in E. injection E as -> E. cbn. destruct (Nat.eqb u k'); cbn; [now apply IH|]. f_equal. now apply IH.
Qed.

Lemma flush_syncs_inv T0 sq out u w T log nid w' T' st :
  WInv w -> LInv T0 w T log nid -> flush_syncs sq out u w T = (w', T', st) ->
  WInv w' /\ LInv T0 w' T' log nid /\ flush_ok T0 out u w T w' T' st.
Proof.
  intros HI HL E. unfold flush_syncs in E.
  destruct (physical_squashing sq u w) as [w1 ok] eqn:Eq.
  destruct (squash_same _ _ _ _ _ HI Eq) as (SC & HI1).
  pose proof (LInv_same_core _ _ _ _ _ _ SC HL) as HL1.
  assert (HfailT : forall T1, (forall v, committed (new_commits T0 T1 v) = committed (new_commits T0 T v)) ->
             flush_ok T0 out u w T w1 T1 SErr).
  { intros T1 HT. constructor; try congruence; auto. }
  destruct ok; cbn [negb] in E.
  2:{ injection E as <- <- <-. split; [auto|split; [auto|]]. apply HfailT. reflexivity. }
  destruct (get u (w_syncs w1)) as [c|] eqn:Eg.
  2:{ injection E as <- <- <-. split; [auto|split; [auto|]]. constructor; try congruence.
      intros _ Hn. exfalso. apply Hn. apply get_None. destruct SC as (_ & _ & _ & _ & Hf & _).
      rewrite <- Hf. now apply get_None. }
  set (cs := match T u with [] => [create_commit] | cs => cs end) in *.
  assert (Ecs : cs = T u ++ match T u with [] => [create_commit] | _ => [] end) by apply table_or_create.
  (* the table after creation *)
  assert (HT1 : LInv T0 w1 (set_table T u cs) log nid /\
                (forall v, committed (new_commits T0 (set_table T u cs) v) = committed (new_commits T0 T v)) /\
                table_sequence cs = table_sequence (set_table T u cs u)).
  { assert (Es : set_table T u cs u = cs) by (unfold set_table; now rewrite Nat.eqb_refl).
    rewrite Es. rewrite Ecs. destruct (T u) as [|k0 ks] eqn:ET.
    - pose proof (LInv_commit T0 w1 T log nid u create_commit HL1) as HC. rewrite ET in HC.
      split; [apply HC; [cbn; intros; discriminate|auto]|]. split; [|reflexivity].
      intros v. pose proof (nc_set T0 T u [create_commit] v (L_ext _ _ _ _ _ HL1)) as Hnc. rewrite ET in Hnc.
      rewrite Hnc. destruct (Nat.eqb u v); [|reflexivity]. rewrite committed_app. cbn. apply app_nil_r.
    - rewrite app_nil_r. split; [|split; [|reflexivity]].
      + eapply LInv_ext; [|exact HL1]. intros v. unfold set_table. destruct (Nat.eqb_spec u v) as [<-|]; auto.
      + intros v. unfold new_commits, set_table. destruct (Nat.eqb_spec u v) as [<-|]; [now rewrite ET|auto]. }
  destruct HT1 as (HL2 & Hcm2 & Hts).
  pose proof (I_coll _ HI1 _ _ Eg) as (_ & _ & Hne & _).
  assert (Hpend : flat_map b_prov (flat_map i_data (c_items c)) = pending w1 u).
  { unfold pending. now rewrite Eg. }
  destruct (commit_info w1 (table_sequence cs) (c_items c)) as [info|] eqn:ECI.
  2:{ exfalso. eapply commit_info_total; eauto. }
  set (k := {| k_prov := flat_map b_prov (flat_map i_data (c_items c)); k_info := info |}) in *.
  set (T2 := set_table T u (cs ++ [k])) in *.
  assert (HL3 : LInv T0 w1 T2 log nid).
  { eapply LInv_ext with (T := set_table (set_table T u cs) u (set_table T u cs u ++ [k])).
    - intros v. unfold T2, set_table. rewrite Nat.eqb_refl. destruct (Nat.eqb u v); reflexivity.
    - apply LInv_commit; [exact HL2| |].
      2:{ right. eapply new_info_flag; eauto. }
      intros i Hi. eapply new_info_covers with (w := w1) (c := c) (nid := nid); eauto.
      rewrite <- Hts. cbn. exact ECI. }
  assert (Hcm3 : forall v, committed (new_commits T0 T2 v) =
             committed (new_commits T0 T v) ++ (if Nat.eqb u v then pending w v else [])).
  { intros v. assert (new_commits T0 T2 v = new_commits T0 (set_table (set_table T u cs) u (set_table T u cs u ++ [k])) v) as ->.
    { unfold new_commits, T2, set_table. rewrite Nat.eqb_refl. destruct (Nat.eqb u v); reflexivity. }
    rewrite nc_set by apply HL2. destruct (Nat.eqb_spec u v) as [<-|].
    - rewrite committed_app, Hcm2. cbn. rewrite app_nil_r, Hpend. f_equal.
      rewrite !pending_sh. destruct SC as (_ & _ & _ & _ & _ & Hs & _). now rewrite Hs.
    - rewrite app_nil_r. apply Hcm2. }
  destruct out.
  - destruct (c_items c) as [|it0 its] eqn:Eits; [contradiction|].
    injection E as <- <- <-.
    change (advance_durable _) with (after_flush u (it0 :: its) w1). rewrite <- Eits.
    destruct (after_flush_inv u c w1 HI1 Eg) as (HI' & Hsh & Hsy). split; [exact HI'|].
    split.
    + apply after_flush_log; auto. intros p Hp. rewrite Hcm3, Nat.eqb_refl. apply in_or_app. right.
      rewrite pending_sh in *. destruct SC as (_ & _ & _ & _ & _ & Hs & _). now rewrite <- Hs.
    + destruct SC as (E1 & E2 & E3 & E4 & E5 & E6 & E7). constructor; try congruence.
      intros _ _. split; [|split; [|split; [|split]]].
      * rewrite Hsy. now apply map_fst_del_eq.
      * destruct (after_flush_fields u (c_items c) w1) as [-> _]. auto.
      * intros v. rewrite Hsh. destruct (Nat.eqb u v); auto.
      * intros v d Gd. rewrite Hsy in Gd. destruct (Nat.eq_dec u v) as [<-|HN]; [rewrite get_del_same in Gd; discriminate|].
        rewrite get_del_other in Gd by auto. destruct (E7 _ _ Gd) as (c0 & G0 & Et & _). eauto.
      * exact Hcm3.
  - injection E as <- <- <-. split; [auto|split; [auto|]]. apply HfailT. reflexivity.
  - destruct (c_items c) as [|it0 its]; [contradiction|].
    injection E as <- <- <-. split; [auto|split; [auto|]]. apply HfailT. exact Hcm2.
  - destruct (c_items c) as [|it0 its]; [contradiction|].
    injection E as <- <- <-. split; [auto|split; [auto|]]. constructor; congruence || auto.
Qed.

(* ---------- the flush loop ---------- *)
Definition committed_all (T0 T : tables) (w : writer) (v : url) : list prov :=
  committed (new_commits T0 T v) ++ pending w v.

Record loop_ok (T0 : tables) (cf : config) (e : env) (w : writer) (T : tables)
       (w' : writer) (T' : tables) (st : status) : Prop := {
  lk_nopanic : st <> SPanic;
  lk_mem : w_mem w' = w_mem w;
  lk_clean : (forall i, e_out e i <> FCommitFail) ->
             forall v, committed_all T0 T' w' v = committed_all T0 T w v;
  lk_ready : st = SOk -> exists i w1, WInv w1 /\ flush_ready cf (e_now e i) (e_sq_ready e i) w1 = (w', Some None);
  lk_time : forall v c', get v (w_syncs w') = Some c' ->
            exists c, get v (w_syncs w) = Some c /\ c_time c' = c_time c;
  lk_keys : incl (map fst (w_syncs w')) (map fst (w_syncs w))
}.

Lemma flush_loop_inv T0 cf e log nid : forall fuel i w T,
  WInv w -> LInv T0 w T log nid -> (length (w_syncs w) < fuel)%nat ->
  exists w' T' st, flush_loop cf e fuel i w T = Some (w', T', st) /\
    WInv w' /\ LInv T0 w' T' log nid /\ loop_ok T0 cf e w T w' T' st.
Proof.
  induction fuel as [|fuel IH]; intros i w T HI HL Hf; [lia|].
  cbn [flush_loop].
  destruct (flush_ready cf (e_now e i) (e_sq_ready e i) w) as [w1 r] eqn:ER.
  destruct (flush_ready_same _ _ _ _ _ _ HI ER) as (SC & HI1 & Hget).
  pose proof (LInv_same_core _ _ _ _ _ _ SC HL) as HL1.
  pose proof SC as (E1 & E2 & E3 & E4 & E5 & E6 & E7).
  assert (Hca : forall T1 v, committed_all T0 T1 w1 v = committed_all T0 T1 w v).
  { intros T1 v. unfold committed_all. now rewrite !pending_sh, E6. }
  assert (Htm1 : forall v c', get v (w_syncs w1) = Some c' -> exists c, get v (w_syncs w) = Some c /\ c_time c' = c_time c).
  { intros v c' G. destruct (E7 _ _ G) as (c & G' & Et & _). eauto. }
  destruct r as [[u|]|].
  - destruct (Hget u eq_refl) as [c Eg].
    destruct (flush_syncs (e_sq_flush e i) (e_out e i) u w1 T) as [[w2 T2] st] eqn:EF.
    destruct (flush_syncs_inv _ _ _ _ _ _ _ _ _ _ _ HI1 HL1 EF) as (HI2 & HL2 & [Hnp Herr Hcl Hok]).
    destruct st; [| |congruence].
    + destruct Hok as (Hk & Hm & Hsh & Htm & Hcm); [auto|congruence|].
      assert (Hlen : (length (w_syncs w2) < fuel)%nat).
      { rewrite <- (map_length fst), Hk, map_length. pose proof (length_del u (w_syncs w1) c Eg).
        rewrite <- (map_length fst (w_syncs w1)), E5, map_length in H. lia. }
      destruct (IH (S i) w2 T2 HI2 HL2 Hlen) as (w' & T' & st & EL & HI' & HL' & [K1 K2 K3 K4 K5 K6]).
      exists w', T', st. split; [exact EL|]. split; [auto|]. split; [auto|].
      constructor; auto.
      * congruence.
      * intros Hc v. rewrite K3 by auto. unfold committed_all. rewrite Hcm, <- app_assoc. f_equal.
        rewrite (pending_sh w2), Hsh. destruct (Nat.eqb_spec u v) as [<-|].
        -- cbn. rewrite app_nil_r. rewrite !pending_sh. now rewrite E6.
        -- cbn. rewrite !pending_sh. now rewrite E6.
      * intros v c' G. destruct (K5 _ _ G) as (c1 & G1 & Et1). destruct (Htm _ _ G1) as (c2 & G2 & Et2).
        destruct (Htm1 _ _ G2) as (c3 & G3 & Et3). exists c3. split; [auto|congruence].
      * intros v Hv. apply K6 in Hv. rewrite Hk in Hv. apply map_fst_del in Hv. now rewrite E5 in Hv.
    + exists w2, T2, SErr. split; [reflexivity|]. split; [auto|]. split; [auto|].
      specialize (Herr eq_refl). pose proof Herr as (F1 & F2 & F3 & F4 & F5 & F6 & F7).
      constructor; [congruence|congruence| |congruence| |].
      * intros Hc v. unfold committed_all. rewrite Hcl by auto. rewrite !pending_sh, F6, E6. reflexivity.
      * intros v c' G. destruct (F7 _ _ G) as (c1 & G1 & Et1 & _). destruct (Htm1 _ _ G1) as (c2 & G2 & Et2).
        exists c2. split; [auto|congruence].
      * rewrite F5, E5. apply incl_refl.
  - exists w1, T, SOk. split; [reflexivity|]. split; [auto|]. split; [auto|].
    constructor; [congruence|congruence|intros _ v; apply Hca|eauto|exact Htm1|rewrite E5; apply incl_refl].
  - exists w1, T, SErr. split; [reflexivity|]. split; [auto|]. split; [auto|].
    constructor; [congruence|congruence|intros _ v; apply Hca|congruence|exact Htm1|rewrite E5; apply incl_refl].
Qed.

Lemma flush_inv T0 cf e log nid w T :
  WInv w -> LInv T0 w T log nid ->
  exists w' T' st, flush cf e w T = Some (w', T', st) /\
    WInv w' /\ LInv T0 w' T' log nid /\ loop_ok T0 cf e w T w' T' st.
Proof. intros HI HL. apply flush_loop_inv; auto. Qed.

(* ---------- enqueue and the log ---------- *)
Lemma lo_of_bounds w lo n : map fst (w_txs w) = seq lo n -> (lo + n)%nat = w_next w ->
  forall t x, get t (w_txs w) = Some x -> (lo <= t < w_next w)%nat.
Proof.
  intros E En t x G. apply get_In in G. apply (in_map fst) in G. cbn in G. rewrite E in G. apply in_seq in G. lia.
Qed.

Lemma enqueue_log T0 now m w w' T log nid t :
  WInv w -> LInv T0 w T log nid -> (m_rows m = 0 -> m_seq m <> None) ->
  WInv w' -> enq_ok nid now m w w' t ->
  LInv T0 w' T (log ++ [{| l_id := nid; l_msg := m; l_tx := t |}]) (S nid).
Proof.
  intros HI HL Hprobe HI' [(txs & next & EU & Etx & Enx) Hmem Hdur Hsh0 Hsh1 Hsh2 Hfst _ _].
  set (e := {| l_id := nid; l_msg := m; l_tx := t |}).
  destruct HL as [H1 H2 H3 H4 H5 H6 H7 H8 H9 H10 H11 H12 H13].
  destruct (I_ids _ HI) as (lo & n & Eids & Enext).
  apply upsert_spec in EU.
  assert (Ht : (t < next)%nat /\ (lo <= t)%nat /\ (w_next w <= next)%nat /\
               (forall j, (j < w_next w)%nat -> (lo <= j)%nat -> (j <= t)%nat)).
  { destruct EU as [(-> & _ & -> & _ & _)|(pre & x & Ew & _ & _ & _ & ->)].
    - repeat split; try lia.
    - rewrite Ew in Eids. rewrite map_app in Eids. cbn in Eids.
      destruct n as [|n]; [destruct (map fst pre); discriminate|].
      rewrite seq_S in Eids. apply app_inj_tail in Eids. destruct Eids as [_ ->]. repeat split; try lia. }
  destruct Ht as (Ht1 & Ht2 & Ht3 & Ht4).
  assert (Hlo : lo_of w' = lo_of w).
  { destruct (I_ids _ HI') as (lo' & n' & Eids' & Enext').
    rewrite (lo_of_spec _ _ _ Eids' Enext'), (lo_of_spec _ _ _ Eids Enext).
    rewrite Etx in Eids'.
    destruct EU as [(-> & -> & _)|(pre & x & Ew & _ & _ & -> & _)].
    - rewrite map_app, Eids in Eids'. cbn in Eids'. destruct n; destruct n'; cbn in Eids'; try discriminate.
      + injection Eids' as E _. rewrite <- E. lia.
      + now injection Eids'.
    - rewrite Ew in Eids. rewrite map_app in *. cbn in *. rewrite Eids in Eids'.
      destruct n; destruct n'; cbn in Eids'; try discriminate; [|now injection Eids'].
      destruct (map fst pre); discriminate. }
  assert (Hin_le : forall e', In e' log -> (l_tx e' <= t)%nat).
  { intros e' He'. destruct (Nat.lt_ge_cases (l_tx e') lo) as [|Hge]; [lia|].
    apply Ht4; [apply H4; auto|auto]. }
  constructor.
  - intros e' He'. apply in_app_or in He'. destruct He' as [He'|[<-|[]]]; [apply H1 in He'; lia|cbn; lia].
  - rewrite map_app. apply NoDup_snoc; [auto|]. cbn. intros HX. apply in_map_iff in HX.
    destruct HX as (e' & Ee & He'). apply H1 in He'. lia.
  - apply sorted_snoc; [auto|]. intros e' He'. unfold le_tx. cbn. auto.
  - rewrite Enx. intros e' He'. apply in_app_or in He'. destruct He' as [He'|[<-|[]]]; [apply H4 in He'; lia|cbn; lia].
  - intros j x G. rewrite Etx in G. rewrite filter_app, last_seq_app. cbn [filter].
    assert (Hold : forall y, get j (w_txs w) = Some y -> j <> t ->
       t_seq y = (match last_seq (t_origin y) (if in_tx j e then [e] else []) with Some s => Some s | None => last_seq (t_origin y) (filter (in_tx j) log) end) /\
       (forall e0, In e0 (log ++ [e]) -> l_tx e0 = j -> m_origin (l_msg e0) = t_origin y)).
    { intros y Gy HN. destruct (H5 _ _ Gy) as [Ha Hb]. unfold in_tx. cbn [l_tx e].
      destruct (Nat.eqb_spec t j); [congruence|]. cbn. split; [auto|].
      intros e0 He0 El. apply in_app_or in He0. destruct He0 as [He0|[<-|[]]]; [auto|]. cbn in El. congruence. }
    destruct EU as [(Et & -> & _ & _ & _)|(pre & y & Ew & Ey & Eo & -> & _)].
    + rewrite get_app in G. destruct (get j (w_txs w)) as [z|] eqn:Gz.
      * injection G as ->. apply Hold; auto. intros ->.
        pose proof (lo_of_bounds _ _ _ Eids Enext _ _ Gz). lia.
      * cbn in G. destruct (Nat.eqb_spec j t) as [->|]; [|discriminate]. injection G as <-.
        cbn [t_seq t_origin new_tx]. unfold in_tx at 1. cbn [l_tx e]. rewrite Nat.eqb_refl, last_seq_single. cbn [l_msg e]. rewrite Nat.eqb_refl.
        rewrite filter_empty.
        2:{ intros e0 He0. apply H4 in He0. unfold in_tx. apply Nat.eqb_neq. lia. }
        split; [destruct (m_seq m); reflexivity|].
        intros e0 He0 El. apply in_app_or in He0. destruct He0 as [He0|[<-|[]]]; [|reflexivity].
        apply H4 in He0. lia.
    + assert (Hnd : NoDup (map fst (pre ++ [(t, cont_tx m y)]))).
      { rewrite map_app. cbn. pose proof (ids_nodup _ HI) as HN. rewrite Ew, map_app in HN. exact HN. }
      destruct (Nat.eq_dec j t) as [->|HN].
      * rewrite (txs_get_snoc w) in G by auto. injection G as <-.
        assert (Gy : get t (w_txs w) = Some y).
        { rewrite Ew. apply (txs_get_snoc w). rewrite <- Ew. now apply ids_nodup. }
        destruct (H5 _ _ Gy) as [Ha Hb]. cbn [t_seq t_origin cont_tx].
        unfold in_tx at 1. cbn [l_tx e]. rewrite Nat.eqb_refl, last_seq_single. cbn [l_msg e]. rewrite Eo, Nat.eqb_refl.
        split.
        -- rewrite <- Ha, Ey. destruct (m_seq m); reflexivity.
        -- intros e0 He0 El. apply in_app_or in He0. destruct He0 as [He0|[<-|[]]]; [auto|]. cbn. exact Eo.
      * apply Hold; [|auto]. rewrite Ew. rewrite get_app in G |- *. cbn in *.
        destruct (Nat.eqb_spec j t); [congruence|]. exact G.
  - intros o. rewrite Hmem, last_seq_app, last_seq_single. cbn [l_msg e].
    destruct (m_seq m) as [s|].
    + rewrite get_put. destruct (Nat.eqb_spec o (m_origin m)) as [->|HN].
      * now rewrite Nat.eqb_refl.
      * destruct (Nat.eqb_spec (m_origin m) o); [congruence|]. apply H6.
    + destruct (Nat.eqb _ _); apply H6.
  - intros o. rewrite Hdur, H7, Hlo, filter_app. cbn [filter]. unfold before_tx at 3. cbn [l_tx e].
    rewrite (lo_of_spec _ _ _ Eids Enext).
    destruct (Nat.ltb_spec t lo); [lia|]. now rewrite app_nil_r.
  - intros u. destruct (H8 u) as (pre & EA & Hinc). exists pre. split; [|auto].
    rewrite accepted_app, accepted_single, EA, !pending_sh. unfold has_rows. cbn [l_msg e].
    destruct (N.eqb_spec (m_rows m) 0) as [E0|E0]; cbn [negb andb].
    + rewrite app_nil_r. now rewrite Hsh0.
    + destruct (Nat.eqb_spec (m_url m) u) as [<-|HN].
      * rewrite (add_shape_snd _ _ _ _ (Hsh2 E0)), <- app_assoc. do 2 f_equal.
        symmetry. apply (tag_tags e).
      * rewrite app_nil_r, Hsh1 by congruence. reflexivity.
  - intros u s e' p Hs He' Hp Hps. apply in_app_or in He'.
    assert (Hfresh : forall s0, In s0 (sh w u) -> In p (snd s0) -> In e' log).
    { intros s0 Hs0 Hps0. destruct He' as [He'|[<-|[]]]; [auto|]. exfalso.
      destruct (H8 u) as (pre & EA & _).
      assert (HA : In p (accepted_for u log)).
      { rewrite EA. apply in_or_app; right. rewrite pending_sh. apply in_flat_map. eauto. }
      apply accepted_ids in HA. destruct HA as (e0 & He0 & Ef). apply H1 in He0.
      rewrite (tags_id _ _ Hp) in Ef. cbn in Ef. lia. }
    destruct (N.eq_dec (m_rows m) 0) as [E0|E0].
    + rewrite Hsh0 in Hs by auto. eapply H9; eauto.
    + destruct (Nat.eq_dec u (m_url m)) as [->|HN]; [|rewrite Hsh1 in Hs by auto; eapply H9; eauto].
      assert (Hnew : In p (flat_map b_prov (tag nid 0 (m_batches m))) -> e' = e).
      { intros HX. change (In p (flat_map b_prov (tag (l_id e) 0 (m_batches (l_msg e))))) in HX.
        rewrite tag_tags in HX. apply tags_id in HX. cbn in HX.
        destruct He' as [He'|[<-|[]]]; [|reflexivity].
        apply H1 in He'. rewrite (tags_id _ _ Hp) in HX. lia. }
      destruct (add_shape_In _ _ _ _ _ (Hsh2 E0) Hs) as [Hs'|[->|(a & b & Hab & ->)]].
      * eapply H9; eauto.
      * cbn in Hps. rewrite (Hnew Hps). now left.
      * cbn in Hps. apply in_app_or in Hps. cbn. apply in_or_app. destruct Hps as [Hps|Hps].
        -- left. apply (H9 (m_url m) (a, b) e' p Hab); eauto.
        -- right. rewrite (Hnew Hps). now left.
  - exact H10.
  - intros u cs1 k cs2 i E Ei. destruct (H11 _ _ _ _ _ E Ei) as [HC|HR]; [left|right; auto].
    now apply covers_weaken_log.
  - assert (Hskip : forall u e0, last_rows_for u log e0 -> has_rows e = false \/ m_url m <> u ->
                                  last_rows_for u (log ++ [e]) e0).
    { intros u e0 (l1 & l2 & E & Hu & Hr & Hl) Hd. exists l1, (l2 ++ [e]).
      split; [now rewrite E, <- app_assoc|]. split; [auto|]. split; [auto|].
      intros e' He' Hu'. apply in_app_or in He'. destruct He' as [He'|[<-|[]]]; [auto|].
      destruct Hd as [Hd|Hd]; [auto|]. cbn in Hu'. contradiction. }
    intros u pre s Hs. destruct (N.eq_dec (m_rows m) 0) as [E0|E0].
    + rewrite Hsh0 in Hs by auto. destruct (H12 _ _ _ Hs) as (a & e0 & Ea & Hl). exists a, e0. split; [auto|].
      apply Hskip; [auto|left]. unfold has_rows. cbn. now rewrite E0.
    + destruct (Nat.eq_dec u (m_url m)) as [->|HN].
      * assert (Hle : last_rows_for (m_url m) (log ++ [e]) e).
        { exists log, []. repeat split; auto; [|intros ? []]. unfold has_rows. cbn. now destruct (N.eqb_spec (m_rows m) 0). }
        destruct (Hsh2 E0) as [Eq|(pre0 & a & b & Eq1 & Eq2)].
        -- rewrite Eq in Hs. apply app_inj_tail in Hs. destruct Hs as [_ <-]. exists [], e. auto.
        -- rewrite Eq2 in Hs. apply app_inj_tail in Hs. destruct Hs as [_ <-]. exists a, e. auto.
      * rewrite Hsh1 in Hs by auto. destruct (H12 _ _ _ Hs) as (a & e0 & Ea & Hl). exists a, e0. split; [auto|].
        apply Hskip; auto.
  - intros u k E. destruct (H13 _ _ E) as [Hf|(l1 & l2 & El & Hf)]; [auto|right].
    exists l1, (l2 ++ [e]). split; [now rewrite El, app_assoc|auto].
Qed.

(* ---------- the service ---------- *)
Record Inv (T0 : tables) (wd : world) : Prop := {
  inv_w : WInv (wd_w wd);
  inv_l : LInv T0 (wd_w wd) (wd_T wd) (wd_log wd) (wd_id wd)
}.

Lemma inv_init T0 id0 : Inv T0 (init T0 id0).
Proof.
  constructor; cbn.
  - constructor; cbn; try discriminate; try (intros; contradiction); auto.
    + constructor.
    + exists 0%nat, 0%nat. auto.
    + intros [|? ?]; discriminate.
  - constructor; cbn; try discriminate; try (intros; contradiction); auto.
    + constructor.
    + constructor.
    + intros u. exists []. split; [reflexivity|]. intros p [].
    + intros u. unfold new_commits. rewrite skipn_all. now rewrite app_nil_r.
    + intros u cs1 k cs2 i E. unfold new_commits in E. rewrite skipn_all in E. destruct cs1; discriminate.
    + intros u [|? ?] s E; discriminate.
    + intros u k E. unfold new_commits in E. rewrite skipn_all in E. destruct E.
Qed.

Theorem inv_step T0 cf wd ev wd' r : Inv T0 wd -> step cf wd ev = (wd', r) -> Inv T0 wd' /\ r <> RPanic.
Proof.
  intros [HI HL] E. destruct ev as [m lock now0 e|e|u]; cbn [step] in E.
  - destruct ((m_rows m =? 0) && match m_seq m with None => true | Some _ => false end) eqn:EP.
    { injection E as <- <-. split; [constructor; auto|discriminate]. }
    assert (Hprobe : m_rows m = 0 -> m_seq m <> None).
    { intros E0 Es. rewrite E0, Es in EP. discriminate. }
    destruct lock; cbn [negb] in E.
    2:{ injection E as <- <-. split; [constructor; auto|discriminate]. }
    destruct (enqueue_sync cf now0 (wd_id wd) m (wd_w wd)) as [w1 st] eqn:EQ.
    destruct (enqueue_inv _ _ _ _ _ _ _ HI Hprobe EQ) as [(-> & -> & _)|(-> & HI1 & t & Hq)].
    { injection E as <- <-. split; [constructor; cbn; auto|discriminate]. }
    pose proof (enqueue_log _ _ _ _ _ _ _ _ _ HI HL Hprobe HI1 Hq) as HL1.
    assert (Et : match upsert_tx (wd_w wd) m with Some (t0, _, _) => t0 | None => 0%nat end = t).
    { destruct Hq as [(txs & next & EU & _) _ _ _ _ _ _ _ _]. now rewrite EU. }
    rewrite Et in E.
    destruct (flush_inv _ cf e _ _ _ _ HI1 HL1) as (w2 & T2 & st & EF & HI2 & HL2 & HK).
    rewrite EF in E. injection E as <- <-. split; [constructor; auto|].
    destruct st; cbn; [unfold stored; discriminate|discriminate|]. exfalso. eapply lk_nopanic; eauto.
  - destruct (flush_inv _ cf e _ _ _ _ HI HL) as (w2 & T2 & st & EF & HI2 & HL2 & HK).
    rewrite EF in E. injection E as <- <-. split; [constructor; auto|].
    destruct st; [discriminate|discriminate|]. exfalso. eapply lk_nopanic; eauto.
  - destruct (wd_T wd u) as [|k ks] eqn:ET.
    + injection E as <- <-. split; [constructor; auto|discriminate].
    + injection E as <- <-. split; [|discriminate]. constructor; cbn; auto.
      pose proof (LInv_commit T0 (wd_w wd) (wd_T wd) (wd_log wd) (wd_id wd) u create_commit HL) as HC.
      rewrite ET in HC. apply HC; [intros; discriminate|auto].
Qed.

Theorem reachable_inv T0 cf wd : reachable cf T0 wd -> Inv T0 wd.
Proof.
  induction 1 as [id0|wd ev wd' r HR IH HS]; [apply inv_init|]. eapply inv_step; eauto.
Qed.
