(* The theorems about squashing, merging, pruning and flushing, as used in SyncDataProps.v. *)
From Coq Require Import List Arith ZArith Bool Lia Permutation.
From Verif Require Import SyncDataModel SyncDataSpec SyncAbsSquash SyncSquashProofs SyncHistory SyncAbsMerge SyncMergeProofs
  SyncMergeMain SyncApplyProofs SyncPruneProofs SyncFlushProofs SyncFrameProofs.
Import ListNotations.

Local Arguments change_of : simpl never.

(* ----- change flags ----- *)
Lemma read_changed_name sch r n f : read sch r Changed n = Some f -> In n (names_of sch Changed).
Proof.
  unfold read. spec_helpers. destruct (find _ _) as [[c v]|] eqn:Fi; [|discriminate]. intros _.
  apply find_some in Fi as [Fi X]. apply in_combine_l in Fi. cbn in X. apply andb_true_iff in X as [X Y].
  apply Nat.eqb_eq in X. subst n. unfold names_of. apply in_map, filter_In. auto.
Qed.
Lemma one_flag_alike sch r : length (names_of sch Changed) <= 1 -> flags_alike sch r.
Proof.
  intros L n n' f f' F F'. pose proof (read_changed_name _ _ _ _ F) as A. pose proof (read_changed_name _ _ _ _ F') as B.
  assert (E : n = n').
  { destruct (names_of sch Changed) as [|x [|y l]]; cbn in *; try lia; try contradiction; destruct A as [<-|[]], B as [<-|[]]; auto. }
  subst n'. congruence.
Qed.

(* ----- squashing one item ----- *)
Section One.
Variables (pks vals : list nat) (it : list column * list rbatch) (t0 : list value -> option (list value)) (out : list (list value)).
Hypothesis GI : good_item pks it.
Hypothesis W : wide (length vals) t0.
Hypothesis V : valid_stream t0 (item_changes pks vals it).

Lemma squash_one_rows : squash_batches (fst it) (snd it) = squash_rows (fst it) (item_rows it).
Proof. eapply squash_batches_good; eauto. Qed.

Section F.
Hypothesis FA : forall r, In r (item_rows it) -> flags_alike (fst it) r.
Theorem squash_effect : squash_batches (fst it) (snd it) = Some out ->
  at_once (map (change_of pks vals (fst it)) out) t0 (apply_all (item_changes pks vals it) t0).
Proof.
  rewrite squash_one_rows. intros E. destruct GI as (G & _ & _ & R).
  exact (proj1 (squash_rows_correct pks vals (fst it) (item_rows it) out t0 G R FA W V E)).
Qed.
Theorem squash_one_per_row : squash_batches (fst it) (snd it) = Some out ->
  one_per_row (map (change_of pks vals (fst it)) out).
Proof.
  rewrite squash_one_rows. intros E. destruct GI as (G & _ & _ & R).
  apply (squash_rows_correct pks vals (fst it) (item_rows it) out t0 G R FA W V E).
Qed.
Theorem squash_no_temp : squash_batches (fst it) (snd it) = Some out ->
  (forall c, In c (item_changes pks vals it) -> ~ void c) ->
  forall r, In r out -> ~ void (change_of pks vals (fst it) r).
Proof.
  rewrite squash_one_rows. intros E NV. destruct GI as (G & _ & _ & R).
  apply (squash_rows_no_temp pks vals (fst it) (item_rows it) out t0 G R FA W V); auto.
  intros r Hr. apply NV. unfold item_changes. now apply in_map.
Qed.
Theorem squash_history : squash_batches (fst it) (snd it) = Some out ->
  forall r k, In r out -> ch_new (change_of pks vals (fst it) r) = Some k ->
  forall i, nth i (ch_set (change_of pks vals (fst it) r)) None =
            last_assigned i (history (rev (item_changes pks vals it)) k).
Proof.
  rewrite squash_one_rows. intros E. destruct GI as (G & _ & _ & R).
  exact (squash_rows_history pks vals (fst it) (item_rows it) out t0 G R FA W V E).
Qed.
(* the squashed batch has a row for every key that changes, so it is not empty and is accepted *)
Theorem squash_accepts k : apply_all (item_changes pks vals it) t0 k <> t0 k ->
  exists out, squash_batches (fst it) (snd it) = Some out.
Proof.
  intros D. rewrite squash_one_rows. destruct GI as (G & _ & _ & R).
  destruct (squash_refines pks vals (fst it) (item_rows it) G R FA _ t0 W eq_refl V) as [HR HA].
  unfold squash_rows.
  assert (FB : forallb (fun c => negb (role_eqb (c_role c) Changed) || match find_col (fst it) (c_name c) Value with Some _ => true | None => false end) (fst it) = true).
  { apply forallb_forall. intros c Hc. destruct (role_eqb_spec (c_role c) Changed) as [Rc|]; auto. cbn.
    assert (X : has_col (fst it) (c_name c) Value = true).
    { apply has_col_names. destruct G as (_ & _ & _ & _ & CV & _). apply CV. unfold names_of. apply in_map, filter_In. split; auto. now rewrite Rc. }
    unfold has_col in X. destruct (find_col (fst it) (c_name c) Value); auto. }
  rewrite FB. cbn [negb].
  destruct (live_chains (squash_loop (fst it) (item_rows it) (seq 0 (length (item_rows it))))) as [|h l] eqn:L.
  - exfalso. apply D.
    apply (ai_sem _ _ _ _ HA). intros c Hc.
    apply In_nth_error in Hc as (i & Hi).
    assert (Hv : void c).
    { rewrite (ri_chains _ _ _ _ _ _ HR), nth_error_map in Hi.
      destruct (nth_error (q_chains (squash_loop (fst it) (item_rows it) (seq 0 (length (item_rows it))))) i) as [h|] eqn:Hh; [|discriminate].
      destruct (in_dec Nat.eq_dec i (q_temp (squash_loop (fst it) (item_rows it) (seq 0 (length (item_rows it)))))) as [Ht|Ht].
      - apply (ri_temp _ _ _ _ _ _ HR) in Ht as (c' & Hc' & Hv). rewrite (ri_chains _ _ _ _ _ _ HR), nth_error_map, Hh in Hc'.
        cbn in Hi, Hc'. congruence.
      - assert (X : In h (live_chains (squash_loop (fst it) (item_rows it) (seq 0 (length (item_rows it)))))) by (apply live_in; eauto).
        rewrite L in X. contradiction. }
    destruct Hv as [-> ->]. split; discriminate.
  - rewrite andb_false_r. eauto.
Qed.
End F.

Theorem squash_accepts_plain : names_of (fst it) Changed = [] -> exists out, squash_batches (fst it) (snd it) = Some out.
Proof.
  intros C. destruct (squash_all_some pks [it]) as [its S].
  - intros x [<-|[]]. auto.
  - cbn in S. destruct it as [sch data]. cbn [fst snd] in *. destruct (squash_batches sch data); [eauto|discriminate].
Qed.
End One.

(* the chains without a temporary row are output *)
Lemma squash_rows_live pks vals sch rows out t0 :
  good_schema pks sch ->
  (forall r, In r rows -> good_row pks sch r) ->
  (forall r, In r rows -> flags_alike sch r) ->
  wide (length vals) t0 ->
  valid_stream t0 (map (change_of pks vals sch) rows) ->
  squash_rows sch rows = Some out ->
  forall c, ~ void c -> In c (a_chains (final_ast pks vals sch rows)) -> In c (map (change_of pks vals sch) out).
Proof.
  intros Hg Hr Hf Hw V E c Nv Hc.
  destruct (squash_refines pks vals sch rows Hg Hr Hf _ t0 Hw eq_refl V) as [HR HA].
  unfold squash_rows in E.
  destruct (has_changed sch && _); [discriminate|].
  destruct (negb _); [discriminate|]. injection E as <-.
  rewrite (ri_chains _ _ _ _ _ _ HR) in Hc. apply in_map_iff in Hc as (h & Ec & Hh).
  apply In_nth_error in Hh as (i & Hi). rewrite map_map. apply in_map_iff. exists h. split; auto.
  apply live_in. exists i. split; auto. intros Ht.
  apply (ri_temp _ _ _ _ _ _ HR) in Ht as (c' & Hc' & Hv).
  rewrite (ri_chains _ _ _ _ _ _ HR), nth_error_map, Hi in Hc'. cbn in Hc'. injection Hc' as <-.
  apply Nv. rewrite <- Ec. exact Hv.
Qed.

(* ----- every stored key that a change mentions is an old key after squashing ----- *)
Lemma set_nth_in {A} i (x a : A) l : nth_error l i = Some a -> forall y, In y l -> y = a \/ In y (set_nth i x l).
Proof.
  revert i; induction l as [|b l IH]; intros [|i] H y Hy; cbn in *; try discriminate.
  - injection H as ->. destruct Hy as [->|Hy]; auto.
  - destruct Hy as [->|Hy]; auto. destruct (IH i H y Hy); auto.
Qed.
Lemma set_nth_hit {A} i (x a : A) l : nth_error l i = Some a -> In x (set_nth i x l).
Proof. revert i; induction l as [|b l IH]; intros [|i] H; cbn in *; try discriminate; eauto. Qed.

Lemma step_keeps_old w t0 t st c k : AInv w t0 t st ->
  (exists x, In x (a_chains st) /\ ch_old x = Some k) -> exists x, In x (a_chains (a_step st c)) /\ ch_old x = Some k.
Proof.
  intros HA (x & Hx & E). unfold a_step. destruct (a_hit st c) as [id|] eqn:Hit; cbn [a_chains].
  - unfold a_hit in Hit. destruct (ch_old c) as [k0|]; [|discriminate].
    apply (ai_pk _ _ _ _ HA) in Hit as (h & Hh & Hn). rewrite (nth_error_nth _ _ dummy Hh).
    destruct (set_nth_in id {| ch_old := ch_old h; ch_new := ch_new c; ch_set := comp (ch_set c) (ch_set h) |} h _ Hh x Hx) as [->|Hx'].
    + eexists. split; [eapply set_nth_hit; eauto|]. exact E.
    + eauto.
  - exists x. split; auto. apply in_or_app; auto.
Qed.
Lemma step_finds_old w t0 t st c k : AInv w t0 t st -> valid1 t c -> t0 k <> None ->
  (ch_old c = Some k \/ ch_new c = Some k) -> exists x, In x (a_chains (a_step st c)) /\ ch_old x = Some k.
Proof.
  intros HA [Vo Vn] T K.
  assert (EX : (exists x, In x (a_chains st) /\ ch_old x = Some k) \/ ((forall x, In x (a_chains st) -> ch_new x <> Some k /\ ch_old x <> Some k) /\ ch_old c = Some k)).
  { destruct (existsb (fun x => okeqb (ch_old x) k) (a_chains st)) eqn:E.
    - apply existsb_exists in E as (x & Hx & E). destruct (okeqb_spec (ch_old x) k); [eauto|discriminate].
    - right.
      assert (NO : forall x, In x (a_chains st) -> ch_old x <> Some k).
      { intros x Hx Ex. apply not_true_iff_false in E. apply E. apply existsb_exists. exists x. split; auto.
        destruct (okeqb_spec (ch_old x) k); congruence. }
      assert (NN : forall x, In x (a_chains st) -> ch_new x <> Some k).
      { intros x Hx Ex. destruct (ai_free _ _ _ _ HA x k Hx Ex) as [F|(c' & Hc' & F)]; [congruence|]. exact (NO c' Hc' F). }
      split; [auto|]. destruct K as [K|K]; auto. destruct (Vn k K) as [N|N]; auto. exfalso.
      rewrite (proj2 (proj2 (ai_sem _ _ _ _ HA k))) in N; auto. }
  destruct EX as [EX|[NK Ec]]; [eapply step_keeps_old; eauto|].
  unfold a_step. destruct (a_hit st c) as [id|] eqn:Hit; cbn [a_chains].
  - exfalso. unfold a_hit in Hit. rewrite Ec in Hit. apply (ai_pk _ _ _ _ HA) in Hit as (h & Hh & Hn).
    apply nth_error_In in Hh. exact (proj1 (NK h Hh) Hn).
  - exists c. split; auto. apply in_or_app; cbn; auto.
Qed.
Lemma run_finds_old w t0 k cs : t0 k <> None -> wide w t0 -> forall t st,
  AInv w t0 t st -> (forall c, In c cs -> length (ch_set c) = w) -> valid_stream t cs ->
  ((exists x, In x (a_chains st) /\ ch_old x = Some k) \/ key_in cs k) ->
  exists x, In x (a_chains (fold_left a_step cs st)) /\ ch_old x = Some k.
Proof.
  intros T Hw. induction cs as [|c cs IH]; intros t st HA HS V K; cbn.
  - destruct K as [K|(c & [] & _)]. auto.
  - destruct V as [V1 V2]. apply (IH (apply1 c t)); auto.
    + apply AInv_step; auto. apply HS; cbn; auto.
    + intros; apply HS; cbn; auto.
    + destruct K as [K|(c' & [<-|Hc'] & K)].
      * left. eapply step_keeps_old; eauto.
      * left. eapply step_finds_old; eauto.
      * right. exists c'. auto.
Qed.

Lemma apply_all_other cs k : forall t, ~ key_in cs k -> apply_all cs t k = t k.
Proof.
  induction cs as [|c cs IH]; intros t N; cbn; auto. rewrite IH.
  - unfold apply1. destruct (okeqb_spec (ch_new c) k) as [E|E].
    { exfalso. apply N. exists c. cbn. auto. }
    destruct (okeqb_spec (ch_old c) k) as [E'|E']; auto. exfalso. apply N. exists c. cbn. auto.
  - intros (c' & Hc & K). apply N. exists c'. cbn. auto.
Qed.
Lemma key_in_dec cs k : {key_in cs k} + {~ key_in cs k}.
Proof.
  destruct (existsb (fun c => okeqb (ch_old c) k || okeqb (ch_new c) k) cs) eqn:E.
  - left. apply existsb_exists in E as (c & Hc & X). exists c. split; auto. apply orb_true_iff in X as [X|X].
    + destruct (okeqb_spec (ch_old c) k); auto. discriminate.
    + destruct (okeqb_spec (ch_new c) k); auto. discriminate.
  - right. intros (c & Hc & X). apply not_true_iff_false in E. apply E. apply existsb_exists. exists c. split; auto.
    apply orb_true_iff. destruct X as [X|X]; [left|right].
    + destruct (okeqb_spec (ch_old c) k); congruence.
    + destruct (okeqb_spec (ch_new c) k); congruence.
Qed.
Lemma key_in_app cs cs' k : key_in (cs ++ cs') k <-> key_in cs k \/ key_in cs' k.
Proof.
  unfold key_in. split.
  - intros (c & Hc & K). apply in_app_or in Hc as [Hc|Hc]; eauto.
  - intros [(c & Hc & K)|(c & Hc & K)]; exists c; split; auto; apply in_or_app; auto.
Qed.

Lemma items_find_old pks vals items k : forall t its,
  wide (length vals) t -> t k <> None ->
  (forall it, In it items -> good_item pks it /\ forall r, In r (item_rows it) -> flags_alike (fst it) r) ->
  valid_stream t (all_changes pks vals items) ->
  squash_all items = Some its -> key_in (all_changes pks vals items) k ->
  exists it r, In it its /\ In r (snd it) /\ ch_old (change_of pks vals (fst it) r) = Some k.
Proof.
  induction items as [|[sch data] items IH]; intros t its Hw T HG V E K.
  - destruct K as (c & [] & _).
  - cbn in E. destruct (squash_batches sch data) as [rows|] eqn:S; [|discriminate].
    destruct (squash_all items) as [rest|] eqn:SA; [|discriminate]. injection E as <-.
    destruct (HG (sch, data)) as [G F]; [cbn; auto|].
    pose proof (squash_batches_good pks (sch, data) G) as E. cbn [fst snd] in E. rewrite S in E. symmetry in E.
    unfold all_changes in V, K. cbn [flat_map] in V, K. apply valid_app in V as [V1 V2].
    destruct G as (GS & _ & _ & GR). cbn [fst snd] in *.
    assert (HS : forall c, In c (item_changes pks vals (sch, data)) -> length (ch_set c) = length vals).
    { intros c Hc. apply in_map_iff in Hc as (r & <- & _). apply change_len. }
    destruct (key_in_dec (item_changes pks vals (sch, data)) k) as [Y|N].
    + destruct (run_finds_old (length vals) t k (item_changes pks vals (sch, data)) T Hw t {| a_chains := []; a_pk := [] |}) as (x & Hx & Ex); auto.
      { now apply AInv_init. }
      assert (Nv : ~ void x) by (intros [A _]; congruence).
      pose proof (squash_rows_live pks vals sch (item_rows (sch, data)) rows t GS GR F Hw V1 E x Nv Hx) as Hin.
      apply in_map_iff in Hin as (r & Er & Hr). exists (sch, rows), r. cbn. rewrite Er. auto.
    + apply key_in_app in K as [K|K]; [contradiction|].
      destruct (IH (apply_all (item_changes pks vals (sch, data)) t) rest) as (it & r & Hi & Hr & Ek); auto.
      * now apply wide_apply_all.
      * rewrite apply_all_other; auto.
      * intros; apply HG; cbn; auto.
      * exists it, r. cbn. auto.
Qed.

(* ----- closed properties ----- *)
Lemma comp_all_set u l : length l = length u -> Forall (fun o => o <> None) u \/ Forall (fun o => o <> None) l ->
  Forall (fun o : option value => o <> None) (comp u l).
Proof.
  unfold comp. revert l; induction u as [|x u IH]; intros [|y l] L H; try discriminate; cbn; [constructor|].
  injection L as L. constructor.
  - destruct x; [discriminate|]. destruct H as [H|H]; inversion H; subst; congruence.
  - apply IH; auto. destruct H as [H|H]; inversion H; subst; auto.
Qed.
Definition sized (w : nat) (c : change) : Prop := length (ch_set c) = w.
Lemma comp_length u l : length l = length u -> length (comp u l) = length u.
Proof. intros L. unfold comp. rewrite map_length, combine_length. lia. Qed.
Lemma sized_closed w : closed (sized w).
Proof. intros l u Hl Hu _. unfold sized in *. cbn. rewrite comp_length; congruence. Qed.
Lemma all_set_closed w : closed (fun c => sized w c /\ all_set c).
Proof.
  intros l u [Sl Al] [Su Au] M. split; [now apply sized_closed|]. cbn. apply comp_all_set; auto. unfold sized in *. congruence.
Qed.
Lemma in_place_closed w t0 : closed (fun c => sized w c /\ in_place t0 c).
Proof.
  intros l u [Sl Il] [Su Iu] M. split; [now apply sized_closed|]. apply amatch_true in M as (k & Kl & Ku).
  intros n Hn. cbn in *. unfold sized in *.
  assert (AS : all_set u \/ all_set l -> all_set {| ch_old := ch_old l; ch_new := ch_new u; ch_set := comp (ch_set u) (ch_set l) |}).
  { intros H. apply comp_all_set; [congruence|auto]. }
  destruct (Iu n Hn) as [E|[E|[E _]]]; [|auto|congruence].
  assert (k = n) by congruence. subst k. destruct (Il n Kl) as [E'|[E'|E']]; auto.
Qed.
Definition keys_of (KS : list value -> Prop) (c : change) : Prop := forall k, ch_old c = Some k \/ ch_new c = Some k -> KS k.
Lemma keys_of_closed KS : closed (keys_of KS).
Proof. intros l u Hl Hu _ k [K|K]; cbn in K; auto. Qed.
Lemma keeps_key_closed : closed keeps_key.
Proof.
  intros l u Hl Hu M o n Eo En. cbn in *. apply amatch_true in M as (k & Kl & Ku).
  rewrite (Hl o k), (Hu k n); auto.
Qed.

Lemma all_changes_sized pks vals items c : In c (all_changes pks vals items) -> sized (length vals) c.
Proof.
  intros H. apply in_flat_map in H as (it & _ & H). apply in_map_iff in H as (r & <- & _). apply change_len.
Qed.
Lemma all_set_assigned pks vals sch r n : all_set (change_of pks vals sch r) -> In n vals -> assigned sch r n <> None.
Proof. intros A Hn. unfold all_set in A. cbn in A. rewrite Forall_forall in A. apply A. now apply in_map. Qed.

Lemma full_rows_set pks vals it c : good_item pks it -> full_rows vals it -> In c (item_changes pks vals it) -> all_set c.
Proof.
  intros (G & _ & _ & R) [NC FV] H. apply in_map_iff in H as (r & <- & Hr). unfold all_set. cbn. apply Forall_forall.
  intros o Ho. apply in_map_iff in Ho as (n & <- & Hn). destruct (R r Hr) as (L & _).
  rewrite assigned_fset by (auto; apply G). unfold fset.
  assert (X : has_col (fst it) n Value = true) by (apply has_col_names; auto). unfold has_col in X.
  destruct (find_col (fst it) n Value); [|discriminate].
  destruct (find_col (fst it) n Changed) as [j|] eqn:Ch; [|discriminate]. exfalso.
  assert (Y : In n (names_of (fst it) Changed)) by (apply has_col_names; unfold has_col; now rewrite Ch). rewrite NC in Y. contradiction.
Qed.
Lemma no_flags_alike sch r : names_of sch Changed = [] -> flags_alike sch r.
Proof. intros H. apply one_flag_alike. rewrite H. cbn. lia. Qed.

Section Flush.
Variables (bt : nat) (tcols pks vals : list nat) (files : list (list (list value))) (st : fstats)
          (pp : list (list (nat * (value * value))) -> list bool).
Hypothesis TGT : good_target tcols pks vals files st pp.
Notation t0 := (table_of tcols pks vals (concat files)).
Variable items : list (list column * list rbatch).
Hypothesis GI : forall it, In it items -> good_item pks it /\ forall r, In r (item_rows it) -> flags_alike (fst it) r.
Hypothesis V : valid_stream t0 (all_changes pks vals items).

Lemma flush_main result :
  keys_told (all_changes pks vals items) ->
  (forall c, In c (all_changes pks vals items) -> in_place t0 c) ->
  (forall its, squash_all items = Some its -> map fst its = map fst items ->
     (forall it, In it its -> good_schema pks (fst it) /\ forall r, In r (snd it) -> good_row pks (fst it) r) ->
     match its with [] => True | it :: rest => merge_ok bt pks vals it rest end) ->
  flush_rows bt pp st tcols files items = Some result ->
  holds tcols pks vals result (apply_all (all_changes pks vals items) t0).
Proof.
  intros KT IP MO E. destruct TGT as (GC & GT & PP & SO).
  destruct KT as [KP|KF].
  - refine (flush_correct bt tcols pks vals files st pp GC GT PP SO (fun c => (sized (length vals) c /\ in_place t0 c) /\ keeps_key c) items result _ _ GI V _ _ E).
    + apply closed_and; [apply in_place_closed|apply keeps_key_closed].
    + intros c [[_ I] K]. split; [|exact I]. intros o n Eo En. left. eauto.
    + intros c Hc. split; [split|]; auto. eapply all_changes_sized; eauto.
    + intros its A B _ D. now apply MO.
  - refine (flush_correct bt tcols pks vals files st pp GC GT PP SO (fun c => (sized (length vals) c /\ in_place t0 c) /\ keys_of (key_in (all_changes pks vals items)) c) items result _ _ GI V _ _ E).
    + apply closed_and; [apply in_place_closed|apply keys_of_closed].
    + intros c [[_ I] K]. split; [|exact I]. intros o n Eo En.
      destruct (value_eq_dec (hd VNull o) (hd VNull n)) as [H|H]; [left; apply KF; auto|auto].
    + intros c Hc. split; [split|]; auto. { eapply all_changes_sized; eauto. } intros k K. exists c. auto.
    + intros its A B _ D. now apply MO.
Qed.

(* later items with all columns *)
Lemma later_full its : squash_all items = Some its ->
  (forall c, In c (all_changes pks vals (tl items)) -> all_set c) ->
  match its with [] => True | it :: rest => merge_ok bt pks vals it rest end.
Proof.
  intros S A. destruct TGT as (GC & GT & PP & SO).
  destruct items as [|[sch data] rest]; [injection S as <-; exact I|].
  cbn [squash_all] in S. destruct (squash_batches sch data) as [rows|]; [|discriminate].
  destruct (squash_all rest) as [rest'|] eqn:SR; [|discriminate]. injection S as <-. cbn [tl] in A.
  unfold all_changes in V. cbn [flat_map] in V. apply valid_app in V as [V1 V2].
  apply merge_ok_full. intros it u Hi Hu n Hn.
  assert (W' : wide (length vals) (apply_all (item_changes pks vals (sch, data)) t0)).
  { apply wide_apply_all; [apply table_wide|]. intros c Hc. apply in_map_iff in Hc as (r & <- & _). apply change_len. }
  destruct (squash_all_run pks vals (fun c => sized (length vals) c /\ all_set c) rest (all_set_closed (length vals)) _ rest' W') as (_ & X & _); auto.
  - intros; apply GI; cbn; auto.
  - intros c Hc. split; auto. eapply all_changes_sized; eauto.
  - eapply all_set_assigned; eauto. apply (X it); auto. now apply in_map.
Qed.

(* the first item arbitrary, the later ones with all columns *)
Theorem flush_first_partial result :
  keys_told (all_changes pks vals items) ->
  (forall c, In c (all_changes pks vals items) -> in_place t0 c) ->
  (forall c, In c (all_changes pks vals (tl items)) -> all_set c) ->
  flush_rows bt pp st tcols files items = Some result ->
  holds tcols pks vals result (apply_all (all_changes pks vals items) t0).
Proof. intros KT IP A E. apply flush_main; auto. intros its S _ _. now apply later_full. Qed.

(* all rows full *)
Theorem flush_full result :
  keys_told (all_changes pks vals items) -> (forall c, In c (all_changes pks vals items) -> all_set c) ->
  flush_rows bt pp st tcols files items = Some result ->
  holds tcols pks vals result (apply_all (all_changes pks vals items) t0).
Proof.
  intros KT A E. apply flush_first_partial; auto.
  - intros c Hc n _. right. left. auto.
  - intros c Hc. apply A. destruct items; auto. cbn in *. apply in_or_app; auto.
Qed.

(* two items without change flags *)
Theorem flush_two a b result :
  items = [a; b] -> names_of (fst a) Changed = [] -> names_of (fst b) Changed = [] ->
  keys_told (all_changes pks vals items) -> (forall c, In c (all_changes pks vals items) -> in_place t0 c) ->
  flush_rows bt pp st tcols files items = Some result ->
  holds tcols pks vals result (apply_all (all_changes pks vals items) t0).
Proof.
  intros EI Ca Cb KT IP E. apply flush_main; auto. intros its S M GG. rewrite EI in M.
  destruct its as [|ia [|ib [|? ?]]]; try discriminate M. cbn in M. injection M as Ma Mb. cbn [merge_ok]. split; auto.
  intros l u Hl Hu _ n Hn.
  assert (NC : forall it : list column * list rbatch, names_of (fst it) Changed = [] -> has_col (fst it) n Changed = false).
  { intros it H. apply not_true_iff_false. intros X. apply has_col_names in X. rewrite H in X. contradiction. }
  rewrite Ma, Mb.
  destruct (has_col (fst b) n Value) eqn:HV; [left|right; right; split; auto; now apply NC].
  destruct (GG ib) as [G R]; [cbn; auto|]. rewrite Mb in *. destruct (R u Hu) as (L & _).
  rewrite assigned_fset by (auto; apply G). unfold fset.
  pose proof (NC b Cb) as NB. unfold has_col in HV, NB. destruct (find_col (fst b) n Value); [|discriminate].
  destruct (find_col (fst b) n Changed); [discriminate|]. discriminate.
Qed.

(* every item carries the columns of the earlier ones *)
Lemma merge_ok_wider : forall its acc, from (fun _ => True) pks acc ->
  (forall it, In it its -> from (fun _ => True) pks it) ->
  (forall it, In it its -> names_of (fst it) Changed = [] /\ forall n, In n (names_of (fst acc) Value) -> In n (names_of (fst it) Value)) ->
  ForallOrdPairs (fun a b => forall n, In n (names_of (fst a) Value) -> In n (names_of (fst b) Value)) its ->
  merge_ok bt pks vals acc its.
Proof.
  induction its as [|it its IH]; intros acc FA FI W P; cbn; auto. split.
  - intros l u Hl Hu _ n Hn. destruct (W it) as [NC WV]; [cbn; auto|].
    destruct (FI it) as [GS GR]; [cbn; auto|]. destruct FA as [GA RA].
    destruct (GR u Hu) as ((L & _) & _). destruct (RA l Hl) as ((LA & _) & _).
    destruct (has_col (fst it) n Value) eqn:HV; [left|right; left].
    + rewrite assigned_fset by (auto; apply GS). unfold fset.
      assert (NB : has_col (fst it) n Changed = false).
      { apply not_true_iff_false. intros X. apply has_col_names in X. rewrite NC in X. contradiction. }
      unfold has_col in HV, NB. destruct (find_col (fst it) n Value); [|discriminate].
      destruct (find_col (fst it) n Changed); [discriminate|]. discriminate.
    + rewrite assigned_fset by (auto; apply GA). unfold fset.
      destruct (find_col (fst acc) n Value) eqn:HA; [|reflexivity]. exfalso.
      assert (X : has_col (fst it) n Value = true); [|congruence].
      apply has_col_names, WV, has_col_names. unfold has_col. now rewrite HA.
  - inversion P as [|? ? P1 P2]; subst. apply IH; auto.
    + destruct acc as [sch rows], it as [usch us]. apply merge_from; [auto|]. apply FI; cbn; auto.
    + intros; apply FI; cbn; auto.
    + intros it' Hi. split; [apply W; cbn; auto|]. intros n Hn.
      apply (merge_names bt pks) in Hn as [Hn|Hn]; [|  |apply FA|apply FI; cbn; auto].
      * apply W; cbn; auto.
      * rewrite Forall_forall in P1. now apply (P1 it').
Qed.
Theorem flush_widening result :
  widening items -> keys_told (all_changes pks vals items) ->
  (forall c, In c (all_changes pks vals items) -> in_place t0 c) ->
  flush_rows bt pp st tcols files items = Some result ->
  holds tcols pks vals result (apply_all (all_changes pks vals items) t0).
Proof.
  intros W KT IP E. apply flush_main; auto. intros its S M GG.
  destruct (squash_all_from (fun _ => True) pks items its) as [FR _]; auto. { intros it Hi. now apply GI. }
  assert (WI : match its with [] => True | it :: rest =>
     (forall it', In it' rest -> names_of (fst it') Changed = [] /\ forall n, In n (names_of (fst it) Value) -> In n (names_of (fst it') Value)) /\
     ForallOrdPairs (fun a b => forall n, In n (names_of (fst a) Value) -> In n (names_of (fst b) Value)) rest end).
  { assert (FP : forall (xs : list (list column * list (list value))) (ys : list (list column * list rbatch)),
       map fst xs = map fst ys -> widening ys -> ForallOrdPairs (fun a b => forall n, In n (names_of (fst a) Value) -> In n (names_of (fst b) Value)) xs /\
       match xs with [] => True | x :: r => forall x', In x' r -> names_of (fst x') Changed = [] end).
    { clear. induction xs as [|x xs IH]; intros [|y ys] E W; try discriminate; [split; [constructor|exact I]|].
      cbn in E, W. injection E as E1 E2. destruct W as [W1 W2].
      assert (TR : forall x', In x' xs -> exists y', In y' ys /\ fst x' = fst y').
      { intros x' Hx. apply (in_map fst) in Hx. rewrite E2 in Hx. apply in_map_iff in Hx as (y' & Ey & Hy). eauto. }
      split.
      - constructor; [|apply (IH ys); auto]. apply Forall_forall. intros x' Hx n. destruct (TR x' Hx) as (y' & Hy & Ey).
        rewrite Ey, E1. now apply W1.
      - intros x' Hx. destruct (TR x' Hx) as (y' & Hy & Ey). rewrite Ey. now apply W1. }
    destruct (FP its items M W) as [A B]. destruct its as [|it rest]; auto. inversion A as [|? ? A1 A2]; subst. split; auto.
    intros it' Hi. split; auto. rewrite Forall_forall in A1. now apply A1. }
  destruct its as [|it rest]; auto. destruct WI as [W1 W2]. apply merge_ok_wider; auto.
  - apply FR; cbn; auto.
  - intros; apply FR; cbn; auto.
Qed.

Theorem flush_prune its keep k f rows row :
  squash_all items = Some its -> prune_partitions pp its st (length files) = Some keep ->
  key_in (all_changes pks vals items) k ->
  nth_error files f = Some rows -> In row rows -> row_key tcols pks row = k -> nth f keep false = true.
Proof.
  intros S P K Hf Hr Ek. destruct TGT as (GC & GT & PP & SO).
  assert (T : t0 k <> None).
  { rewrite (table_some tcols pks vals (concat files) k row); auto; [discriminate|]. apply in_concat. exists rows. split; auto. eapply nth_error_In; eauto. }
  destruct (items_find_old pks vals items k t0 its (table_wide tcols pks vals _) T GI V S K) as (it & r & Hi & Hr' & Eo).
  destruct (squash_all_run pks vals (fun _ => True) items (fun _ _ _ _ _ => I) t0 its (table_wide tcols pks vals _) GI V (fun _ _ => I) S) as (R & _ & _).
  exact (prune_sound tcols pks its (run_items_good _ _ _ _ _ R) files st pp PP SO keep it r OldPk k f rows row P Hi Hr' (or_introl eq_refl) Eo Hf Hr Ek).
Qed.
End Flush.

(* a single key column *)
Lemma key_length pks sch r ro k : as_key (read_key sch r ro pks) = Some k -> length k = length pks.
Proof. intros H. apply as_key_some in H. rewrite <- H. apply map_length. Qed.
Lemma single_told pk vals items : keys_told (all_changes [pk] vals items).
Proof.
  right. assert (L : forall k, key_in (all_changes [pk] vals items) k -> length k = 1).
  { intros k (c & Hc & K). apply in_flat_map in Hc as (it & _ & Hc). apply in_map_iff in Hc as (r & <- & _). unfold change_of in K. cbn [ch_old ch_new] in K.
    destruct K as [K|K]; apply (key_length [pk]) in K; auto. }
  intros k k' Hk Hk' E. apply L in Hk. apply L in Hk'.
  destruct k as [|a [|? ?]]; try discriminate. destruct k' as [|b [|? ?]]; try discriminate. cbn in E. now subst.
Qed.

(* ----- sending changes again ----- *)
Lemma upsert_closed w : closed (fun c => sized w c /\ upsert c).
Proof.
  intros l u [Sl (Al & Nl & Kl)] [Su (Au & Nu & Ku)] M. split; [now apply sized_closed|]. split; [|split].
  - cbn. apply comp_all_set; auto. unfold sized in *. congruence.
  - exact Nu.
  - now apply keeps_key_closed.
Qed.
Lemma upsert_old c k : upsert c -> ch_old c = Some k -> ch_new c = Some k.
Proof. intros (_ & N & K) E. destruct (ch_new c) as [n|] eqn:En; [|congruence]. now rewrite (K k n E En). Qed.

Lemma step_keeps_new w t0 t st c k : AInv w t0 t st -> upsert c ->
  (exists x, In x (a_chains st) /\ ch_new x = Some k) -> exists x, In x (a_chains (a_step st c)) /\ ch_new x = Some k.
Proof.
  intros HA U (x & Hx & E). unfold a_step. destruct (a_hit st c) as [id|] eqn:Hit; cbn [a_chains].
  - unfold a_hit in Hit. destruct (ch_old c) as [k0|] eqn:Ec; [|discriminate].
    apply (ai_pk _ _ _ _ HA) in Hit as (h & Hh & Hn). rewrite (nth_error_nth _ _ dummy Hh).
    destruct (set_nth_in id {| ch_old := ch_old h; ch_new := ch_new c; ch_set := comp (ch_set c) (ch_set h) |} h _ Hh x Hx) as [->|Hx'].
    + eexists. split; [eapply set_nth_hit; eauto|]. cbn. apply upsert_old in Ec; auto. congruence.
    + eauto.
  - exists x. split; auto. apply in_or_app; auto.
Qed.
Lemma step_adds_new w t0 t st c k : AInv w t0 t st -> ch_new c = Some k -> exists x, In x (a_chains (a_step st c)) /\ ch_new x = Some k.
Proof.
  intros HA E. unfold a_step. destruct (a_hit st c) as [id|] eqn:Hit; cbn [a_chains].
  - unfold a_hit in Hit. destruct (ch_old c) as [k0|] eqn:Ec; [|discriminate].
    apply (ai_pk _ _ _ _ HA) in Hit as (h & Hh & Hn). eexists. split; [eapply set_nth_hit; eauto|]. exact E.
  - exists c. split; auto. apply in_or_app; cbn; auto.
Qed.
Lemma run_new w t0 k cs : wide w t0 -> forall t st,
  AInv w t0 t st -> (forall c, In c cs -> length (ch_set c) = w) -> valid_stream t cs -> (forall c, In c cs -> upsert c) ->
  ((exists x, In x (a_chains st) /\ ch_new x = Some k) \/ (exists c, In c cs /\ ch_new c = Some k)) ->
  exists x, In x (a_chains (fold_left a_step cs st)) /\ ch_new x = Some k.
Proof.
  intros Hw. induction cs as [|c cs IH]; intros t st HA HS V U K; cbn.
  - destruct K as [K|(c & [] & _)]. auto.
  - destruct V as [V1 V2]. apply (IH (apply1 c t)); auto.
    + apply AInv_step; auto. apply HS; cbn; auto.
    + intros; apply HS; cbn; auto.
    + intros; apply U; cbn; auto.
    + destruct K as [K|(c' & [<-|Hc'] & K)].
      * left. eapply step_keeps_new; eauto. apply U; cbn; auto.
      * left. eapply step_adds_new; eauto.
      * right. exists c'. auto.
Qed.
Lemma items_find_new pks vals items k : forall t its,
  wide (length vals) t ->
  (forall it, In it items -> good_item pks it /\ forall r, In r (item_rows it) -> flags_alike (fst it) r) ->
  valid_stream t (all_changes pks vals items) -> (forall c, In c (all_changes pks vals items) -> upsert c) ->
  squash_all items = Some its -> (exists c, In c (all_changes pks vals items) /\ ch_new c = Some k) ->
  exists it c, In it its /\ In c (map (change_of pks vals (fst it)) (snd it)) /\ ch_new c = Some k.
Proof.
  induction items as [|[sch data] items IH]; intros t its Hw HG V U E K.
  - destruct K as (c & [] & _).
  - cbn in E. destruct (squash_batches sch data) as [rows|] eqn:S; [|discriminate].
    destruct (squash_all items) as [rest|] eqn:SA; [|discriminate]. injection E as <-.
    destruct (HG (sch, data)) as [G F]; [cbn; auto|].
    pose proof (squash_batches_good pks (sch, data) G) as E. cbn [fst snd] in E. rewrite S in E. symmetry in E.
    unfold all_changes in V, K. cbn [flat_map] in V, K. apply valid_app in V as [V1 V2].
    destruct G as (GS & _ & _ & GR). cbn [fst snd] in *.
    assert (HS : forall c, In c (item_changes pks vals (sch, data)) -> length (ch_set c) = length vals).
    { intros c Hc. apply in_map_iff in Hc as (r & <- & _). apply change_len. }
    assert (U1 : forall c, In c (item_changes pks vals (sch, data)) -> upsert c).
    { intros c Hc. apply U. cbn. apply in_or_app; auto. }
    destruct K as (c & Hc & K). apply in_app_or in Hc as [Hc|Hc].
    + destruct (run_new (length vals) t k (item_changes pks vals (sch, data)) Hw t {| a_chains := []; a_pk := [] |}) as (x & Hx & Ex); eauto.
      { now apply AInv_init. }
      assert (Nv : ~ void x) by (intros [_ A]; congruence).
      pose proof (squash_rows_live pks vals sch (item_rows (sch, data)) rows t GS GR F Hw V1 E x Nv Hx) as Hin.
      exists (sch, rows), x. cbn. auto.
    + destruct (IH (apply_all (item_changes pks vals (sch, data)) t) rest) as (it & x & Hi & Hx & Ek); auto.
      * now apply wide_apply_all.
      * intros; apply HG; cbn; auto.
      * intros c' Hc'. apply U. cbn. apply in_or_app; auto.
      * eauto.
      * exists it, x. cbn. auto.
Qed.

Section Again.
Variables (bt : nat) (tcols pks vals : list nat) (files : list (list (list value))) (st : fstats)
          (pp : list (list (nat * (value * value))) -> list bool).
Hypothesis TGT : good_target tcols pks vals files st pp.
Notation t1 := (table_of tcols pks vals (concat files)).
Variables (items : list (list column * list rbatch)) (tp : list value -> option (list value)) (q1 q2 : list change).
Hypothesis GI : forall it, In it items -> good_item pks it /\ forall r, In r (item_rows it) -> flags_alike (fst it) r.
Hypothesis WP : wide (length vals) tp.
Hypothesis EQ : all_changes pks vals items = q1 ++ q2.
Hypothesis V : valid_stream tp (q1 ++ q2).
Hypothesis T1 : forall k, t1 k = apply_all q1 tp k.
Hypothesis U : forall c, In c (q1 ++ q2) -> upsert c.

Theorem flush_again result :
  flush_rows bt pp st tcols files items = Some result ->
  holds tcols pks vals result (apply_all (q1 ++ q2) tp).
Proof.
  intros E. destruct TGT as (GC & GT & PP & SO). rewrite <- EQ in V, U |- *.
  unfold flush_rows in E. destruct (squash_all items) as [its|] eqn:S; [|discriminate].
  destruct (plan_delta_syncs bt pp st tcols files its) as [[old new]|] eqn:PL; [|discriminate]. injection E as <-.
  set (C := fun c => sized (length vals) c /\ upsert c).
  assert (HC : closed C) by apply upsert_closed.
  assert (CA : forall c, In c (all_changes pks vals items) -> C c).
  { intros c Hc. split; auto. eapply all_changes_sized; eauto. }
  destruct (squash_all_run pks vals C items HC tp its WP GI V CA S) as (R & CS & M).
  assert (NE : its <> []).
  { intros ->. unfold plan_delta_syncs in PL. destruct (prune_partitions _ _ _ _); discriminate. }
  assert (MO : match its with [] => True | it :: rest => merge_ok bt pks vals it rest end).
  { destruct its as [|it rest]; auto. apply merge_ok_full. intros it' u Hi Hu n Hn. eapply all_set_assigned; eauto.
    apply (CS it'); [cbn; auto|]. now apply in_map. }
  destruct (merged_items bt pks vals C its tp _ HC WP NE R CS MO) as (sch & rows & SS & G & GR & NET & AO & CL & NEW).
  assert (CU : forall c, In c (map (change_of pks vals sch) rows) -> upsert c) by (intros c Hc; apply CL in Hc; apply Hc).
  assert (LS : forall c, In c (map (change_of pks vals sch) rows) -> length (ch_set c) = length vals).
  { intros c Hc. apply in_map_iff in Hc as (r & <- & _). apply change_len. }
  refine (plan_apply bt tcols pks vals files st pp GC GT PP SO its sch rows _ old new SS (run_items_good _ _ _ _ _ R) G GR (net_one _ _ NET) _ _ PL).
  - intros c Hc. split; [now apply CL|]. split.
    + intros o n Eo En. left. exact (proj2 (proj2 (CU c Hc)) o n Eo En).
    + intros n Hn. apply (new_vals_all _ _ _ (length vals)); auto; [apply (CU c Hc)| |].
      * intros vs. apply table_wide.
      * apply wide_old. apply table_wide.
  - intros k. destruct (AO k) as (A1 & A2 & A3). split; [|split].
    + intros c Hc En. rewrite (A1 c Hc En). f_equal. apply (new_vals_all _ _ _ (length vals)); auto; [apply (CU c Hc)| |].
      * now apply wide_old.
      * apply wide_old. apply table_wide.
    + intros NN (c & Hc & Eo). exfalso. apply (NN c Hc). apply upsert_old; auto.
    + intros NK. rewrite A3 by auto. rewrite T1. symmetry. apply apply_all_other. intros (c & Hc & K).
      assert (Hca : In c (all_changes pks vals items)) by (rewrite EQ; apply in_or_app; auto).
      assert (K' : ch_new c = Some k) by (destruct K as [K|K]; auto; apply upsert_old; auto).
      destruct (items_find_new pks vals items k tp its WP GI V U S) as (it & x & Hi & Hx & Ex); [eauto|].
      destruct (NEW (fun c k (Cc : C c) => upsert_old c k (proj2 Cc)) it x k Hi Hx Ex) as (y & Hy & Ey).
      exact (proj1 (NK y Hy) Ey).
Qed.
End Again.

(* ----- schemas ----- *)
Lemma role_eqb_eq a b : role_eqb a b = true <-> a = b.
Proof. destruct (role_eqb_spec a b); split; congruence. Qed.
Lemma compatible_eq : forall a b, length a = length b -> compatible a b = true -> a = b.
Proof.
  unfold compatible. induction a as [|x a IH]; intros [|y b] L H; try discriminate; auto. cbn in H.
  apply andb_true_iff in H as [H1 H2]. apply andb_true_iff in H1 as [H1 H3]. apply andb_true_iff in H1 as [H1 H4].
  apply Nat.eqb_eq in H1. apply Nat.eqb_eq in H3. apply role_eqb_eq in H4.
  f_equal; [destruct x, y; cbn in *; congruence|]. apply IH; auto.
Qed.
Lemma compatible_refl a : compatible a a = true.
Proof. unfold compatible. induction a as [|x a IH]; cbn; auto. rewrite !Nat.eqb_refl, IH. destruct (c_role x); reflexivity. Qed.

Lemma parse_cols_iff descs fields sch : parse_cols descs fields = Some sch <->
  descs = map (fun c => (Some (c_role c), c_name c)) sch /\ fields = map c_type sch.
Proof.
  revert fields sch; induction descs as [|[[ro|] n] ds IH]; intros [|t fs] sch; cbn.
  - split; [intros [= <-]; auto|]. intros [A _]. destruct sch; [auto|discriminate].
  - split; [discriminate|]. intros [A B]. destruct sch; [discriminate|discriminate].
  - split; [discriminate|]. intros [A B]. destruct sch; discriminate.
  - destruct (parse_cols ds fs) as [cs|] eqn:P.
    + split.
      * intros [= <-]. apply IH in P as [-> ->]. auto.
      * intros [A B]. destruct sch as [|c sch]; [discriminate|]. cbn in A, B. injection A as -> -> A. injection B as -> B.
        assert (X : Some cs = Some sch) by (rewrite <- P; now apply IH). injection X as ->. destruct c; reflexivity.
    + split; [discriminate|]. intros [A B]. destruct sch as [|c sch]; [discriminate|]. cbn in A, B. injection A as -> -> A. injection B as -> B.
      assert (X : None = Some sch) by (rewrite <- P; now apply IH). discriminate.
  - split; [discriminate|]. intros [A B]. destruct sch; discriminate.
  - split; [discriminate|]. intros [A B]. destruct sch; discriminate.
Qed.
Lemma pk_set_iff a b : pk_set_eq a b = true <-> forall p, In p a <-> In p b.
Proof.
  unfold pk_set_eq. rewrite andb_true_iff, !forallb_forall.
  assert (X : forall p l, existsb (fun q : nat * nat => Nat.eqb (fst p) (fst q) && Nat.eqb (snd p) (snd q)) l = true <-> In p l).
  { intros [x y] l. rewrite existsb_exists. split.
    - intros ([x' y'] & H & E). cbn in E. apply andb_true_iff in E as [E1 E2]. apply Nat.eqb_eq in E1. apply Nat.eqb_eq in E2. now subst.
    - intros H. exists (x, y). cbn. now rewrite !Nat.eqb_refl. }
  split.
  - intros [A B] p. split; intros H; apply X; [now apply A|now apply B].
  - intros H. split; intros p Hp; apply X; now apply H.
Qed.
Lemma typed_in sch ro n t : In (n, t) (typed_names sch ro) <-> exists c, In c sch /\ c_role c = ro /\ c_name c = n /\ c_type c = t.
Proof.
  unfold typed_names. rewrite in_map_iff. split.
  - intros (c & [= <- <-] & H). apply filter_In in H as [H R]. apply role_eqb_eq in R. eauto.
  - intros (c & H & R & <- & <-). exists c. split; auto. apply filter_In. split; auto. now apply role_eqb_eq.
Qed.
Theorem try_new_iff bool_type descs fields sch :
  try_new bool_type descs fields true = Some sch <->
  descs = map (fun c => (Some (c_role c), c_name c)) sch /\ fields = map c_type sch /\ usable bool_type sch.
Proof.
  unfold try_new. destruct (Nat.eqb_spec (length descs) (length fields)) as [L|L]; cbn [negb].
  2:{ split; [discriminate|]. intros (-> & -> & _). rewrite !map_length in L. congruence. }
  destruct (parse_cols descs fields) as [s|] eqn:P.
  2:{ split; [discriminate|]. intros (A & B & _). assert (X : None = Some sch) by (rewrite <- P; now apply parse_cols_iff). discriminate. }
  assert (CF : forallb (fun c => match c_role c with
                                   | Changed => Nat.eqb (c_type c) bool_type &&
                                                existsb (fun d => role_eqb (c_role d) Value && Nat.eqb (c_name d) (c_name c)) s
                                   | _ => true end) s = true <->
               forall c, In c s -> c_role c = Changed -> c_type c = bool_type /\ exists d, In d s /\ c_role d = Value /\ c_name d = c_name c).
  { rewrite forallb_forall. split.
    - intros H c Hc R. specialize (H c Hc). rewrite R in H. apply andb_true_iff in H as [H1 H2]. apply Nat.eqb_eq in H1.
      split; auto. apply existsb_exists in H2 as (d & Hd & H2). apply andb_true_iff in H2 as [H2 H3].
      apply role_eqb_eq in H2. apply Nat.eqb_eq in H3. eauto.
    - intros H c Hc. destruct (c_role c) eqn:R; auto. destruct (H c Hc R) as (-> & d & Hd & Rd & Nd).
      rewrite Nat.eqb_refl. cbn. apply existsb_exists. exists d. split; auto. rewrite Nd, Nat.eqb_refl, Rd. reflexivity. }
  assert (PF : match typed_names s OldPk, typed_names s NewPk with
                 | [], _ | _, [] => true
                 | o, n => negb (pk_set_eq o n) end = false <->
               (exists c, In c s /\ c_role c = OldPk) /\
               (forall n t, (exists c, In c s /\ c_role c = OldPk /\ c_name c = n /\ c_type c = t) <->
                            (exists c, In c s /\ c_role c = NewPk /\ c_name c = n /\ c_type c = t))).
  { assert (Q : (forall p, In p (typed_names s OldPk) <-> In p (typed_names s NewPk)) <->
                (forall n t, (exists c, In c s /\ c_role c = OldPk /\ c_name c = n /\ c_type c = t) <->
                            (exists c, In c s /\ c_role c = NewPk /\ c_name c = n /\ c_type c = t))).
    { split; [intros H n t|intros H [n t]].
      - rewrite <- !typed_in. apply H.
      - rewrite !typed_in. apply H. }
    assert (N : typed_names s OldPk <> [] <-> exists c, In c s /\ c_role c = OldPk).
    { split.
      - intros H. destruct (typed_names s OldPk) as [|[n t] l] eqn:T; [congruence|].
        assert (X : In (n, t) (typed_names s OldPk)) by (rewrite T; cbn; auto). apply typed_in in X as (c & Hc & R & _). eauto.
      - intros (c & Hc & R) T. assert (X : In (c_name c, c_type c) (typed_names s OldPk)) by (apply typed_in; eauto). rewrite T in X. contradiction. }
    rewrite <- N, <- Q, <- pk_set_iff.
    destruct (typed_names s OldPk) as [|p l]; [split; [discriminate|]; intros [X _]; congruence|].
    destruct (typed_names s NewPk) as [|p' l'].
    - split; [discriminate|]. intros [_ X]. apply pk_set_iff with (p := p) in X. destruct X as [X _]. cbn in X. tauto.
    - rewrite negb_false_iff. split; [intros H; split; [discriminate|auto]|tauto]. }
  apply parse_cols_iff in P as [-> ->].
  destruct (forallb _ s) eqn:FB; cbn [negb andb].
  - destruct (match typed_names s OldPk, typed_names s NewPk with | [], _ | _, [] => true | o, n => negb (pk_set_eq o n) end) eqn:PK.
    + split; [discriminate|]. intros (A & B & (U1 & U2 & U3)).
      assert (s = sch).
      { assert (X : parse_cols (map (fun c => (Some (c_role c), c_name c)) s) (map c_type s) = Some s) by (apply parse_cols_iff; auto).
        rewrite A, B in X. assert (Y : parse_cols (map (fun c => (Some (c_role c), c_name c)) sch) (map c_type sch) = Some sch) by (apply parse_cols_iff; auto).
        congruence. }
      subst sch. assert (true = false); [|discriminate]. apply PF. auto.
    + split.
      * intros [= <-]. split; auto. split; auto. destruct (proj1 PF eq_refl) as [Q1 Q2]. split; auto. split; auto. now apply CF.
      * intros (A & B & _).
        assert (X : parse_cols (map (fun c => (Some (c_role c), c_name c)) s) (map c_type s) = Some s) by (apply parse_cols_iff; auto).
        rewrite A, B in X. assert (Y : parse_cols (map (fun c => (Some (c_role c), c_name c)) sch) (map c_type sch) = Some sch) by (apply parse_cols_iff; auto).
        congruence.
  - split; [discriminate|]. intros (A & B & (U1 & U2 & U3)).
    assert (s = sch).
    { assert (X : parse_cols (map (fun c => (Some (c_role c), c_name c)) s) (map c_type s) = Some s) by (apply parse_cols_iff; auto).
      rewrite A, B in X. assert (Y : parse_cols (map (fun c => (Some (c_role c), c_name c)) sch) (map c_type sch) = Some sch) by (apply parse_cols_iff; auto).
      congruence. }
    subst sch. assert (false = true); [|discriminate]. now apply CF.
Qed.
