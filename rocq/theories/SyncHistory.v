(* Every output row of squashing carries, per column, the last assignment made in the history of the row. *)
From Coq Require Import List Arith ZArith Bool Lia.
From Verif Require Import SyncDataModel SyncDataSpec SyncAbsSquash SyncSquashProofs.
Import ListNotations.

Lemma last_assigned_snoc i hs c :
  last_assigned i (hs ++ [c]) = match nth i (ch_set c) None with Some v => Some v | None => last_assigned i hs end.
Proof.
  induction hs as [|h hs IH]; cbn; [destruct (nth i (ch_set c) None); reflexivity|].
  rewrite IH. destruct (nth i (ch_set c) None); reflexivity.
Qed.
Lemma nth_comp i a b :
  length a = length b ->
  nth i (comp a b) None = match nth i a None with Some v => Some v | None => nth i b None end.
Proof.
  unfold comp. revert a b. induction i; intros [|x a] [|y b] L; cbn in *; try lia; auto.
Qed.

Definition HInv (w : nat) (past : list change) (st : astate) : Prop :=
  forall k,
    (exists i c, nth_error (a_chains st) i = Some c /\ ch_new c = Some k /\
                 forall j, nth j (ch_set c) None = last_assigned j (history past k)) \/
    ((forall c, In c (a_chains st) -> ch_new c <> Some k) /\ history past k = []).

Lemma HInv_step w t0 t st c past :
  wide w t0 -> AInv w t0 t st -> length (ch_set c) = w -> valid1 t c -> HInv w past st -> HInv w (c :: past) (a_step st c).
Proof.
  intros Hw0 HA Hc V H.
  pose proof (AInv_step w t0 t st c Hw0 HA Hc V) as HA'.
  destruct V as [Vo Vn]. pose proof (ai_new1 _ _ _ _ HA) as Hnew1. pose proof (ai_new1 _ _ _ _ HA') as Hnew1'.
  pose proof (ai_pk _ _ _ _ HA) as Hpk.
  intros k. cbn [history].
  unfold a_step in *. destruct (a_hit st c) as [id|] eqn:Hit.
  - unfold a_hit in Hit. destruct (ch_old c) as [k0|] eqn:Eo; [|discriminate].
    apply Hpk in Hit as (h & Hh & Hhn).
    assert (Eh : nth id (a_chains st) dummy = h) by (apply nth_error_nth; auto). rewrite Eh in *. cbn zeta in *.
    cbn [a_chains a_pk] in *.
    set (h' := {| ch_old := ch_old h; ch_new := ch_new c; ch_set := comp (ch_set c) (ch_set h) |}) in *.
    assert (Hat : forall j, nth_error (set_nth id h' (a_chains st)) j =
                            if Nat.eqb id j then Some h' else nth_error (a_chains st) j).
    { intros j. rewrite nth_error_set_nth. destruct (Nat.eqb_spec id j); auto. subst. rewrite Hh. reflexivity. }
    destruct (okeqb_spec (ch_new c) k) as [En|Nn].
    + left. exists id, h'. rewrite Hat, Nat.eqb_refl. split; [auto|]. split; [exact En|].
      intros j. rewrite last_assigned_snoc. cbn [ch_set h']. rewrite nth_comp.
      * destruct (H k0) as [(i & x & Hx & Hxn & Hs)|[N _]].
        -- assert (i = id) by (eapply Hnew1; eauto). subst. rewrite Hh in Hx. injection Hx as <-. now rewrite Hs.
        -- exfalso. apply (N h); auto. eapply nth_error_In; eauto.
      * rewrite Hc. symmetry. apply (ai_sets _ _ _ _ HA). eapply nth_error_In; eauto.
    + cbn [okeqb]. destruct (keqb_spec k0 k) as [->|Nk].
      * right. split; auto. intros x Hx E. apply In_nth_error in Hx as (j & Hj). rewrite Hat in Hj.
        destruct (Nat.eqb_spec id j) as [->|Nj]; [injection Hj as <-; cbn in E; contradiction|].
        apply Nj. eapply Hnew1; eauto.
      * destruct (H k) as [(i & x & Hx & Hxn & Hs)|[N He]].
        -- left. exists i, x. rewrite Hat. destruct (Nat.eqb_spec id i) as [->|]; [congruence|auto].
        -- right. split; auto. intros x Hx E. apply In_nth_error in Hx as (j & Hj). rewrite Hat in Hj.
           destruct (Nat.eqb_spec id j) as [->|Nj]; [injection Hj as <-; cbn in E; contradiction|].
           apply (N x); auto. eapply nth_error_In; eauto.
  - cbn [a_chains a_pk] in *.
    assert (Hnohit : forall k, ch_old c = Some k -> forall x, In x (a_chains st) -> ch_new x <> Some k).
    { intros k' E x Hx Ex. unfold a_hit in Hit. rewrite E in Hit. apply In_nth_error in Hx as (j & Hj).
      assert (pk_get k' (a_pk st) = Some j) by (apply Hpk; eauto). congruence. }
    destruct (okeqb_spec (ch_new c) k) as [En|Nn].
    + left. exists (length (a_chains st)), c. rewrite nth_error_app2, Nat.sub_diag by lia. split; [auto|].
      split; [auto|]. intros j. rewrite last_assigned_snoc.
      assert (E : (match ch_old c with Some o => history past o | None => [] end) = []).
      { destruct (ch_old c) as [o|] eqn:Eo; auto. destruct (H o) as [(i & x & Hx & Hxn & _)|[_ He]]; auto.
        exfalso. eapply Hnohit; eauto. eapply nth_error_In; eauto. }
      rewrite E. cbn. destruct (nth j (ch_set c) None); reflexivity.
    + destruct (okeqb_spec (ch_old c) k) as [Eo|No].
      * right. split; auto. intros x Hx E. apply in_app_or in Hx as [Hx|[<-|[]]]; [|contradiction].
        eapply Hnohit; eauto.
      * destruct (H k) as [(i & x & Hx & Hxn & Hs)|[N He]].
        -- left. exists i, x. rewrite nth_error_app1; auto. apply nth_error_Some. congruence.
        -- right. split; auto. intros x Hx E. apply in_app_or in Hx as [Hx|[<-|[]]]; [|contradiction].
           now apply (N x).
Qed.

Lemma HInv_run w t0 cs : forall t st past,
  wide w t0 -> AInv w t0 t st -> (forall c, In c cs -> length (ch_set c) = w) -> valid_stream t cs ->
  HInv w past st -> HInv w (rev cs ++ past) (fold_left a_step cs st).
Proof.
  induction cs as [|c cs IH]; intros t st past Hw HA Hc V H; cbn; auto.
  destruct V as [V1 V2]. rewrite <- app_assoc. cbn. eapply IH; eauto.
  - apply AInv_step; auto. apply Hc; cbn; auto.
  - intros; apply Hc; cbn; auto.
  - eapply HInv_step; eauto. apply Hc; cbn; auto.
Qed.

Theorem squash_rows_history pks vals sch rows out t0 :
  good_schema pks sch ->
  (forall r, In r rows -> good_row pks sch r) ->
  (forall r, In r rows -> flags_alike sch r) ->
  wide (length vals) t0 ->
  valid_stream t0 (map (change_of pks vals sch) rows) ->
  squash_rows sch rows = Some out ->
  forall r k, In r out -> ch_new (change_of pks vals sch r) = Some k ->
  forall i, nth i (ch_set (change_of pks vals sch r)) None =
            last_assigned i (history (rev (map (change_of pks vals sch) rows)) k).
Proof.
  intros Hg Hr Hf Hw V E r k Ho En i.
  destruct (squash_rows_correct _ _ _ _ _ _ Hg Hr Hf Hw V E) as (_ & _ & _ & Hin).
  assert (HA0 : AInv (length vals) t0 t0 {| a_chains := []; a_pk := [] |}) by now apply AInv_init.
  assert (Hsets : forall c, In c (map (change_of pks vals sch) rows) -> length (ch_set c) = length vals).
  { intros c Hc. apply in_map_iff in Hc as (x & <- & _). cbn. apply map_length. }
  assert (H0 : HInv (length vals) [] {| a_chains := []; a_pk := [] |}).
  { intros k'. right. split; [intros c []|reflexivity]. }
  pose proof (HInv_run _ _ _ _ _ _ Hw HA0 Hsets V H0 k) as H.
  rewrite app_nil_r in H. fold (final_ast pks vals sch rows) in H.
  assert (HA : AInv (length vals) t0 (apply_all (map (change_of pks vals sch) rows) t0) (final_ast pks vals sch rows))
    by (apply AInv_run; auto).
  pose proof (Hin _ (in_map _ _ _ Ho)) as Hc. apply In_nth_error in Hc as (j & Hj).
  destruct H as [(j' & c & Hc & Hn & Hs)|[N _]].
  - assert (j = j') by (eapply (ai_new1 _ _ _ _ HA); eauto). subst. rewrite Hj in Hc. injection Hc as <-. apply Hs.
  - exfalso. apply (N _ (nth_error_In _ _ Hj)). exact En.
Qed.
