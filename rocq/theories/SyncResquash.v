(* Squashing a batch that has been squashed before: for a stream that does not move rows between keys the squashed
   batch is again a stream with the same effect. *)
From Coq Require Import List Arith ZArith Bool Lia.
From Verif Require Import SyncDataModel SyncDataSpec SyncAbsSquash SyncSquashProofs SyncAbsMerge SyncMergeMain SyncFlushProofs SyncDataMain.
Import ListNotations.
Local Arguments change_of : simpl never.

(* no earlier change produces the key that a later one starts from *)
Definition after (a b : change) : Prop := forall k, ch_new a = Some k -> ch_old b = Some k -> False.
Definition ordered (cs : list change) : Prop := ForallOrdPairs after cs.

Lemma fop_app {A} (R : A -> A -> Prop) l x : ForallOrdPairs R l -> (forall y, In y l -> R y x) -> ForallOrdPairs R (l ++ [x]).
Proof.
  induction l as [|y l IH]; intros H G; cbn.
  - constructor; constructor.
  - inversion H as [|? ? H1 H2]; subst. constructor.
    + apply Forall_app. split; auto. constructor; auto. apply G; cbn; auto.
    + apply IH; auto. intros; apply G; cbn; auto.
Qed.
Lemma fop_set_nth {A} (R : A -> A -> Prop) i x h l : nth_error l i = Some h -> ForallOrdPairs R l ->
  (forall y, R h y -> R x y) -> (forall y, R y h -> R y x) -> ForallOrdPairs R (set_nth i x l).
Proof.
  revert i; induction l as [|y l IH]; intros [|i] N H G1 G2; cbn in *; try discriminate.
  - injection N as ->. inversion H as [|? ? H1 H2]; subst. constructor; auto. eapply Forall_impl; eauto.
  - inversion H as [|? ? H1 H2]; subst. constructor; [|eapply IH; eauto].
    apply Forall_forall. intros z Hz. rewrite Forall_forall in H1. apply in_set_nth in Hz as [->|Hz]; auto.
    apply G2, H1. eapply nth_error_In; eauto.
Qed.
Lemma fop_filter {A B} (R : B -> B -> Prop) (f : A -> B) (p : A -> bool) l :
  ForallOrdPairs R (map f l) -> ForallOrdPairs R (map f (filter p l)).
Proof.
  induction l as [|x l IH]; cbn; auto. intros H. inversion H as [|? ? H1 H2]; subst. destruct (p x); cbn; auto.
  constructor; auto. apply Forall_forall. intros y Hy. rewrite Forall_forall in H1. apply H1.
  apply in_map_iff in Hy as (z & <- & Hz). apply filter_In in Hz as [Hz _]. now apply in_map.
Qed.

Lemma step_ordered w t0 t st c : AInv w t0 t st -> keeps_key c -> ordered (a_chains st) -> ordered (a_chains (a_step st c)).
Proof.
  intros HA K O. unfold a_step. destruct (a_hit st c) as [id|] eqn:Hit; cbn [a_chains].
  - unfold a_hit in Hit. destruct (ch_old c) as [k0|] eqn:Eo; [|discriminate].
    apply (ai_pk _ _ _ _ HA) in Hit as (h & Hh & Hn). rewrite (nth_error_nth _ _ dummy Hh).
    eapply fop_set_nth; eauto.
    + intros y R k Ek. cbn in Ek. intros E. apply (R k); auto. rewrite <- (K k0 k Eo Ek). exact Hn.
  - apply fop_app; auto. intros y Hy k En Eo. unfold a_hit in Hit. rewrite Eo in Hit.
    apply In_nth_error in Hy as (i & Hi).
    assert (X : pk_get k (a_pk st) = Some i) by (apply (ai_pk _ _ _ _ HA); eauto). congruence.
Qed.
Lemma run_ordered w t0 cs : wide w t0 -> forall t st, AInv w t0 t st ->
  (forall c, In c cs -> length (ch_set c) = w) -> valid_stream t cs -> (forall c, In c cs -> keeps_key c) ->
  ordered (a_chains st) -> ordered (a_chains (fold_left a_step cs st)).
Proof.
  intros Hw. induction cs as [|c cs IH]; intros t st HA HS V K O; cbn; auto. destruct V as [V1 V2].
  apply (IH (apply1 c t)).
  - apply AInv_step; auto. apply HS; cbn; auto.
  - intros; apply HS; cbn; auto.
  - auto.
  - intros; apply K; cbn; auto.
  - eapply step_ordered; eauto. apply K; cbn; auto.
Qed.

Lemma somes_cons {A B} (f : A -> option B) x l : somes f (x :: l) = match f x with Some b => b :: somes f l | None => somes f l end.
Proof. unfold somes. cbn. destruct (f x); reflexivity. Qed.

Lemma new_vals_ext o o' s : o = o' -> new_vals o s = new_vals o' s.
Proof. now intros ->. Qed.

(* such changes can be applied one by one *)
Lemma sequential cs : forall t, net t cs -> ordered cs -> valid_stream t cs /\ at_once cs t (apply_all cs t).
Proof.
  induction cs as [|c cs IH]; intros t N O.
  - split; [exact I|]. apply at_once_nil.
  - destruct N as [[N1 N2] NO NN]. inversion O as [|? ? O1 O2]; subst. rewrite Forall_forall in O1.
    rewrite somes_cons in N1, N2.
    assert (D1 : forall k, ch_old c = Some k -> forall c', In c' cs -> ch_old c' <> Some k).
    { intros k E c' Hc E'. rewrite E in N1. inversion N1 as [|? ? X _]; subst. apply X, in_somes. eauto. }
    assert (D2 : forall k, ch_new c = Some k -> forall c', In c' cs -> ch_new c' <> Some k).
    { intros k E c' Hc E'. rewrite E in N2. inversion N2 as [|? ? X _]; subst. apply X, in_somes. eauto. }
    assert (N1' : NoDup (somes ch_old cs)) by (destruct (ch_old c); [now inversion N1|auto]).
    assert (N2' : NoDup (somes ch_new cs)) by (destruct (ch_new c); [now inversion N2|auto]).
    assert (V1 : valid1 t c).
    { split.
      - intros o E. apply (NO c); cbn; auto.
      - intros n E. destruct (NN c n (or_introl eq_refl) E) as [F|(c' & [<-|Hc'] & F)]; auto.
        exfalso. exact (O1 c' Hc' n E F). }
    assert (OLD : forall c' k, In c' cs -> ch_old c' = Some k -> apply1 c t k = t k).
    { intros c' k Hc E. unfold apply1. destruct (okeqb_spec (ch_new c) k) as [X|X]; [exfalso; exact (O1 c' Hc k X E)|].
      destruct (okeqb_spec (ch_old c) k) as [Y|Y]; auto. exfalso. exact (D1 k Y c' Hc E). }
    destruct (IH (apply1 c t)) as [V2 A].
    { split; [split; auto| |].
      - intros c' k Hc E. rewrite (OLD c' k Hc E). apply (NO c'); cbn; auto.
      - intros c' k Hc E. unfold apply1. destruct (okeqb_spec (ch_new c) k) as [X|X]; [exfalso; exact (D2 k X c' Hc E)|].
        destruct (okeqb_spec (ch_old c) k) as [Y|Y]; auto.
        destruct (NN c' k (or_intror Hc) E) as [F|(c2 & [<-|H2] & F)]; auto; [contradiction|]. right. eauto. }
    { exact O2. }
    split; [split; auto|]. cbn [apply_all fold_left]. fold (apply_all cs (apply1 c t)).
    intros k. destruct (A k) as (A1 & A2 & A3). split; [|split].
    + intros c' [<-|Hc'] E.
      * assert (X : apply_all cs (apply1 c t) k = apply1 c t k).
        { apply A3. intros c' Hc'. split; [exact (D2 k E c' Hc')|]. intros F. exact (O1 c' Hc' k E F). }
        rewrite X. unfold apply1. destruct (okeqb_spec (ch_new c) k); [reflexivity|congruence].
      * rewrite (A1 c' Hc' E). f_equal. apply new_vals_ext. unfold old_row.
        destruct (ch_old c') as [o|] eqn:Eo; auto. exact (OLD c' o Hc' Eo).
    + intros NK (c' & Hc' & E).
      assert (NK' : forall c', In c' cs -> ch_new c' <> Some k) by (intros; apply NK; cbn; auto).
      destruct (existsb (fun c => okeqb (ch_old c) k) cs) eqn:EX.
      * apply existsb_exists in EX as (c2 & H2 & X). destruct (okeqb_spec (ch_old c2) k); [|discriminate]. apply A2; eauto.
      * assert (NX : forall c', In c' cs -> ch_old c' <> Some k).
        { intros c2 H2 X. apply not_true_iff_false in EX. apply EX. apply existsb_exists. exists c2. split; auto.
          destruct (okeqb_spec (ch_old c2) k); congruence. }
        rewrite A3 by auto. destruct Hc' as [<-|Hc']; [|exfalso; exact (NX c' Hc' E)].
        unfold apply1. destruct (okeqb_spec (ch_new c) k) as [X|X]; [exfalso; apply (NK c); cbn; auto|].
        destruct (okeqb_spec (ch_old c) k); congruence.
    + intros NK. rewrite A3 by (intros; apply NK; cbn; auto). destruct (NK c (or_introl eq_refl)) as [X Y].
      unfold apply1. destruct (okeqb_spec (ch_new c) k); [congruence|]. destruct (okeqb_spec (ch_old c) k); congruence.
Qed.

Theorem resquash pks vals it t0 out :
  good_item pks it -> (forall r, In r (item_rows it) -> flags_alike (fst it) r) ->
  wide (length vals) t0 -> valid_stream t0 (item_changes pks vals it) ->
  (forall c, In c (item_changes pks vals it) -> keeps_key c) ->
  squash_batches (fst it) (snd it) = Some out ->
  valid_stream t0 (map (change_of pks vals (fst it)) out) /\
  forall k, apply_all (map (change_of pks vals (fst it)) out) t0 k = apply_all (item_changes pks vals it) t0 k.
Proof.
  intros GI FA W V K E. rewrite (squash_batches_good pks it GI) in E. destruct GI as (G & _ & _ & R).
  destruct (squash_rows_correct pks vals (fst it) (item_rows it) out t0 G R FA W V E) as (AO & NET & _ & _).
  assert (O : ordered (map (change_of pks vals (fst it)) out)).
  { destruct (squash_refines pks vals (fst it) (item_rows it) G R FA _ t0 W eq_refl V) as [HR HA].
    assert (OC : ordered (a_chains (final_ast pks vals (fst it) (item_rows it)))).
    { apply (run_ordered (length vals) t0 _ W t0); auto.
      - now apply AInv_init.
      - intros c Hc. apply in_map_iff in Hc as (r & <- & _). apply change_len.
      - constructor. }
    unfold squash_rows in E. destruct (has_changed (fst it) && _); [discriminate|].
    destruct (negb _); [discriminate|]. injection E as <-.
    rewrite (ri_chains _ _ _ _ _ _ HR) in OC. rewrite map_map. unfold live_chains. rewrite map_map.
    unfold ordered in *. apply fop_filter.
    rewrite <- (map_map snd (fun h => change_of pks vals (fst it) (out_row (fst it) (item_rows it) h))).
    rewrite map_snd_combine_seq. exact OC. }
  destruct (sequential _ t0 NET O) as [V' A']. split; auto. exact (at_once_fun _ _ _ _ A' AO).
Qed.
