(* Normalising and applying a set of changes to the stored rows. *)
From Coq Require Import List Arith ZArith Bool Lia Permutation.
From Verif Require Import SyncDataModel SyncDataSpec SyncAbsSquash SyncSquashProofs SyncAbsMerge SyncMergeProofs.
Import ListNotations.

Lemma nodup_map_in {A B} (f : A -> B) l :
  NoDup l -> (forall x y, In x l -> In y l -> f x = f y -> x = y) -> NoDup (map f l).
Proof.
  induction l as [|a l IH]; cbn; intros N I; [constructor|]. inversion N; subst. constructor.
  - intros H. apply in_map_iff in H as (y & E & Hy). assert (y = a) by (apply I; auto). subst. auto.
  - apply IH; auto.
Qed.
Lemma nodup_map_inj {A B} (f : A -> B) l x y : NoDup (map f l) -> In x l -> In y l -> f x = f y -> x = y.
Proof.
  induction l as [|a l IH]; cbn; [contradiction|]. intros N Hx Hy E. inversion N; subst.
  destruct Hx as [->|Hx], Hy as [->|Hy]; auto.
  - exfalso. apply H1. rewrite E. now apply in_map.
  - exfalso. apply H1. rewrite <- E. now apply in_map.
Qed.
Lemma nodup_app_inv {A} (l l' : list A) : NoDup (l ++ l') -> NoDup l /\ NoDup l' /\ forall x, In x l -> ~ In x l'.
Proof.
  induction l as [|a l IH]; cbn; intros N; [repeat split; auto; constructor|]. inversion N; subst.
  destruct (IH H2) as (A1 & A2 & A3). repeat split; auto.
  - constructor; auto. intros X; apply H1; apply in_or_app; auto.
  - intros x [->|Hx]; auto. intros X; apply H1; apply in_or_app; auto.
Qed.
Lemma nodup_of_map {A B} (f : A -> B) l : NoDup (map f l) -> NoDup l.
Proof. apply NoDup_map_inv. Qed.

(* ----- stored rows ----- *)
Lemma pos_of_some n l i : pos_of n l = Some i -> nth_error l i = Some n.
Proof.
  unfold pos_of. destruct (find _ (with_idx l)) as [[j x]|] eqn:F; [|discriminate]. intros [= <-].
  apply find_some in F as [I E]. apply in_with_idx in I. cbn in *. apply Nat.eqb_eq in E. now subst.
Qed.
Lemma pos_of_none n l : pos_of n l = None -> ~ In n l.
Proof.
  unfold pos_of. destruct (find _ (with_idx l)) eqn:F; [discriminate|]. intros _ H.
  apply In_nth_error in H as [i H]. assert (X := find_none _ _ F (i, n)). cbn in X. rewrite Nat.eqb_refl in X.
  discriminate X. now apply in_with_idx.
Qed.
Lemma pos_of_in n l : In n l -> exists i, pos_of n l = Some i /\ nth_error l i = Some n.
Proof. intros H. destruct (pos_of n l) eqn:E; [exists n0; split; auto; now apply pos_of_some|]. now apply pos_of_none in E. Qed.

Lemma find_combine n : forall (tc : list nat) (r : list value) k,
  find (fun p => Nat.eqb (fst p) n) (combine tc r) =
  option_map (fun p => (snd p, nth (fst p - k) r VNull))
     (match find (fun p : nat * nat => Nat.eqb n (snd p)) (combine (seq k (length tc)) tc) with
      | Some p => if Nat.ltb (fst p - k) (length r) then Some p else None | None => None end).
Proof.
  induction tc as [|a tc IH]; intros r k; cbn; auto.
  destruct r as [|v r]; cbn [combine find].
  - destruct (if Nat.eqb n a then _ else _) as [[i x]|]; reflexivity.
  - cbn [fst]. rewrite (Nat.eqb_sym n a). destruct (Nat.eqb_spec a n) as [->|N].
    + cbn. rewrite !Nat.sub_diag. cbn. now rewrite Nat.sub_diag.
    + rewrite (IH r (S k)). destruct (find _ _) as [[i x]|] eqn:F; cbn; auto.
      apply find_some in F as [I _]. apply in_combine_l in I. apply in_seq in I.
      destruct (i - k) as [|d] eqn:D; [lia|]. assert (D' : i - S k = d) by lia. rewrite D'.
      change (S d <=? length r) with (d <? length r). destruct (Nat.ltb_spec d (length r)) as [HL|HL].
      * destruct (length r) eqn:EL; [lia|]. destruct (Nat.leb_spec d n0) as [_|HL']; [|lia].
        unfold option_map. cbn [fst snd]. now rewrite D, D'.
      * destruct (length r) eqn:EL; [reflexivity|]. destruct (Nat.leb_spec d n0) as [HL'|_]; [lia|reflexivity].
Qed.
Lemma tread_tcell tcols r n : length r = length tcols -> tread tcols r n = tcell tcols n (Some r).
Proof.
  intros L. unfold tread, tcell, pos_of, with_idx. rewrite (find_combine n tcols r 0).
  destruct (find _ _) as [[i x]|] eqn:F; [|reflexivity]. cbn [fst snd]. rewrite Nat.sub_0_r.
  apply find_some in F as [I _]. apply in_combine_l in I. apply in_seq in I.
  destruct (Nat.ltb_spec i (length r)); [|lia]. cbn. now rewrite Nat.sub_0_r.
Qed.
Lemma tread_map tcols f n : In n tcols -> tread tcols (map f tcols) n = f n.
Proof.
  intros H. unfold tread. revert H. induction tcols as [|a l IH]; cbn; [contradiction|].
  destruct (Nat.eqb_spec a n) as [->|N]; auto. intros [->|H]; [congruence|auto].
Qed.

Section T.
Variables (tcols pks vals : list nat).
Hypothesis GC : good_columns tcols pks vals.

Lemma table_some rows k r : good_table tcols pks rows -> In r rows -> row_key tcols pks r = k ->
  table_of tcols pks vals rows k = Some (row_vals tcols vals r).
Proof.
  intros [N _] H E. unfold table_of. erewrite find_hit; [reflexivity|eassumption| |].
  - cbn. destruct (keqb_spec (row_key tcols pks r) k); auto.
  - intros y Hy K. cbn in K. destruct (keqb_spec (row_key tcols pks y) k); [|discriminate].
    eapply nodup_map_inj; eauto. congruence.
Qed.
Lemma table_none rows k : (forall r, In r rows -> row_key tcols pks r <> k) -> table_of tcols pks vals rows k = None.
Proof.
  intros H. unfold table_of. destruct (find _ rows) eqn:F; auto. apply find_some in F as [I E].
  destruct (keqb_spec (row_key tcols pks l) k); [|discriminate]. exfalso. eapply H; eauto.
Qed.
Lemma table_inv rows k v : table_of tcols pks vals rows k = Some v ->
  exists r, In r rows /\ row_key tcols pks r = k /\ row_vals tcols vals r = v.
Proof.
  unfold table_of. destruct (find _ rows) eqn:F; [|discriminate]. intros [= <-]. apply find_some in F as [I E].
  destruct (keqb_spec (row_key tcols pks l) k); [|discriminate]. eauto.
Qed.
Lemma table_wide rows : wide (length vals) (table_of tcols pks vals rows).
Proof. intros k v H. apply table_inv in H as (r & _ & _ & <-). apply map_length. Qed.
Lemma table_key rows k v : good_table tcols pks rows -> table_of tcols pks vals rows k = Some v -> Forall (fun v => v <> VNull) k.
Proof. intros [_ G] H. apply table_inv in H as (r & I & <- & _). now apply G. Qed.

(* a row is determined by its cells *)
Lemma row_eq r : length r = length tcols -> map (fun c => tcell tcols c (Some r)) tcols = r.
Proof.
  intros L. destruct GC as (N & _). apply (nth_ext _ _ VNull VNull); rewrite map_length; auto.
  intros i Hi. rewrite (nth_indep _ VNull (tcell tcols 0 (Some r))) by (rewrite map_length; auto).
  rewrite (map_nth (fun c => tcell tcols c (Some r))). unfold tcell.
  assert (E : nth_error tcols i = Some (nth i tcols 0)) by (apply nth_error_nth'; auto).
  destruct (pos_of_in (nth i tcols 0) tcols) as (j & -> & Hj); [apply nth_In; auto|].
  rewrite (nodup_nth _ _ _ _ N E Hj). reflexivity.
Qed.

Section A.
Variables (sch : list column) (rows : list (list value)).
Hypothesis GS : good_schema pks sch.
Local Arguments change_of : simpl never.
Notation ch := (change_of pks vals sch).
Notation J := (map ch rows).

Let DS : NoDup (descs sch).
Proof. now pose proof GS as (H & _). Qed.

Definition nkey (o : option (list value)) : list value := match o with Some k => k | None => map (fun _ => VNull) pks end.

Lemma hd_null ks : whole ks -> length ks = length pks -> is_null (hd VNull ks) = match as_key ks with None => true | Some _ => false end.
Proof.
  intros W L. unfold as_key. spec_helpers. pose proof GS as (_ & _ & _ & NE & _).
  destruct ks as [|v ks]; [destruct pks; [congruence|discriminate]|]. cbn.
  destruct W as [W|W].
  - inversion W as [|? ? Hv Hk]; subst. cbn.
    assert (X : forallb is_null ks = true); [|now rewrite X].
    apply forallb_forall. intros x Hx. rewrite Forall_forall in Hk. now rewrite (Hk x Hx).
  - inversion W; subst. destruct v; cbn; auto; congruence.
Qed.

Lemma normalize_row_spec r : good_row pks sch r ->
  normalize_row sch r =
  match ch_old (ch r), ch_new (ch r) with
  | None, None => []
  | None, Some n => [{| n_pk := n; n_src := r; n_upsert := true |}]
  | Some o, None => [{| n_pk := o; n_src := r; n_upsert := false |}]
  | Some o, Some n =>
      if veqb (hd VNull o) (hd VNull n) then [{| n_pk := n; n_src := r; n_upsert := true |}]
      else [{| n_pk := o; n_src := r; n_upsert := false |}; {| n_pk := n; n_src := r; n_upsert := true |}]
  end.
Proof.
  intros (L & WO & WN). pose proof GS as (_ & EO & EN & NE & _).
  assert (LO : length (read_key sch r OldPk pks) = length pks) by apply map_length.
  assert (LN : length (read_key sch r NewPk pks) = length pks) by apply map_length.
  pose proof (hd_null _ WO LO) as HO. pose proof (hd_null _ WN LN) as HN.
  unfold normalize_row, change_of. cbn [ch_old ch_new].
  rewrite (tuple_read sch r OldPk DS), EO.
  change (map (fun n => ocell (find_col sch n OldPk) (Some r)) pks) with (fkey sch OldPk pks r).
  change (map (fun n => ocell (find_col sch n NewPk) (Some r)) pks) with (fkey sch NewPk pks r).
  rewrite !read_key_fkey in * by auto. rewrite HO, HN.
  destruct (as_key (fkey sch OldPk pks r)) as [o|] eqn:AO; destruct (as_key (fkey sch NewPk pks r)) as [n|] eqn:AN; cbn [andb negb].
  - apply as_key_some in AO. apply as_key_some in AN. rewrite AO, AN. destruct (veqb (hd VNull o) (hd VNull n)); reflexivity.
  - apply as_key_some in AO. now rewrite AO.
  - apply as_key_some in AN. now rewrite AN.
  - reflexivity.
Qed.

Hypothesis GR : forall r, In r rows -> good_row pks sch r.

(* the key of a normalised row is a key of its source *)
Lemma in_N0 s : In s (normalize sch rows) -> In (n_src s) rows /\
  exists ro, (ro = OldPk \/ ro = NewPk) /\ as_key (read_key sch (n_src s) ro pks) = Some (n_pk s).
Proof.
  intros H. unfold normalize in H. apply in_flat_map in H as (r & Hr & H). rewrite normalize_row_spec in H by auto.
  assert (HO : forall o, ch_old (ch r) = Some o -> as_key (read_key sch r OldPk pks) = Some o) by auto.
  assert (HN : forall o, ch_new (ch r) = Some o -> as_key (read_key sch r NewPk pks) = Some o) by auto.
  destruct (ch_old (ch r)) as [o|] eqn:EO, (ch_new (ch r)) as [n|] eqn:EN; cbn in H.
  - destruct (veqb (hd VNull o) (hd VNull n)); cbn in H.
    + destruct H as [<-|[]]; cbn; eauto.
    + destruct H as [<-|[<-|[]]]; cbn; eauto.
  - destruct H as [<-|[]]; cbn; eauto.
  - destruct H as [<-|[]]; cbn; eauto.
  - contradiction.
Qed.

(* the first key column tells a changed key from an unchanged one *)
Definition first_ok (c : change) : Prop :=
  forall o n, ch_old c = Some o -> ch_new c = Some n -> o = n \/ hd VNull o <> hd VNull n.
Hypothesis FO : forall c, In c J -> first_ok c.

Variables (t0 : list value -> option (list value)).
Hypothesis NET : one_per_row J.

Notation N := (normalize sch rows).

Lemma in_N s : In s N -> In (n_src s) rows /\
  (if n_upsert s then ch_new (ch (n_src s)) = Some (n_pk s)
   else ch_old (ch (n_src s)) = Some (n_pk s) /\ ch_new (ch (n_src s)) <> Some (n_pk s)).
Proof.
  intros H. unfold normalize in H. apply in_flat_map in H as (r & Hr & H). rewrite normalize_row_spec in H by auto.
  pose proof (FO (ch r) (in_map ch _ _ Hr)) as F.
  destruct (ch_old (ch r)) as [o|] eqn:EO, (ch_new (ch r)) as [n|] eqn:EN; cbn in H.
  - destruct (veqb_spec (hd VNull o) (hd VNull n)) as [E|E]; cbn in H.
    + destruct H as [<-|[]]; cbn; auto.
    + destruct H as [<-|[<-|[]]]; cbn; auto. split; auto. split; auto. rewrite EN. intros [= ->]. congruence.
  - destruct H as [<-|[]]; cbn. split; auto. split; congruence.
  - destruct H as [<-|[]]; cbn; auto.
  - contradiction.
Qed.
Lemma N_upsert r n : In r rows -> ch_new (ch r) = Some n -> In {| n_pk := n; n_src := r; n_upsert := true |} N.
Proof.
  intros Hr E. apply in_flat_map. exists r. split; auto. rewrite normalize_row_spec by auto. rewrite E.
  destruct (ch_old (ch r)); [|cbn; auto]. destruct (veqb _ _); cbn; auto.
Qed.
Lemma N_delete r o : In r rows -> ch_old (ch r) = Some o -> ch_new (ch r) <> Some o -> In {| n_pk := o; n_src := r; n_upsert := false |} N.
Proof.
  intros Hr E Ne. apply in_flat_map. exists r. split; auto. rewrite normalize_row_spec by auto. rewrite E.
  destruct (ch_new (ch r)) as [n|] eqn:EN; [|cbn; auto].
  destruct (veqb_spec (hd VNull o) (hd VNull n)) as [H|H]; cbn; auto.
  destruct (FO (ch r) (in_map ch _ _ Hr) o n E EN); congruence.
Qed.

Lemma nodup_N : NoDup N /\ (forall s s', In s N -> In s' N -> n_upsert s = true -> n_upsert s' = true -> n_pk s = n_pk s' -> s = s').
Proof.
  destruct NET as [N1 N2]. rewrite somes_map in N1, N2. clear FO NET. revert GR N1 N2.
  induction rows as [|r rs IH]; intros G N1 N2.
  - split; [constructor|contradiction].
  - cbn in N1, N2. unfold normalize. cbn [flat_map]. fold (normalize sch rs).
    assert (Gr : good_row pks sch r) by (apply G; cbn; auto).
    assert (Gs : forall r0, In r0 rs -> good_row pks sch r0) by (intros; apply G; cbn; auto).
    assert (N1' : NoDup (somes (fun x => ch_old (ch x)) rs)).
    { destruct (ch_old (ch r)); auto. now inversion N1. }
    assert (N2' : NoDup (somes (fun x => ch_new (ch x)) rs)).
    { destruct (ch_new (ch r)); auto. now inversion N2. }
    destruct (IH Gs N1' N2') as [ND UQ]. clear IH.
    (* what a row of the rest can be *)
    assert (Inv : forall s, In s (normalize sch rs) -> exists x, In x rs /\ n_src s = x /\
              (if n_upsert s then ch_new (ch x) = Some (n_pk s) else ch_old (ch x) = Some (n_pk s))).
    { intros s Hs. apply in_flat_map in Hs as (x & Hx & Hs). rewrite normalize_row_spec in Hs by auto. exists x.
      destruct (ch_old (ch x)) as [o|] eqn:EO, (ch_new (ch x)) as [n|] eqn:EN; try destruct (veqb _ _);
        cbn in Hs; intuition (subst; cbn; auto). }
    assert (Dis : forall s s', In s (normalize_row sch r) -> In s' (normalize sch rs) -> n_upsert s = n_upsert s' -> n_pk s = n_pk s' -> False).
    { intros s s' Hs Hs' EU EK. apply Inv in Hs' as (x & Hx & _ & X). rewrite normalize_row_spec in Hs by auto.
      assert (P1 : forall o, ch_old (ch r) = Some o -> ch_old (ch x) = Some o -> False).
      { intros o A B. rewrite A in N1. cbn in N1. inversion N1 as [|? ? Nin _]; subst. apply Nin.
        apply in_somes. exists x. auto. }
      assert (P2 : forall o, ch_new (ch r) = Some o -> ch_new (ch x) = Some o -> False).
      { intros o A B. rewrite A in N2. cbn in N2. inversion N2 as [|? ? Nin _]; subst. apply Nin.
        apply in_somes. exists x. auto. }
      destruct (ch_old (ch r)) as [o|] eqn:EO, (ch_new (ch r)) as [n|] eqn:EN; try destruct (veqb _ _);
        cbn in Hs; repeat destruct Hs as [<-|Hs]; try contradiction; cbn in *; rewrite <- EU, <- EK in X; eauto. }
    assert (Nr : NoDup (normalize_row sch r)).
    { rewrite normalize_row_spec by auto. destruct (ch_old (ch r)), (ch_new (ch r)); try destruct (veqb _ _);
      repeat constructor; cbn; try tauto. intros [H|[]]. discriminate H. }
    assert (Ur : forall s s', In s (normalize_row sch r) -> In s' (normalize_row sch r) -> n_upsert s = true -> n_upsert s' = true -> s = s').
    { intros s s'. rewrite normalize_row_spec by auto. destruct (ch_old (ch r)), (ch_new (ch r)); try destruct (veqb _ _);
      cbn; intros A B; repeat destruct A as [<-|A]; repeat destruct B as [<-|B]; try contradiction; cbn; congruence. }
    split.
    + apply nodup_app; auto. intros s A B. eapply Dis; eauto.
    + intros s s' A B U U' K. apply in_app_or in A. apply in_app_or in B.
      destruct A as [A|A], B as [B|B]; auto.
      * exfalso. apply (Dis s s'); auto; congruence.
      * exfalso. apply (Dis s' s); auto; congruence.
Qed.

(* ----- matching base rows ----- *)
Variables (base stay : list (list value)).
Hypothesis GB : good_table tcols pks (stay ++ base).
Hypothesis ET0 : forall k, t0 k = table_of tcols pks vals (stay ++ base) k.

Lemma pks_in n : In n pks -> In n tcols.
Proof. intros H. destruct GC as (_ & E & _). apply E. auto. Qed.
Lemma base_row b : In b base -> length b = length tcols /\ Forall (fun v => v <> VNull) (row_key tcols pks b).
Proof. intros H. apply GB. apply in_or_app; auto. Qed.
Lemma n_pk_length s : In s N -> length (n_pk s) = length pks /\ Forall (fun v => v <> VNull) (n_pk s).
Proof.
  intros H. apply in_N0 in H as [Hr (ro0 & Hro & X)].
  destruct (GR _ Hr) as (L & WO & WN).
  assert (Y : exists ro, whole (read_key sch (n_src s) ro pks) /\ as_key (read_key sch (n_src s) ro pks) = Some (n_pk s)).
  { exists ro0. split; auto. destruct Hro as [->| ->]; auto. }
  destruct Y as (ro & W & A). pose proof (as_key_some _ _ A) as E. rewrite E in *. split.
  - rewrite <- E. apply map_length.
  - destruct W as [W|W]; auto. exfalso. unfold as_key in A. spec_helpers.
    assert (F : forallb is_null (n_pk s) = true).
    { apply forallb_forall. intros v Hv. rewrite Forall_forall in W. now rewrite (W v Hv). }
    rewrite F in A. discriminate.
Qed.
Lemma base_match_key b s : In b base -> In s N -> base_match tcols pks b s = keqb (row_key tcols pks b) (n_pk s).
Proof.
  intros Hb Hs. destruct (base_row b Hb) as [Lb Nb]. destruct (n_pk_length s Hs) as [Ls Ns].
  unfold base_match, row_key in *. clear Hs. revert Ls Ns Nb. generalize (n_pk s) as ks.
  assert (E : forall n, tread tcols b n = tcell tcols n (Some b)) by (intros; now apply tread_tcell).
  clear - E. induction pks as [|p ps IH]; intros [|v ks] L Ns Nb; try discriminate; cbn.
  - destruct (keqb_spec [] []); congruence.
  - inversion Ns; subst. inversion Nb; subst. rewrite <- E. rewrite IH; auto.
    unfold keq. destruct (is_null (tread tcols b p)) eqn:Z.
    { destruct (tread tcols b p); try discriminate. congruence. }
    cbn. destruct (veqb_spec (tread tcols b p) v) as [->|Nv]; cbn.
    + destruct (keqb_spec (map (tread tcols b) ps) ks) as [Ek|Nk]; destruct (keqb_spec (v :: map (tread tcols b) ps) (v :: ks)); congruence.
    + destruct (keqb_spec (tread tcols b p :: map (tread tcols b) ps) (v :: ks)); congruence.
Qed.

(* the output row of a pair *)
Notation names := (names_of sch OldPk).
Definition outp (bs : option (list value) * option nrow) : list value :=
  map (apply_cell tcols sch names (fst bs) (snd bs)) tcols.
Definition pkey (bs : option (list value) * option nrow) : list value :=
  match snd bs with Some s => n_pk s | None => match fst bs with Some b => row_key tcols pks b | None => [] end end.

Lemma outp_length bs : length (outp bs) = length tcols.
Proof. apply map_length. Qed.
Lemma outp_base b : In b base -> outp (Some b, None) = b.
Proof.
  intros Hb. destruct (base_row b Hb) as [L _]. unfold outp. cbn. rewrite <- (row_eq b L) at 2.
  apply map_ext. intros c. unfold apply_cell. destruct (find_col sch c Value); auto. destruct (pos_of c names); auto.
Qed.
Lemma key_col n : In n pks -> find_col sch n Value = None /\ find_col sch n Changed = None.
Proof.
  intros H. pose proof GS as (_ & _ & _ & _ & CV & PV).
  assert (V : find_col sch n Value = None).
  { destruct (find_col sch n Value) eqn:F; auto. exfalso. apply (PV n H). apply has_col_names. unfold has_col. now rewrite F. }
  split; auto. destruct (find_col sch n Changed) eqn:F; auto. exfalso. apply (PV n H). apply CV. apply has_col_names. unfold has_col. now rewrite F.
Qed.
Lemma nodup_pks : NoDup pks.
Proof.
  pose proof GS as (D & EO & _). rewrite <- EO. unfold names_of. clear - D.
  induction sch as [|c s IH]; cbn; [constructor|]. inversion D; subst.
  destruct (role_eqb_spec (c_role c) OldPk) as [R|R]; auto. cbn. constructor; auto.
  intros X. apply in_map_iff in X as (d & E & Hd). apply filter_In in Hd as [Hd Rd].
  destruct (role_eqb_spec (c_role d) OldPk); [|discriminate]. apply H1. apply in_map_iff. exists d. split; auto. congruence.
Qed.
Lemma outp_key b s : In s N -> row_key tcols pks (outp (b, Some s)) = n_pk s.
Proof.
  intros Hs. destruct (n_pk_length s Hs) as [L _]. unfold row_key, outp.
  apply (nth_ext _ _ VNull VNull); rewrite map_length; auto. intros i Hi.
  rewrite (nth_indep _ VNull (tread tcols (map (apply_cell tcols sch names b (Some s)) tcols) 0)) by (rewrite map_length; auto).
  cbn [fst snd].
  rewrite (map_nth (tread tcols (map (apply_cell tcols sch names b (Some s)) tcols)) pks 0 i).
  assert (I : In (nth i pks 0) pks) by (apply nth_In; auto).
  rewrite tread_map by now apply pks_in. unfold apply_cell. destruct (key_col _ I) as [-> ->].
  pose proof GS as (_ & EO & _). rewrite EO.
  destruct (pos_of_in _ _ I) as (j & -> & Hj).
  assert (E : nth_error pks i = Some (nth i pks 0)) by (apply nth_error_nth'; auto).
  now rewrite (nodup_nth _ _ _ _ nodup_pks E Hj).
Qed.
Lemma outp_vals b s : In s N -> (forall r, b = Some r -> In r base) ->
  row_vals tcols vals (outp (b, Some s)) = new_vals (option_map (row_vals tcols vals) b) (ch_set (ch (n_src s))).
Proof.
  intros Hs Hb. apply in_N0 in Hs as [Hr _]. destruct (GR _ Hr) as (L & _).
  unfold row_vals at 1, new_vals, change_of. cbn [ch_set].
  pose proof GS as (_ & EO & _). destruct GC as (_ & CI & CP).
  assert (K : forall n, In n vals -> tread tcols (outp (b, Some s)) n =
           match assigned sch (n_src s) n with Some v => v | None => match b with Some r => tread tcols r n | None => VNull end end).
  { intros n Hn. unfold outp. cbn [fst snd]. rewrite tread_map by (apply CI; auto). unfold apply_cell.
    assert (TB : tcell tcols n b = match b with Some r => tread tcols r n | None => VNull end).
    { destruct b as [r|]; [|unfold tcell, ocell; now destruct (pos_of n tcols)]. symmetry. apply tread_tcell. now apply base_row, Hb. }
    rewrite assigned_fset by auto. unfold fset.
    destruct (find_col sch n Value) as [i|] eqn:V.
    - destruct (find_col sch n Changed) as [j|]; auto. destruct (is_true _); auto.
    - rewrite EO. destruct (pos_of n pks) eqn:P; [exfalso; apply (CP n); auto; apply pos_of_some in P; now apply nth_error_In in P|].
      destruct b; auto. }
  clear - K. destruct b as [r|]; cbn [option_map].
  - unfold row_vals. induction vals as [|n l IH]; cbn; auto. rewrite K by (cbn; auto). f_equal. apply IH. intros; apply K; cbn; auto.
  - induction vals as [|n l IH]; cbn; auto. rewrite K by (cbn; auto). f_equal. apply IH. intros; apply K; cbn; auto.
Qed.

(* ----- the result ----- *)
Hypothesis PR : forall r c, In r stay -> In c J -> ch_old c <> Some (row_key tcols pks r) /\ ch_new c <> Some (row_key tcols pks r).
Notation FJ := (full_join (base_match tcols names) base N).
Notation P := (filter (fun bs => not_false (snd bs)) FJ).
Notation result := (stay ++ map outp P).

Lemma in_P bs : In bs P <->
  (exists b s, bs = (Some b, Some s) /\ In b base /\ In s N /\ n_upsert s = true /\ row_key tcols pks b = n_pk s) \/
  (exists s, bs = (None, Some s) /\ In s N /\ n_upsert s = true /\ forall b, In b base -> row_key tcols pks b <> n_pk s) \/
  (exists b, bs = (Some b, None) /\ In b base /\ forall s, In s N -> row_key tcols pks b <> n_pk s).
Proof.
  pose proof GS as (_ & EO & _). rewrite filter_In, in_full_join, EO. split.
  - intros [H U]. destruct H as [(b & s & -> & Hb & Hs & M)|[(s & -> & Hs & M)|(b & -> & Hb & M)]]; cbn in U.
    + left. exists b, s. rewrite base_match_key in M by auto. destruct (keqb_spec (row_key tcols pks b) (n_pk s)); [|discriminate]. auto.
    + right; left. exists s. repeat split; auto. intros b Hb E. specialize (M b Hb). rewrite base_match_key in M by auto.
      destruct (keqb_spec (row_key tcols pks b) (n_pk s)); congruence.
    + right; right. exists b. repeat split; auto. intros s Hs E. specialize (M s Hs). rewrite base_match_key in M by auto.
      destruct (keqb_spec (row_key tcols pks b) (n_pk s)); congruence.
  - intros [(b & s & -> & Hb & Hs & U & M)|[(s & -> & Hs & U & M)|(b & -> & Hb & M)]]; cbn; (split; [|auto]).
    + left. exists b, s. repeat split; auto. rewrite base_match_key by auto. destruct (keqb_spec (row_key tcols pks b) (n_pk s)); congruence.
    + right; left. exists s. repeat split; auto. intros b Hb. rewrite base_match_key by auto.
      destruct (keqb_spec (row_key tcols pks b) (n_pk s)); auto. exfalso. eapply M; eauto.
    + right; right. exists b. repeat split; auto. intros s Hs. rewrite base_match_key by auto.
      destruct (keqb_spec (row_key tcols pks b) (n_pk s)); auto. exfalso. eapply M; eauto.
Qed.
Lemma P_key bs : In bs P -> row_key tcols pks (outp bs) = pkey bs.
Proof.
  intros H. apply in_P in H as [(b & s & -> & Hb & Hs & U & M)|[(s & -> & Hs & U & M)|(b & -> & Hb & M)]]; unfold pkey; cbn [fst snd].
  - now apply outp_key.
  - now apply outp_key.
  - now rewrite outp_base.
Qed.
Lemma nodup_base : NoDup (map (row_key tcols pks) base) /\ NoDup (map (row_key tcols pks) stay) /\
  (forall r b, In r stay -> In b base -> row_key tcols pks r <> row_key tcols pks b).
Proof.
  destruct GB as [G _]. rewrite map_app in G. apply nodup_app_inv in G as (G1 & G2 & D).
  split; auto. split; auto. intros r b Hr Hb E. apply (D (row_key tcols pks r)); [now apply in_map|]. rewrite E. now apply in_map.
Qed.
Lemma P_inj x y : In x P -> In y P -> pkey x = pkey y -> x = y.
Proof.
  destruct nodup_base as [NB _]. destruct nodup_N as [_ UQ].
  intros Hx Hy E. apply in_P in Hx. apply in_P in Hy.
  destruct Hx as [(b & s & -> & Hb & Hs & U & M)|[(s & -> & Hs & U & M)|(b & -> & Hb & M)]];
  destruct Hy as [(b' & s' & -> & Hb' & Hs' & U' & M')|[(s' & -> & Hs' & U' & M')|(b' & -> & Hb' & M')]]; unfold pkey in E; cbn [fst snd] in E.
  - assert (s = s') by (apply UQ; auto). subst s'. assert (b = b') by (eapply nodup_map_inj; eauto; congruence). now subst.
  - assert (s = s') by (apply UQ; auto). subst s'. exfalso. eapply M'; eauto.
  - exfalso. apply (M' s); auto.
  - assert (s = s') by (apply UQ; auto). subst s'. exfalso. eapply M; eauto.
  - assert (s = s') by (apply UQ; auto). now subst s'.
  - exfalso. apply (M' s); auto.
  - exfalso. apply (M s'); auto.
  - exfalso. apply (M s'); auto.
  - assert (b = b') by (eapply nodup_map_inj; eauto). now subst.
Qed.

Lemma result_good : good_table tcols pks result.
Proof.
  destruct nodup_base as [NB [NS DB]]. destruct nodup_N as [NN _]. split.
  - rewrite map_app. apply nodup_app; auto.
    + rewrite map_map. apply nodup_map_in.
      * apply NoDup_filter. apply full_join_nodup; auto. eapply nodup_of_map; eauto.
      * intros x y Hx Hy. rewrite !P_key by auto. now apply P_inj.
    + intros k A B. apply in_map_iff in A as (r & <- & Hr). apply in_map_iff in B as (o & E & Ho).
      apply in_map_iff in Ho as (bs & <- & Hbs). rewrite P_key in E by auto.
      apply in_P in Hbs as [(b & s & -> & Hb & Hs & U & M)|[(s & -> & Hs & U & M)|(b & -> & Hb & M)]]; unfold pkey in E; cbn [fst snd] in E.
      * apply (DB r b); auto; congruence.
      * apply in_N in Hs as [Hsr X]. rewrite U in X. destruct (PR r (ch (n_src s)) Hr (in_map ch _ _ Hsr)). congruence.
      * apply (DB r b); auto.
  - intros r H. apply in_app_or in H as [H|H]; [apply GB; apply in_or_app; auto|].
    apply in_map_iff in H as (bs & <- & Hbs). split; [apply outp_length|]. rewrite P_key by auto.
    apply in_P in Hbs as [(b & s & -> & Hb & Hs & U & M)|[(s & -> & Hs & U & M)|(b & -> & Hb & M)]]; unfold pkey; cbn [fst snd].
    + now apply n_pk_length.
    + now apply n_pk_length.
    + now apply base_row.
Qed.

(* what an inserted or re-keyed row leaves open is what the code reads from the row it overwrites *)
Definition settled (c : change) : Prop :=
  forall n, ch_new c = Some n -> new_vals (t0 n) (ch_set c) = new_vals (old_row t0 c) (ch_set c).
Hypothesis ST : forall c, In c J -> settled c.
Variable t' : list value -> option (list value).
Hypothesis AO : at_once J t0 t'.

Theorem apply_syncs_correct :
  good_table tcols pks (stay ++ apply_syncs tcols sch base N) /\
  forall k, table_of tcols pks vals (stay ++ apply_syncs tcols sch base N) k = t' k.
Proof.
  change (apply_syncs tcols sch base N) with (map outp P).
  pose proof result_good as RG. split; auto. intros k.
  assert (Rin : forall bs, In bs P -> In (outp bs) result) by (intros; apply in_or_app; right; now apply in_map).
  destruct (existsb (fun c => okeqb (ch_new c) k) J) eqn:EX.
  - apply existsb_exists in EX as (c & Hc & En). destruct (okeqb_spec (ch_new c) k) as [En'|]; [|discriminate]. clear En.
    rewrite (proj1 (AO k) c Hc En'). rewrite <- (ST c Hc k En').
    apply in_map_iff in Hc as (r & <- & Hr).
    pose proof (N_upsert r k Hr En') as HN. set (s := {| n_pk := k; n_src := r; n_upsert := true |}) in *.
    destruct (existsb (fun b => keqb (row_key tcols pks b) k) base) eqn:EB.
    + apply existsb_exists in EB as (b & Hb & Kb). destruct (keqb_spec (row_key tcols pks b) k) as [Kb'|]; [|discriminate].
      assert (Hp : In (Some b, Some s) P) by (apply in_P; left; exists b, s; repeat split; auto).
      rewrite (table_some result k (outp (Some b, Some s))); auto; [|now rewrite P_key].
      rewrite outp_vals; auto; [|intros ? [= <-]; auto]. cbn [option_map n_src s]. f_equal.
      rewrite ET0. rewrite (table_some (stay ++ base) k b); auto. apply in_or_app; auto.
    + assert (NB : forall b, In b base -> row_key tcols pks b <> k).
      { intros b Hb E. assert (X : existsb (fun b => keqb (row_key tcols pks b) k) base = true); [|congruence].
        apply existsb_exists. exists b. split; auto. destruct (keqb_spec (row_key tcols pks b) k); congruence. }
      assert (Hp : In (None, Some s) P) by (apply in_P; right; left; exists s; repeat split; auto).
      rewrite (table_some result k (outp (None, Some s))); auto; [|now rewrite P_key].
      rewrite outp_vals; auto; [|discriminate]. cbn [option_map n_src s].
      rewrite ET0. rewrite table_none; auto. intros b Hb. apply in_app_or in Hb as [Hb|Hb]; [|now apply NB].
      intros E. destruct (PR b (ch r) Hb (in_map ch _ _ Hr)) as [_ X]. congruence.
  - assert (NN : forall c, In c J -> ch_new c <> Some k).
    { intros c Hc E. assert (X : existsb (fun c => okeqb (ch_new c) k) J = true); [|congruence].
      apply existsb_exists. exists c. split; auto. now destruct (okeqb_spec (ch_new c) k). }
    assert (NS : forall s, In s N -> n_upsert s = true -> n_pk s <> k).
    { intros s Hs U E. apply in_N in Hs as [Hr X]. rewrite U in X. apply (NN (ch (n_src s))); [now apply in_map|congruence]. }
    destruct (existsb (fun c => okeqb (ch_old c) k) J) eqn:EX'.
    + apply existsb_exists in EX' as (c & Hc & Eo). destruct (okeqb_spec (ch_old c) k) as [Eo'|]; [|discriminate].
      rewrite (proj1 (proj2 (AO k)) NN) by (exists c; auto).
      apply table_none. intros r Hr E. apply in_app_or in Hr as [Hr|Hr].
      * destruct (PR r c Hr Hc). congruence.
      * apply in_map_iff in Hr as (bs & <- & Hbs). rewrite P_key in E by auto.
        apply in_map_iff in Hc as (r0 & <- & Hr0).
        pose proof (N_delete r0 k Hr0 Eo' (NN _ (in_map ch _ _ Hr0))) as HD.
        apply in_P in Hbs as [(b & s & -> & Hb & Hs & U & M)|[(s & -> & Hs & U & M)|(b & -> & Hb & M)]]; unfold pkey in E; cbn [fst snd] in E.
        -- exact (NS s Hs U E).
        -- exact (NS s Hs U E).
        -- exact (M _ HD E).
    + assert (NO : forall c, In c J -> ch_old c <> Some k).
      { intros c Hc E. assert (X : existsb (fun c => okeqb (ch_old c) k) J = true); [|congruence].
        apply existsb_exists. exists c. split; auto. now destruct (okeqb_spec (ch_old c) k). }
      rewrite (proj2 (proj2 (AO k))) by (intros c Hc; split; auto). rewrite ET0.
      destruct (table_of tcols pks vals (stay ++ base) k) as [v|] eqn:TO.
      * apply table_inv in TO as (r & Hr & K & V). rewrite <- V. apply table_some; auto.
        apply in_app_or in Hr as [Hr|Hr]; [apply in_or_app; auto|].
        rewrite <- (outp_base r Hr). apply Rin. apply in_P. right; right. exists r. repeat split; auto.
        intros s Hs E. apply in_N in Hs as [Hsr X]. destruct (n_upsert s).
        -- apply (NN (ch (n_src s))); [now apply in_map|congruence].
        -- apply (NO (ch (n_src s))); [now apply in_map|destruct X; congruence].
      * apply table_none. intros r Hr E.
        assert (HA : forall r, In r (stay ++ base) -> row_key tcols pks r <> k).
        { intros x Hx Ex. rewrite (table_some _ k x) in TO; auto. discriminate. }
        apply in_app_or in Hr as [Hr|Hr]; [apply (HA r); auto; apply in_or_app; auto|].
        apply in_map_iff in Hr as (bs & <- & Hbs). rewrite P_key in E by auto.
        apply in_P in Hbs as [(b & s & -> & Hb & Hs & U & M)|[(s & -> & Hs & U & M)|(b & -> & Hb & M)]]; unfold pkey in E; cbn [fst snd] in E.
        -- exact (NS s Hs U E).
        -- exact (NS s Hs U E).
        -- apply (HA b); auto. apply in_or_app; auto.
Qed.
End A.
End T.
