(* Joining two adjacent sets of changes composes their effects. *)
From Coq Require Import List Arith ZArith Bool Lia.
From Verif Require Import SyncDataModel SyncDataSpec SyncAbsSquash SyncSquashProofs.
Import ListNotations.

(* ----- full joins ----- *)
Lemma in_full_join {A B} (m : A -> B -> bool) ls us p :
  In p (full_join m ls us) <->
  (exists l u, p = (Some l, Some u) /\ In l ls /\ In u us /\ m l u = true) \/
  (exists u, p = (None, Some u) /\ In u us /\ forall l, In l ls -> m l u = false) \/
  (exists l, p = (Some l, None) /\ In l ls /\ forall u, In u us -> m l u = false).
Proof.
  unfold full_join. rewrite !in_app_iff.
  assert (E1 : In p (flat_map (fun u => map (fun l => (Some l, Some u)) (filter (fun l => m l u) ls)) us) <->
               exists l u, p = (Some l, Some u) /\ In l ls /\ In u us /\ m l u = true).
  { rewrite in_flat_map. split.
    - intros (u & Hu & H). apply in_map_iff in H as (l & <- & H). apply filter_In in H as [H1 H2]. eauto 8.
    - intros (l & u & -> & H1 & H2 & H3). exists u. split; auto. apply in_map_iff. exists l. split; auto. now apply filter_In. }
  assert (E2 : In p (map (fun u => (None, Some u)) (filter (fun u => negb (existsb (fun l => m l u) ls)) us)) <->
               exists u, p = (None, Some u) /\ In u us /\ forall l, In l ls -> m l u = false).
  { rewrite in_map_iff. split.
    - intros (u & <- & H). apply filter_In in H as [H1 H2]. exists u. split; auto. split; auto.
      intros l Hl. destruct (m l u) eqn:E; auto. apply negb_true_iff in H2.
      assert (existsb (fun l => m l u) ls = true) by (apply existsb_exists; eauto). congruence.
    - intros (u & -> & H1 & H2). exists u. split; auto. apply filter_In. split; auto.
      apply negb_true_iff, not_true_iff_false. intros X. apply existsb_exists in X as (l & Hl & X).
      rewrite H2 in X by auto. discriminate. }
  assert (E3 : In p (map (fun l => (Some l, None)) (filter (fun l => negb (existsb (m l) us)) ls)) <->
               exists l, p = (Some l, None) /\ In l ls /\ forall u, In u us -> m l u = false).
  { rewrite in_map_iff. split.
    - intros (l & <- & H). apply filter_In in H as [H1 H2]. exists l. split; auto. split; auto.
      intros u Hu. destruct (m l u) eqn:E; auto. apply negb_true_iff in H2.
      assert (existsb (m l) us = true) by (apply existsb_exists; eauto). congruence.
    - intros (l & -> & H1 & H2). exists l. split; auto. apply filter_In. split; auto.
      apply negb_true_iff, not_true_iff_false. intros X. apply existsb_exists in X as (u & Hu & X).
      rewrite H2 in X by auto. discriminate. }
  rewrite E1, E2, E3. tauto.
Qed.

Lemma filter_map {A B} (f : A -> B) p l : filter p (map f l) = map f (filter (fun x => p (f x)) l).
Proof. induction l; cbn; auto. destruct (p (f a)); cbn; now rewrite IHl. Qed.
Lemma existsb_map {A B} (f : A -> B) p l : existsb p (map f l) = existsb (fun x => p (f x)) l.
Proof. induction l; cbn; auto. now rewrite IHl. Qed.
Lemma flat_map_map {A B C} (f : A -> B) (g : B -> list C) l : flat_map g (map f l) = flat_map (fun x => g (f x)) l.
Proof. induction l; cbn; auto. now rewrite IHl. Qed.
Lemma map_flat_map {A B C} (f : B -> C) (g : A -> list B) l : map f (flat_map g l) = flat_map (fun x => map f (g x)) l.
Proof. induction l; cbn; auto. now rewrite map_app, IHl. Qed.
Lemma flat_map_ext_in' {A B} (f g : A -> list B) l : (forall a, In a l -> f a = g a) -> flat_map f l = flat_map g l.
Proof. intros H. induction l; cbn; auto. rewrite H, IHl; cbn; auto. intros; apply H; cbn; auto. Qed.

Definition omap2 {A A' B B'} (f : A -> A') (g : B -> B') (p : option A * option B) := (option_map f (fst p), option_map g (snd p)).
Lemma full_join_map {A A' B B'} (f : A -> A') (g : B -> B') (m : A' -> B' -> bool) ls us :
  full_join m (map f ls) (map g us) = map (omap2 f g) (full_join (fun a b => m (f a) (g b)) ls us).
Proof.
  unfold full_join. rewrite !map_app, flat_map_map, map_flat_map, !filter_map, !map_map. f_equal; [|f_equal].
  - apply flat_map_ext_in'. intros u _. now rewrite filter_map, !map_map.
  - f_equal. apply filter_ext. intros u. now rewrite existsb_map.
  - f_equal. apply filter_ext. intros l. now rewrite existsb_map.
Qed.
Lemma full_join_ext {A B} (m m' : A -> B -> bool) ls us :
  (forall l u, In l ls -> In u us -> m l u = m' l u) -> full_join m ls us = full_join m' ls us.
Proof.
  intros H. unfold full_join. f_equal; [|f_equal].
  - apply flat_map_ext_in'. intros u Hu. f_equal. apply filter_ext_in. auto.
  - f_equal. apply filter_ext_in. intros u Hu. f_equal.
    assert (G : forall l', (forall l, In l l' -> In l ls) -> existsb (fun l => m l u) l' = existsb (fun l => m' l u) l').
    { induction l'; cbn; auto. intros Hs. rewrite H, IHl'; auto; intros; apply Hs; cbn; auto. }
    auto.
  - f_equal. apply filter_ext_in. intros l Hl. f_equal.
    assert (G : forall u', (forall u, In u u' -> In u us) -> existsb (m l) u' = existsb (m' l) u').
    { induction u'; cbn; auto. intros Hs. rewrite H, IHu'; auto; intros; apply Hs; cbn; auto. }
    auto.
Qed.

Lemma nodup_app {A} (a b : list A) : NoDup a -> NoDup b -> (forall x, In x a -> ~ In x b) -> NoDup (a ++ b).
Proof.
  induction a as [|x a IH]; cbn; auto. intros Ha Hb D. inversion Ha; subst. constructor.
  - rewrite in_app_iff. intros [H|H]; [contradiction|]. eapply D; eauto.
  - apply IH; auto.
Qed.
Lemma nodup_map_inj {A B} (f : A -> B) l : (forall a b, f a = f b -> a = b) -> NoDup l -> NoDup (map f l).
Proof.
  intros Hf. induction l; cbn; [constructor|]. intros H. inversion H; subst. constructor; auto.
  intros X. apply in_map_iff in X as (y & E & Hy). apply Hf in E. subst. contradiction.
Qed.
Lemma nodup_flat_map {A B} (f : A -> list B) l :
  NoDup l -> (forall a, In a l -> NoDup (f a)) -> (forall a b x, In a l -> In b l -> In x (f a) -> In x (f b) -> a = b) ->
  NoDup (flat_map f l).
Proof.
  induction l as [|y l IH]; cbn; [constructor|]. intros H H1 H2. inversion H; subst. apply nodup_app.
  - apply H1; auto.
  - apply IH; auto. intros a b x Ha Hb. apply H2; auto.
  - intros x Hx Hin. apply in_flat_map in Hin as (z & Hz & Hxz).
    assert (y = z) by (eapply H2; eauto). subst. contradiction.
Qed.
Lemma full_join_nodup {A B} (m : A -> B -> bool) ls us : NoDup ls -> NoDup us -> NoDup (full_join m ls us).
Proof.
  intros Hl Hu. unfold full_join. apply nodup_app; [|apply nodup_app|].
  - apply nodup_flat_map; auto.
    + intros u _. apply nodup_map_inj; [congruence|]. now apply NoDup_filter.
    + intros a b x _ _ Ha Hb. apply in_map_iff in Ha as (l & <- & _). apply in_map_iff in Hb as (l' & E & _). congruence.
  - apply nodup_map_inj; [congruence|]. now apply NoDup_filter.
  - apply nodup_map_inj; [congruence|]. now apply NoDup_filter.
  - intros x Ha Hb. apply in_map_iff in Ha as (l & <- & _). apply in_map_iff in Hb as (l' & E & _). discriminate.
  - intros x Ha Hb. apply in_flat_map in Ha as (u & _ & Ha). apply in_map_iff in Ha as (l & <- & _).
    apply in_app_or in Hb as [Hb|Hb]; apply in_map_iff in Hb as (l' & E & _); discriminate.
Qed.

Lemma with_idx_snd {A} (l : list A) : map snd (with_idx l) = l.
Proof. apply map_snd_combine_seq. Qed.
Lemma with_idx_nodup {A} (l : list A) : NoDup (with_idx l).
Proof.
  apply NoDup_nth_error. intros i j Hi E. rewrite !nth_error_with_idx in E.
  rewrite with_idx_length in Hi. destruct (nth_error l i) eqn:Ei; [|apply nth_error_None in Ei; lia].
  destruct (nth_error l j); cbn in E; congruence.
Qed.
Lemma in_with_idx {A} (l : list A) i x : In (i, x) (with_idx l) <-> nth_error l i = Some x.
Proof.
  split.
  - intros H. apply In_nth_error in H as (j & Hj). rewrite nth_error_with_idx in Hj.
    destruct (nth_error l j) eqn:E; cbn in Hj; congruence.
  - intros H. apply (nth_error_In _ i). rewrite nth_error_with_idx, H. reflexivity.
Qed.

Lemma somes_idx {A B} (f : A -> option B) l :
  NoDup (somes f l) ->
  forall i j a b k, nth_error l i = Some a -> nth_error l j = Some b -> f a = Some k -> f b = Some k -> i = j.
Proof.
  induction l as [|x l IH]; intros H i j a b k Ha Hb Fa Fb; [destruct i; discriminate|].
  assert (Hin : forall y, In y l -> f y = Some k -> f x = Some k -> False).
  { intros y Hy Fy Fx. cbn in H. rewrite Fx in H. cbn in H. inversion H; subst. apply H2. apply in_somes. eauto. }
  destruct i, j; auto; cbn in *.
  - injection Ha as ->. exfalso. apply (Hin b); auto. eapply nth_error_In; eauto.
  - injection Hb as ->. exfalso. apply (Hin a); auto. eapply nth_error_In; eauto.
  - f_equal. eapply IH; eauto. destruct (f x); auto. cbn in H. now inversion H.
Qed.
Lemma nodup_somes_inj {A B} (f : A -> option B) l :
  NoDup l -> (forall a b k, In a l -> In b l -> f a = Some k -> f b = Some k -> a = b) -> NoDup (somes f l).
Proof.
  intros H Hi. apply somes_nodup. intros i j a b k Ha Hb Fa Fb.
  assert (a = b) by (eapply Hi; eauto; eapply nth_error_In; eauto). subst.
  eapply nodup_nth; eauto.
Qed.

(* ----- merging ----- *)
Definition amatch (l u : change) : bool :=
  match ch_new l, ch_old u with Some a, Some b => keqb a b | _, _ => false end.
Definition amk (p : option change * option change) : change :=
  match p with
  | (Some l, Some u) => {| ch_old := ch_old l; ch_new := ch_new u; ch_set := comp (ch_set u) (ch_set l) |}
  | (Some l, None) => l
  | (None, Some u) => u
  | (None, None) => dummy
  end.
Definition amerge (ls us : list change) : list change := map amk (full_join amatch ls us).

Lemma amatch_true l u : amatch l u = true <-> exists k, ch_new l = Some k /\ ch_old u = Some k.
Proof.
  unfold amatch. destruct (ch_new l) as [a|], (ch_old u) as [b|]; try (split; [discriminate|intros (k & ? & ?); discriminate]).
  destruct (keqb_spec a b); split; try discriminate; eauto.
  - intros _. exists a. split; congruence.
  - intros (k & ? & ?). congruence.
Qed.

Section Merge.
Variables (w : nat) (t t1 t2 : list value -> option (list value)) (L U : list change).
Hypothesis Hw : wide w t.
Hypothesis HL : net t L.
Hypothesis HLs : forall c, In c L -> length (ch_set c) = w.
Hypothesis H1 : at_once L t t1.
Hypothesis HU : net t1 U.
Hypothesis HUs : forall c, In c U -> length (ch_set c) = w.
Hypothesis H2 : at_once U t1 t2.

Definition unm_l (l : change) := forall u, In u U -> amatch l u = false.
Definition unm_u (u : change) := forall l, In l L -> amatch l u = false.

Lemma dec_l l : unm_l l \/ exists u, In u U /\ amatch l u = true.
Proof.
  destruct (existsb (amatch l) U) eqn:E.
  - right. apply existsb_exists in E as (u & Hu & E). eauto.
  - left. intros u Hu. destruct (amatch l u) eqn:F; auto.
    assert (existsb (amatch l) U = true) by (apply existsb_exists; eauto). congruence.
Qed.
Lemma dec_u u : unm_u u \/ exists l, In l L /\ amatch l u = true.
Proof.
  destruct (existsb (fun l => amatch l u) L) eqn:E.
  - right. apply existsb_exists in E as (l & Hl & E). eauto.
  - left. intros l Hl. destruct (amatch l u) eqn:F; auto.
    assert (existsb (fun l => amatch l u) L = true) by (apply existsb_exists; eauto). congruence.
Qed.

Lemma unm_u_old u k : In u U -> unm_u u -> ch_old u = Some k ->
  t1 k = t k /\ t k <> None /\ (forall l, In l L -> ch_new l <> Some k /\ ch_old l <> Some k).
Proof.
  intros Hu Hn Ho. pose proof (net_old _ _ HU u k Hu Ho) as P.
  destruct (at_once_present _ _ _ _ H1 P) as [(l & Hl & E)|[A B]].
  - exfalso. assert (amatch l u = true) by (apply amatch_true; eauto). rewrite Hn in H by auto. discriminate.
  - split; [now apply H1|]. auto.
Qed.
Lemma unm_l_new l k : In l L -> unm_l l -> ch_new l = Some k ->
  forall u, In u U -> ch_new u <> Some k /\ ch_old u <> Some k.
Proof.
  intros Hl Hn E.
  assert (No : forall u, In u U -> ch_old u <> Some k).
  { intros u Hu Ho. assert (amatch l u = true) by (apply amatch_true; eauto). rewrite Hn in H by auto. discriminate. }
  intros u Hu. split; auto. intros En.
  destruct (net_new _ _ HU u k Hu En) as [F|(u' & Hu' & F)].
  - pose proof (proj1 (H1 k) l Hl E). congruence.
  - eapply No; eauto.
Qed.

Lemma in_amerge c : In c (amerge L U) <->
  (exists l u, c = amk (Some l, Some u) /\ In l L /\ In u U /\ amatch l u = true) \/
  (In c U /\ unm_u c) \/ (In c L /\ unm_l c).
Proof.
  unfold amerge. rewrite in_map_iff. split.
  - intros (p & <- & Hp). apply in_full_join in Hp as [(l & u & -> & ?)|[(u & -> & Hu & Hn)|(l & -> & Hl & Hn)]].
    + left. exists l, u. tauto.
    + right. left. cbn. auto.
    + right. right. cbn. auto.
  - intros [(l & u & -> & ?)|[[Hu Hn]|[Hl Hn]]].
    + exists (Some l, Some u). split; auto. apply in_full_join. left. exists l, u. tauto.
    + exists (None, Some c). split; auto. apply in_full_join. right. left. eauto.
    + exists (Some c, None). split; auto. apply in_full_join. right. right. eauto.
Qed.

(* every upper new key and every lower old key survives *)
Lemma new_u u : In u U -> exists c, In c (amerge L U) /\ ch_new c = ch_new u.
Proof.
  intros Hu. destruct (dec_u u) as [N|(l & Hl & M)].
  - exists u. split; auto. apply in_amerge. auto.
  - exists (amk (Some l, Some u)). split; auto. apply in_amerge. left. eauto 8.
Qed.
Lemma old_l l : In l L -> exists c, In c (amerge L U) /\ ch_old c = ch_old l.
Proof.
  intros Hl. destruct (dec_l l) as [N|(u & Hu & M)].
  - exists l. split; auto. apply in_amerge. auto.
  - exists (amk (Some l, Some u)). split; auto. apply in_amerge. left. eauto 8.
Qed.

Lemma amerge_at_once : at_once (amerge L U) t t2.
Proof.
  intros k. split; [|split].
  - intros c Hc En. apply in_amerge in Hc as [(l & u & -> & Hl & Hu & M)|[[Hu Nu]|[Hl Nl]]].
    + cbn in En. rewrite (proj1 (H2 k) u Hu En). cbn [amk ch_set]. unfold old_row at 1.
      apply amatch_true in M as (k' & Ml & Mu). rewrite Mu, (proj1 (H1 k') l Hl Ml).
      rewrite (new_vals_comp _ _ _ w); auto. now apply wide_old.
    + rewrite (proj1 (H2 k) c Hu En). unfold old_row. destruct (ch_old c) as [o|] eqn:Eo; auto.
      destruct (unm_u_old c o Hu Nu Eo) as [-> _]. reflexivity.
    + pose proof (unm_l_new c k Hl Nl En) as N.
      rewrite (proj2 (proj2 (H2 k)) N). now apply H1.
  - intros N (c & Hc & Eo).
    assert (NU : forall u, In u U -> ch_new u <> Some k).
    { intros u Hu E. destruct (new_u u Hu) as (c' & Hc' & E'). apply (N c'); congruence. }
    destruct (existsb (fun u => okeqb (ch_old u) k) U) eqn:EU.
    + apply H2; auto. apply existsb_exists in EU as (u & Hu & E). destruct (okeqb_spec (ch_old u) k); [eauto|discriminate].
    + assert (OU : forall u, In u U -> ch_old u <> Some k).
      { intros u Hu E. assert (existsb (fun u => okeqb (ch_old u) k) U = true); [|congruence].
        apply existsb_exists. exists u. split; auto. destruct (okeqb_spec (ch_old u) k); auto. }
      rewrite (proj2 (proj2 (H2 k))) by auto.
      apply H1.
      * intros l Hl E. destruct (dec_l l) as [Nl|(u & Hu & M)].
        -- apply (N l); auto. apply in_amerge. auto.
        -- apply amatch_true in M as (k' & Ml & Mu). apply (OU u); congruence.
      * apply in_amerge in Hc as [(l & u & -> & Hl & Hu & M)|[[Hu Nu]|[Hl Nl]]].
        -- exists l. auto.
        -- exfalso. eapply OU; eauto.
        -- eauto.
  - intros N.
    assert (NU : forall u, In u U -> ch_new u <> Some k).
    { intros u Hu E. destruct (new_u u Hu) as (c' & Hc' & E'). apply (proj1 (N c' Hc')); congruence. }
    assert (OL : forall l, In l L -> ch_old l <> Some k).
    { intros l Hl E. destruct (old_l l Hl) as (c' & Hc' & E'). apply (proj2 (N c' Hc')); congruence. }
    destruct (existsb (fun u => okeqb (ch_old u) k) U) eqn:EU.
    + apply existsb_exists in EU as (u & Hu & E). destruct (okeqb_spec (ch_old u) k) as [Eo|]; [|discriminate].
      rewrite (proj1 (proj2 (H2 k))) by eauto. symmetry.
      destruct (dec_u u) as [Nu|(l & Hl & M)].
      * exfalso. refine (proj2 (N u _) Eo). apply in_amerge. auto.
      * apply amatch_true in M as (k' & Ml & Mu).
        destruct (net_new _ _ HL l k Hl ltac:(congruence)) as [F|(l' & Hl' & F)]; [auto|].
        exfalso. eapply OL; eauto.
    + assert (OU : forall u, In u U -> ch_old u <> Some k).
      { intros u Hu E. assert (existsb (fun u => okeqb (ch_old u) k) U = true); [|congruence].
        apply existsb_exists. exists u. split; auto. destruct (okeqb_spec (ch_old u) k); auto. }
      rewrite (proj2 (proj2 (H2 k))) by auto. apply H1.
      intros l Hl. split; auto. intros E. destruct (dec_l l) as [Nl|(u & Hu & M)].
      * refine (proj1 (N l _) E). apply in_amerge. auto.
      * apply amatch_true in M as (k' & Ml & Mu). apply (OU u); congruence.
Qed.

Lemma amerge_sets c : In c (amerge L U) -> length (ch_set c) = w.
Proof.
  intros Hc. apply in_amerge in Hc as [(l & u & -> & Hl & Hu & M)|[[Hu Nu]|[Hl Nl]]]; auto.
  cbn. rewrite comp_length; rewrite HUs; auto. now rewrite HLs.
Qed.

(* the pairs with the positions of both sides *)
Notation ijoin := (full_join (fun (a b : nat * change) => amatch (snd a) (snd b)) (with_idx L) (with_idx U)).
Lemma amerge_idx : amerge L U = map amk (map (omap2 snd snd) ijoin).
Proof. unfold amerge. rewrite <- full_join_map, !with_idx_snd. reflexivity. Qed.

Lemma amerge_one : one_per_row (amerge L U).
Proof.
  destruct (net_one _ _ HL) as [HLo HLn]. destruct (net_one _ _ HU) as [HUo HUn].
  pose proof (somes_idx _ _ HLo) as Lo. pose proof (somes_idx _ _ HLn) as Ln.
  pose proof (somes_idx _ _ HUo) as Uo. pose proof (somes_idx _ _ HUn) as Un.
  assert (Hj : forall p, In p ijoin ->
    (exists i l j u, p = (Some (i, l), Some (j, u)) /\ nth_error L i = Some l /\ nth_error U j = Some u /\ amatch l u = true) \/
    (exists j u, p = (None, Some (j, u)) /\ nth_error U j = Some u /\ unm_u u) \/
    (exists i l, p = (Some (i, l), None) /\ nth_error L i = Some l /\ unm_l l)).
  { intros p Hp. apply in_full_join in Hp as [([i l] & [j u] & -> & A & B & M)|[([j u] & -> & B & N)|([i l] & -> & A & N)]].
    - left. apply in_with_idx in A, B. eauto 10.
    - right. left. apply in_with_idx in B. exists j, u. split; auto. split; auto. intros l Hl.
      apply In_nth_error in Hl as (i & Hi). apply (N (i, l)). now apply in_with_idx.
    - right. right. apply in_with_idx in A. exists i, l. split; auto. split; auto. intros u Hu.
      apply In_nth_error in Hu as (j & Hj). apply (N (j, u)). now apply in_with_idx. }
  assert (ND : NoDup ijoin) by (apply full_join_nodup; apply with_idx_nodup).
  assert (Contra : forall l u, amatch l u = true -> In l L -> unm_u u -> False).
  { intros l u M Hl N. rewrite N in M by auto. discriminate. }
  assert (Contra' : forall l u, amatch l u = true -> In u U -> unm_l l -> False).
  { intros l u M Hl N. rewrite N in M by auto. discriminate. }
  rewrite amerge_idx, map_map. split; rewrite somes_map; apply nodup_somes_inj; auto; intros p q k Hp Hq Ep Eq.
  - apply Hj in Hp as [(i & l & j & u & -> & A & B & M)|[(j & u & -> & B & N)|(i & l & -> & A & N)]];
    apply Hj in Hq as [(i' & l' & j' & u' & -> & A' & B' & M')|[(j' & u' & -> & B' & N')|(i' & l' & -> & A' & N')]];
    cbn in Ep, Eq.
    + assert (i = i') by (eapply Lo; eauto). subst i'. rewrite A in A'. injection A' as <-.
      apply amatch_true in M as (a & Ma & Mb), M' as (a' & Ma' & Mb').
      assert (j = j') by (eapply Uo; eauto; congruence). subst j'. rewrite B in B'. injection B' as <-. reflexivity.
    + exfalso. refine (proj2 (proj2 (proj2 (unm_u_old u' k (nth_error_In _ _ B') N' Eq)) l _) Ep). eapply nth_error_In; eauto.
    + assert (i = i') by (eapply Lo; eauto). subst i'. rewrite A in A'. injection A' as <-.
      exfalso. eapply Contra'; eauto. eapply nth_error_In; eauto.
    + exfalso. refine (proj2 (proj2 (proj2 (unm_u_old u k (nth_error_In _ _ B) N Ep)) l' _) Eq). eapply nth_error_In; eauto.
    + assert (j = j') by (eapply Uo; eauto). subst j'. rewrite B in B'. injection B' as <-. reflexivity.
    + exfalso. refine (proj2 (proj2 (proj2 (unm_u_old u k (nth_error_In _ _ B) N Ep)) l' _) Eq). eapply nth_error_In; eauto.
    + assert (i = i') by (eapply Lo; eauto). subst i'. rewrite A in A'. injection A' as <-.
      exfalso. eapply Contra'; eauto. eapply nth_error_In; eauto.
    + exfalso. refine (proj2 (proj2 (proj2 (unm_u_old u' k (nth_error_In _ _ B') N' Eq)) l _) Ep). eapply nth_error_In; eauto.
    + assert (i = i') by (eapply Lo; eauto). subst i'. rewrite A in A'. injection A' as <-. reflexivity.
  - apply Hj in Hp as [(i & l & j & u & -> & A & B & M)|[(j & u & -> & B & N)|(i & l & -> & A & N)]];
    apply Hj in Hq as [(i' & l' & j' & u' & -> & A' & B' & M')|[(j' & u' & -> & B' & N')|(i' & l' & -> & A' & N')]];
    cbn in Ep, Eq.
    + assert (j = j') by (eapply Un; eauto). subst j'. rewrite B in B'. injection B' as <-.
      apply amatch_true in M as (a & Ma & Mb), M' as (a' & Ma' & Mb').
      assert (i = i') by (eapply Ln; eauto; congruence). subst i'. rewrite A in A'. injection A' as <-. reflexivity.
    + assert (j = j') by (eapply Un; eauto). subst j'. rewrite B in B'. injection B' as <-.
      exfalso. eapply Contra; eauto. eapply nth_error_In; eauto.
    + exfalso. refine (proj1 (unm_l_new l' k (nth_error_In _ _ A') N' Eq u _) Ep). eapply nth_error_In; eauto.
    + assert (j = j') by (eapply Un; eauto). subst j'. rewrite B in B'. injection B' as <-.
      exfalso. eapply Contra; eauto. eapply nth_error_In; eauto.
    + assert (j = j') by (eapply Un; eauto). subst j'. rewrite B in B'. injection B' as <-. reflexivity.
    + exfalso. refine (proj1 (unm_l_new l' k (nth_error_In _ _ A') N' Eq u _) Ep). eapply nth_error_In; eauto.
    + exfalso. refine (proj1 (unm_l_new l k (nth_error_In _ _ A) N Ep u' _) Eq). eapply nth_error_In; eauto.
    + exfalso. refine (proj1 (unm_l_new l k (nth_error_In _ _ A) N Ep u' _) Eq). eapply nth_error_In; eauto.
    + assert (i = i') by (eapply Ln; eauto). subst i'. rewrite A in A'. injection A' as <-. reflexivity.
Qed.

Lemma amerge_net : net t (amerge L U).
Proof.
  split; [exact amerge_one| |].
  - intros c k Hc Eo. apply in_amerge in Hc as [(l & u & -> & Hl & Hu & M)|[[Hu Nu]|[Hl Nl]]].
    + cbn in Eo. eapply net_old; eauto.
    + now destruct (unm_u_old c k Hu Nu Eo) as (_ & P & _).
    + eapply net_old; eauto.
  - intros c k Hc En.
    assert (FL : (t k = None \/ exists l', In l' L /\ ch_old l' = Some k) ->
                 t k = None \/ exists c', In c' (amerge L U) /\ ch_old c' = Some k).
    { intros [F|(l' & Hl' & F)]; auto. right. destruct (old_l l' Hl') as (c' & Hc' & E'). exists c'. split; congruence. }
    assert (FU : forall u, In u U -> ch_new u = Some k -> t k = None \/ exists c', In c' (amerge L U) /\ ch_old c' = Some k).
    { intros u Hu E. destruct (net_new _ _ HU u k Hu E) as [F|(u' & Hu' & F)].
      - apply FL. apply (at_once_absent _ _ _ _ H1) in F as [_ [F|F]]; auto.
      - destruct (dec_u u') as [Nu|(l & Hl & M)].
        + right. exists u'. split; auto. apply in_amerge. auto.
        + apply amatch_true in M as (k' & Ml & Mu). apply FL. eapply (net_new _ _ HL l); eauto. congruence. }
    apply in_amerge in Hc as [(l & u & -> & Hl & Hu & M)|[[Hu Nu]|[Hl Nl]]].
    + cbn in En. eauto.
    + eauto.
    + apply FL. eapply net_new; eauto.
Qed.
End Merge.
