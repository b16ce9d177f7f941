(* Invariants of the sync writer. *)
From Coq Require Import List Arith NArith Bool Lia.
From Coq Require Import ZifyBool ZifyNat ZifyN.
From Verif Require Import SyncWriterModel SyncWriterSpec.
Import ListNotations.
Open Scope N_scope.

(* ---------- list and map helpers ---------- *)
Lemma last_opt_snoc {A} (l : list A) x : last_opt (l ++ [x]) = Some x.
Proof. induction l as [|a l IH]; [reflexivity|]. cbn. destruct (l ++ [x]) eqn:E; [destruct l; discriminate|]. exact IH. Qed.
Lemma last_opt_Some {A} (l : list A) x : last_opt l = Some x -> exists p, l = p ++ [x].
Proof.
  destruct l as [|a l] using rev_ind; [discriminate|].
  rewrite last_opt_snoc. intros [= <-]. eauto.
Qed.
Lemma last_opt_None {A} (l : list A) : last_opt l = None -> l = [].
Proof. destruct l as [|a l] using rev_ind; [reflexivity|]. rewrite last_opt_snoc. discriminate. Qed.
Lemma upd_last_snoc {A} (f : A -> A) l x : upd_last f (l ++ [x]) = l ++ [f x].
Proof. induction l as [|a l IH]; [reflexivity|]. cbn. destruct (l ++ [x]) eqn:E; [destruct l; discriminate|]. now rewrite IH. Qed.

Lemma get_app {A} k (a b : list (nat * A)) :
  get k (a ++ b) = match get k a with Some v => Some v | None => get k b end.
Proof. induction a as [|[k' v] a IH]; [reflexivity|]. cbn. destruct (Nat.eqb k k'); auto. Qed.
Lemma get_In {A} k (m : list (nat * A)) v : get k m = Some v -> In (k, v) m.
Proof. induction m as [|[k' v'] m IH]; [discriminate|]. cbn. destruct (Nat.eqb_spec k k'); intros H; [left|right; auto]. now inversion H; subst. Qed.
Lemma get_None {A} k (m : list (nat * A)) : get k m = None <-> ~ In k (map fst m).
Proof.
  induction m as [|[k' v'] m IH]; [cbn; tauto|]. cbn. destruct (Nat.eqb_spec k k'); split; intros H.
  - discriminate.
  - exfalso; apply H; auto.
  - intros [->|HI]; [congruence|]. apply IH in H; auto.
  - apply IH. intros HI; apply H; auto.
Qed.
Lemma In_get {A} k v (m : list (nat * A)) : NoDup (map fst m) -> In (k, v) m -> get k m = Some v.
Proof.
  induction m as [|[k' v'] m IH]; [intros _ []|]. cbn. intros HN [E|HI].
  - injection E as -> ->. now rewrite Nat.eqb_refl.
  - inversion HN; subst. destruct (Nat.eqb_spec k k'); [subst; exfalso; apply H1; now apply (in_map fst) in HI|auto].
Qed.
Lemma map_fst_upd {A} k f (m : list (nat * A)) : map fst (upd k f m) = map fst m.
Proof. induction m as [|[k' v'] m IH]; [reflexivity|]. cbn. destruct (Nat.eqb k k'); cbn; congruence. Qed.
Lemma get_upd_same {A} k f (m : list (nat * A)) : get k (upd k f m) = option_map f (get k m).
Proof. induction m as [|[k' v'] m IH]; [reflexivity|]. cbn. destruct (Nat.eqb k k') eqn:E; cbn; rewrite E; auto. Qed.
Lemma get_upd_other {A} k k' f (m : list (nat * A)) : k <> k' -> get k' (upd k f m) = get k' m.
Proof.
  intros HN. induction m as [|[j v'] m IH]; [reflexivity|]. cbn. destruct (Nat.eqb_spec k j); cbn.
  - subst. destruct (Nat.eqb_spec k' j); congruence.
  - destruct (Nat.eqb_spec k' j); auto.
Qed.
Lemma map_fst_del {A} k (m : list (nat * A)) : incl (map fst (del k m)) (map fst m).
Proof. intros x. unfold del. rewrite !in_map_iff. intros (p & E & HI). apply filter_In in HI. exists p; tauto. Qed.
Lemma NoDup_del {A} k (m : list (nat * A)) : NoDup (map fst m) -> NoDup (map fst (del k m)).
Proof.
  induction m as [|[k' v'] m IH]; [auto|]. cbn [map fst]. intros H; inversion H; subst.
  cbn. destruct (Nat.eqb k k'); cbn; [auto|]. constructor; [|auto].
  intros HI. apply (map_fst_del k m) in HI. contradiction.
Qed.
Lemma get_del_same {A} k (m : list (nat * A)) : get k (del k m) = None.
Proof. induction m as [|[k' v'] m IH]; [reflexivity|]. cbn. destruct (Nat.eqb k k') eqn:E; cbn; [auto|]. rewrite E; auto. Qed.
Lemma get_del_other {A} k k' (m : list (nat * A)) : k <> k' -> get k' (del k m) = get k' m.
Proof.
  intros HN. induction m as [|[j v'] m IH]; [reflexivity|]. cbn. destruct (Nat.eqb_spec k j); cbn.
  - subst. destruct (Nat.eqb_spec k' j); [congruence|auto].
  - destruct (Nat.eqb_spec k' j); auto.
Qed.
Lemma get_put {A} k k' v (m : list (nat * A)) : get k' (put k v m) = if Nat.eqb k' k then Some v else get k' m.
Proof.
  unfold put. cbn. destruct (Nat.eqb_spec k' k); [reflexivity|].
  apply (get_del_other k k' m). congruence.
Qed.
Lemma length_del {A} k (m : list (nat * A)) v : get k m = Some v -> (length (del k m) < length m)%nat.
Proof.
  assert (G : forall m : list (nat * A), (length (del k m) <= length m)%nat).
  { induction m0 as [|[j x] m0 IH]; [reflexivity|]. cbn. destruct (Nat.eqb k j); cbn; unfold del in *; lia. }
  induction m as [|[j x] m IH]; [discriminate|]. cbn. destruct (Nat.eqb k j); cbn.
  - intros _. specialize (G m). unfold del in *; lia.
  - intros H. apply IH in H. unfold del in *; lia.
Qed.
Lemma length_upd {A} k f (m : list (nat * A)) : length (upd k f m) = length m.
Proof. rewrite <- (map_length fst), map_fst_upd, map_length. reflexivity. Qed.

Lemma In_set_add u v l : In v (set_add u l) <-> v = u \/ In v l.
Proof.
  unfold set_add. destruct (existsb (Nat.eqb u) l) eqn:E.
  - apply existsb_exists in E. destruct E as (x & Hx & Ex). apply Nat.eqb_eq in Ex; subst x.
    split; [tauto|]. intros [->|]; auto.
  - rewrite in_app_iff. cbn. intuition.
Qed.
Lemma In_set_rem u v l : In v (set_rem u l) <-> v <> u /\ In v l.
Proof. unfold set_rem. rewrite filter_In. destruct (Nat.eqb_spec u v); cbn; intuition congruence. Qed.

Lemma flat_map_app' {A B} (f : A -> list B) l1 l2 : flat_map f (l1 ++ l2) = flat_map f l1 ++ flat_map f l2.
Proof. apply flat_map_app. Qed.
Lemma flat_map_flat_map {A B C} (f : A -> list B) (g : B -> list C) l :
  flat_map g (flat_map f l) = flat_map (fun x => flat_map g (f x)) l.
Proof. induction l as [|a l IH]; [reflexivity|]. cbn. now rewrite flat_map_app', IH. Qed.
Lemma flat_map_map {A B C} (f : A -> B) (g : B -> list C) l :
  flat_map g (map f l) = flat_map (fun x => g (f x)) l.
Proof. induction l as [|a l IH]; [reflexivity|]. cbn. now rewrite IH. Qed.

Lemma NoDup_snoc {A} (l : list A) x : NoDup l -> ~ In x l -> NoDup (l ++ [x]).
Proof.
  induction l as [|a l IH]; intros HN Hx; cbn; [constructor; [tauto|constructor]|].
  inversion HN; subst. constructor.
  - rewrite in_app_iff. intros [HX|[HX|[]]]; [contradiction|]. apply Hx. left. congruence.
  - apply IH; [auto|]. intros HX. apply Hx. now right.
Qed.
(* ---------- sizes ---------- *)
Lemma sum_size_app a b : sum_size (a ++ b) = sum_size a + sum_size b.
Proof. induction a as [|x a IH]; cbn; [reflexivity|]. unfold sum_size in *. lia. Qed.
Lemma sum_rows_app a b : sum_rows (a ++ b) = sum_rows a + sum_rows b.
Proof. induction a as [|x a IH]; cbn; [reflexivity|]. unfold sum_rows in *. lia. Qed.
Lemma sum_size_tag id k bs : sum_size (tag id k bs) = fold_right (fun b a => fst b + a) 0 bs.
Proof. revert k; induction bs as [|[s r] bs IH]; intros k; [reflexivity|]. cbn. now rewrite <- (IH (S k)). Qed.
Lemma sum_rows_tag id k bs : sum_rows (tag id k bs) = fold_right (fun b a => snd b + a) 0 bs.
Proof. revert k; induction bs as [|[s r] bs IH]; intros k; [reflexivity|]. cbn. now rewrite <- (IH (S k)). Qed.

Definition items_size (l : list item) : N := sum_size (flat_map i_data l).
Definition items_rows (l : list item) : N := sum_rows (flat_map i_data l).
Lemma items_size_cons it l : items_size (it :: l) = sum_size (i_data it) + items_size l.
Proof. unfold items_size. cbn. apply sum_size_app. Qed.
Lemma items_rows_cons it l : items_rows (it :: l) = sum_rows (i_data it) + items_rows l.
Proof. unfold items_rows. cbn. apply sum_rows_app. Qed.
Lemma items_size_app a b : items_size (a ++ b) = items_size a + items_size b.
Proof. unfold items_size. rewrite flat_map_app'. apply sum_size_app. Qed.
Lemma items_rows_app a b : items_rows (a ++ b) = items_rows a + items_rows b.
Proof. unfold items_rows. rewrite flat_map_app'. apply sum_rows_app. Qed.
Lemma sum_size_single b : sum_size [b] = b_size b.
Proof. cbn. lia. Qed.
Lemma sum_rows_single b : sum_rows [b] = b_rows b.
Proof. cbn. lia. Qed.
Lemma items_size_nil : items_size [] = 0. Proof. reflexivity. Qed.
Lemma items_rows_nil : items_rows [] = 0. Proof. reflexivity. Qed.
#[global] Opaque sum_size sum_rows.

Definition total (l : list (url * coll)) : N := fold_right (fun p a => c_size (snd p) + a) 0 l.
Lemma total_app a b : total (a ++ b) = total a + total b.
Proof. induction a as [|p a IH]; cbn; [reflexivity|]. unfold total in *. lia. Qed.
Lemma total_upd k c c' l : get k l = Some c -> total (upd k (fun _ => c') l) + c_size c = total l + c_size c'.
Proof.
  induction l as [|[j x] l IH]; [discriminate|]. cbn. destruct (Nat.eqb k j); cbn.
  - intros [= ->]. unfold total. lia.
  - intros H; apply IH in H. unfold total in *. lia.
Qed.
Lemma total_del k c l : NoDup (map fst l) -> get k l = Some c -> total (del k l) + c_size c = total l.
Proof.
  induction l as [|[j x] l IH]; [discriminate|]. cbn [map fst]. intros HN. inversion HN as [|? ? HJ HN']; subst.
  cbn. destruct (Nat.eqb_spec k j); cbn.
  - intros [= ->]. subst j.
    fold (del k l). assert (del k l = l) as ->; [|unfold total; lia].
    clear -HJ. induction l as [|[j y] l IH]; [reflexivity|]. cbn in *. destruct (Nat.eqb_spec k j); [subst; tauto|].
    cbn. f_equal. apply IH. tauto.
  - intros H. apply IH in H; auto. unfold total, del in *. lia.
Qed.
Lemma total_get k c l : get k l = Some c -> c_size c <= total l.
Proof.
  induction l as [|[j x] l IH]; [discriminate|]. cbn. destruct (Nat.eqb k j).
  - intros [= ->]. lia.
  - intros H; apply IH in H. unfold total in *; lia.
Qed.

#[global] Arguments total : simpl never.
Lemma total_single u c : total [(u, c)] = c_size c. Proof. unfold total; cbn; lia. Qed.
(* ---------- the observable shape of pending items ---------- *)
Definition shape (it : item) : list txid * list prov := (i_txs it, flat_map b_prov (i_data it)).
Definition items_of (w : writer) (u : url) : list item :=
  match get u (w_syncs w) with Some c => c_items c | None => [] end.
Definition sh (w : writer) (u : url) := map shape (items_of w u).

Lemma pending_sh w u : pending w u = flat_map snd (sh w u).
Proof.
  unfold pending, sh, items_of. destruct (get u (w_syncs w)) as [c|]; [|reflexivity].
  rewrite flat_map_map, flat_map_flat_map. reflexivity.
Qed.

Definition coll_ok (c : coll) : Prop :=
  c_size c = items_size (c_items c) /\ c_rows c = items_rows (c_items c) /\
  c_items c <> [] /\ Forall (fun it => i_txs it <> []) (c_items c).

Record WInv (w : writer) : Prop := {
  I_size : w_size w = total (w_syncs w);
  I_nodup : NoDup (map fst (w_syncs w));
  I_coll : forall u c, get u (w_syncs w) = Some c -> coll_ok c;
  I_ids : exists lo n, map fst (w_txs w) = seq lo n /\ (lo + n)%nat = w_next w;
  I_open : forall pre t x y post, w_txs w = pre ++ (t, x) :: y :: post -> t_seq x <> None;
  I_loc1 : forall u s t, In s (sh w u) -> In t (fst s) ->
                         exists x, get t (w_txs w) = Some x /\ In u (t_locs x);
  I_loc2 : forall t x u, get t (w_txs w) = Some x -> In u (t_locs x) ->
                         exists s, In s (sh w u) /\ In t (fst s)
}.

(* ---------- squashing ---------- *)
Lemma squash_items_spec sq items : forall i size csize crows items' size' csize' crows' ok,
  squash_items sq i items size csize crows = (items', size', csize', crows', ok) ->
  items_size items <= csize -> csize <= size -> items_rows items <= crows ->
  map shape items' = map shape items /\ map i_schema items' = map i_schema items /\
  size' + items_size items = size + items_size items' /\
  csize' + items_size items = csize + items_size items' /\
  crows' + items_rows items = crows + items_rows items'.
Proof.
  induction items as [|it items IH]; intros i size csize crows items' size' csize' crows' ok E Hs Hc Hr.
  - cbn in E. injection E as <- <- <- <- <-. repeat split; lia.
  - cbn [squash_items] in E. rewrite items_size_cons, ?items_rows_cons in *.
    destruct (i_squashed it) eqn:Esq.
    + destruct (squash_items sq (S i) items size csize crows) as [[[[r s1] s2] s3] ok'] eqn:ER.
      injection E as <- <- <- <- <-.
      apply IH in ER; [|lia..]. destruct ER as (E1 & E1' & E2 & E3 & E4).
      cbn [map]. rewrite E1, E1', !items_size_cons, !items_rows_cons. repeat split; lia.
    + destruct (sq i) as [[s r]|].
      * destruct (squash_items sq (S i) items _ _ _) as [[[[r' s1] s2] s3] ok'] eqn:ER.
        injection E as <- <- <- <- <-.
        apply IH in ER; [|lia..]. destruct ER as (E1 & E1' & E2 & E3 & E4).
        cbn [map]. rewrite E1, E1', !items_size_cons, !items_rows_cons. cbn [i_data i_schema].
        rewrite sum_size_single, sum_rows_single. cbn [b_size b_rows].
        unfold shape at 1. cbn [i_txs i_data flat_map b_prov]. rewrite app_nil_r.
        repeat split; lia.
      * injection E as <- <- <- <- <-.
        rewrite !items_size_cons, !items_rows_cons. repeat split; lia.
Qed.

Definition same_core (w w' : writer) : Prop :=
  w_txs w' = w_txs w /\ w_mem w' = w_mem w /\ w_dur w' = w_dur w /\ w_next w' = w_next w /\
  map fst (w_syncs w') = map fst (w_syncs w) /\
  (forall u, sh w' u = sh w u) /\
  (forall u c', get u (w_syncs w') = Some c' ->
     exists c, get u (w_syncs w) = Some c /\ c_time c' = c_time c /\ length (c_items c') = length (c_items c)).

Lemma same_core_refl w : same_core w w.
Proof. unfold same_core. intuition eauto. Qed.
Lemma same_core_trans a b c : same_core a b -> same_core b c -> same_core a c.
Proof.
  intros (H1&H2&H3&H4&H5&H6&H7) (K1&K2&K3&K4&K5&K6&K7). unfold same_core.
  do 5 (split; [congruence|]). split.
  - intros u. rewrite K6. apply H6.
  - intros u c' G. apply K7 in G. destruct G as (d & G & Et & El). apply H7 in G.
    destruct G as (d' & G & Et' & El'). exists d'. repeat split; congruence.
Qed.

Lemma squash_same sq u w w' ok :
  WInv w -> physical_squashing sq u w = (w', ok) -> same_core w w' /\ WInv w'.
Proof.
  intros HI E. unfold physical_squashing in E.
  destruct (get u (w_syncs w)) as [c|] eqn:Eg; [|injection E as <- <-; split; [apply same_core_refl|exact HI]].
  destruct (squash_items sq 0 (c_items c) (w_size w) (c_size c) (c_rows c)) as [[[[its s1] s2] s3] ok'] eqn:ES.
  injection E as <- <-.
  pose proof (I_coll _ HI _ _ Eg) as (Hs & Hr & Hne & Htx).
  pose proof (total_get _ _ _ Eg) as Htot. rewrite <- (I_size _ HI) in Htot.
  pose proof (squash_items_spec _ _ _ _ _ _ _ _ _ _ _ ES) as HS.
  destruct HS as (E1 & _ & E2 & E3 & E4); [lia|lia|lia|].
  set (c' := {| c_size := s2; c_rows := s3; c_time := c_time c; c_items := its |}) in *.
  assert (Hlen : length its = length (c_items c)).
  { rewrite <- (map_length shape its), E1, map_length. reflexivity. }
  assert (SC : same_core w {| w_txs := w_txs w; w_syncs := upd u (fun _ => c') (w_syncs w); w_size := s1;
                              w_mem := w_mem w; w_dur := w_dur w; w_next := w_next w |}).
  { unfold same_core. cbn. repeat split.
    - apply map_fst_upd.
    - intros v. unfold sh, items_of. cbn [w_syncs]. destruct (Nat.eq_dec u v) as [<-|HN].
      + rewrite get_upd_same, Eg. cbn. exact E1.
      + now rewrite get_upd_other.
    - intros v d Gd. destruct (Nat.eq_dec u v) as [<-|HN].
      + rewrite get_upd_same, Eg in Gd. cbn in Gd. injection Gd as <-. exists c. cbn. auto.
      + rewrite get_upd_other in Gd by auto. exists d. auto. }
  split; [exact SC|].
  destruct SC as (_ & _ & _ & _ & Hf & Hsh & _).
  constructor; cbn [w_size w_txs w_syncs w_next].
  - pose proof (total_upd _ _ c' _ Eg) as HT. rewrite (I_size _ HI) in E2. cbn [c_size c'] in HT. lia.
  - rewrite map_fst_upd. apply HI.
  - intros v d Gd. destruct (Nat.eq_dec u v) as [<-|HN].
    + rewrite get_upd_same, Eg in Gd. cbn in Gd. injection Gd as <-. unfold coll_ok. cbn.
      repeat split; try lia.
      * destruct its; [|discriminate]. destruct (c_items c); [contradiction|discriminate].
      * rewrite Forall_forall in *. intros it Hit.
        assert (In (shape it) (map shape (c_items c))) as Hin by (rewrite <- E1; now apply in_map).
        apply in_map_iff in Hin. destruct Hin as (it0 & Es & Hin0). apply Htx in Hin0.
        unfold shape in Es. injection Es as Ea _. congruence.
    + rewrite get_upd_other in Gd by auto. exact (I_coll _ HI _ _ Gd).
  - apply (I_ids _ HI).
  - apply (I_open _ HI).
  - intros v s t Hin Ht. rewrite Hsh in Hin. exact (I_loc1 _ HI _ _ _ Hin Ht).
  - intros t x v Gt Hl. rewrite Hsh. exact (I_loc2 _ HI _ _ _ Gt Hl).
Qed.

(* ---------- flush_ready ---------- *)
Lemma max_by_size_In l u c : max_by_size l = Some (u, c) -> In (u, c) l.
Proof.
  revert u c. induction l as [|x l IH]; intros u c; [discriminate|]. cbn.
  destruct (max_by_size l) as [[v d]|].
  - destruct (c_size (snd x) <=? c_size (snd (v, d))); intros E; inversion E; subst; auto.
  - intros E; inversion E; subst; auto.
Qed.
Lemma max_by_size_None l : max_by_size l = None -> l = [].
Proof. destruct l as [|x l]; [reflexivity|]. cbn. destruct (max_by_size l); [destruct (_ <=? _)|]; discriminate. Qed.

Lemma flush_ready_same cf now sq w w' r :
  WInv w -> flush_ready cf now sq w = (w', r) ->
  same_core w w' /\ WInv w' /\
  (forall u, r = Some (Some u) -> exists c, get u (w_syncs w') = Some c).
Proof.
  intros HI E.
  assert (Third : forall w0 w1 r0, WInv w0 -> (w0, Some (find_many cf (w_syncs w0))) = (w1, r0) ->
            same_core w0 w1 /\ WInv w1 /\ (forall u, r0 = Some (Some u) -> exists c, get u (w_syncs w1) = Some c)).
  { intros w0 w1 r0 H0 [= <- <-]. split; [apply same_core_refl|split; [auto|]].
    intros u [= Ef]. unfold find_many in Ef.
    destruct (find _ (w_syncs w0)) as [[v c]|] eqn:Efd; [|discriminate]. cbn in Ef. injection Ef as <-.
    apply find_some in Efd. exists c. apply In_get; [apply H0|tauto]. }
  unfold flush_ready in E.
  assert (Second : forall w1 r0,
     (if cf_bytes cf <=? w_size w then
        match max_by_size (w_syncs w) with
        | Some (u, _) =>
          let '(w', ok) := physical_squashing sq u w in
          if negb ok then (w', None)
          else if cf_bytes cf <=? w_size w' then (w', Some (Some u))
          else (w', Some (find_many cf (w_syncs w')))
        | None => (w, Some (find_many cf (w_syncs w)))
        end
      else (w, Some (find_many cf (w_syncs w)))) = (w1, r0) ->
     same_core w w1 /\ WInv w1 /\ (forall u, r0 = Some (Some u) -> exists c, get u (w_syncs w1) = Some c)).
  { intros w1 r0 E2. destruct (cf_bytes cf <=? w_size w); [|now apply Third].
    destruct (max_by_size (w_syncs w)) as [[u c]|] eqn:Em; [|now apply Third].
    destruct (physical_squashing sq u w) as [wq ok] eqn:Eq.
    destruct (squash_same _ _ _ _ _ HI Eq) as (SC & HI').
    destruct ok; cbn [negb] in E2.
    - destruct (cf_bytes cf <=? w_size wq).
      + injection E2 as <- <-. split; [exact SC|split; [auto|]]. intros v [= <-].
        apply max_by_size_In in Em.
        destruct SC as (_ & _ & _ & _ & Hf & _).
        assert (HI3 : In u (map fst (w_syncs wq))) by (rewrite Hf; now apply (in_map fst) in Em).
        destruct (get u (w_syncs wq)) as [d|] eqn:Ed; [eauto|]. apply get_None in Ed. contradiction.
      + apply Third in E2; auto. destruct E2 as (S2 & I2 & R2). split; [eapply same_core_trans; eauto|auto].
    - injection E2 as <- <-. split; [auto|split; [auto|discriminate]]. }
  destruct (w_syncs w) as [|[u c] rest] eqn:Ew.
  - apply Second. rewrite <- E. reflexivity.
  - destruct (cf_lag cf <=? lag_of now (c_time c)).
    + injection E as <- <-. split; [apply same_core_refl|]. split; [auto|].
      intros v [= <-]. exists c. rewrite Ew. cbn. now rewrite Nat.eqb_refl.
    + apply Second. rewrite <- E. reflexivity.
Qed.

(* ---------- transactions ---------- *)
Definition lo_of (w : writer) : txid := match w_txs w with (t, _) :: _ => t | [] => w_next w end.

Lemma advance_spec txs : forall dur txs' dur', advance txs dur = (txs', dur') ->
  exists pre, txs = pre ++ txs' /\
    Forall (fun p => t_seq (snd p) <> None /\ t_locs (snd p) = []) pre /\
    match txs' with [] => True | (_, x) :: _ => t_seq x = None \/ t_locs x <> [] end.
Proof.
  induction txs as [|[t [o [s|] [|l ls]]] rest IH]; intros dur txs' dur' E; cbn in E.
  - injection E as <- <-. exists []. auto.
  - apply IH in E. destruct E as (pre & -> & HF & HM).
    exists ((t, {| t_origin := o; t_seq := Some s; t_locs := [] |}) :: pre). repeat split; auto.
    constructor; [cbn; split; [discriminate|reflexivity]|auto].
  - injection E as <- <-. exists []. repeat split; auto. right; discriminate.
  - injection E as <- <-. exists []. repeat split; auto.
  - injection E as <- <-. exists []. repeat split; auto.
Qed.

Definition strip (u : url) (x : transaction) : transaction :=
  {| t_origin := t_origin x; t_seq := t_seq x; t_locs := set_rem u (t_locs x) |}.

Lemma rtl_fst u ids : forall txs, map fst (remove_tx_locations u ids txs) = map fst txs.
Proof.
  induction ids as [|t ids IH]; intros txs; [reflexivity|].
  unfold remove_tx_locations in *. cbn [fold_left]. rewrite IH. apply map_fst_upd.
Qed.

Lemma strip_idem u x : t_locs (strip u (strip u x)) = t_locs (strip u x).
Proof.
  cbn. unfold set_rem. induction (t_locs x) as [|v l IH]; [reflexivity|]. cbn.
  destruct (Nat.eqb u v) eqn:E; cbn; [auto|]. rewrite E. cbn. now f_equal.
Qed.
Lemma strip_strip u x : strip u (strip u x) = strip u x.
Proof. pose proof (strip_idem u x) as E. destruct x as [o q l]. cbn in *. unfold strip. cbn. now rewrite E. Qed.

Lemma rtl_get u ids : forall txs t, get t (remove_tx_locations u ids txs) =
  option_map (fun x => if existsb (Nat.eqb t) ids then strip u x else x) (get t txs).
Proof.
  induction ids as [|j ids IH]; intros txs t.
  - cbn. destruct (get t txs); reflexivity.
  - unfold remove_tx_locations in *. cbn [fold_left existsb]. rewrite IH. fold (strip u).
    destruct (Nat.eqb_spec t j) as [->|HN].
    + change (fun x => {| t_origin := t_origin x; t_seq := t_seq x; t_locs := set_rem u (t_locs x) |}) with (strip u).
      rewrite get_upd_same. destruct (get j txs) as [x|]; [|reflexivity]. cbn.
      destruct (existsb (Nat.eqb j) ids); [|reflexivity]. now rewrite strip_strip.
    + rewrite get_upd_other by auto. reflexivity.
Qed.

Lemma existsb_In t ids : existsb (Nat.eqb t) ids = true <-> In t ids.
Proof.
  rewrite existsb_exists. split.
  - intros (x & HI & E). apply Nat.eqb_eq in E. now subst.
  - intros HI. exists t. split; [auto|apply Nat.eqb_refl].
Qed.

(* positions of the queue are consecutive ids *)
Lemma ids_nodup w : WInv w -> NoDup (map fst (w_txs w)).
Proof. intros HI. destruct (I_ids _ HI) as (lo & n & E & _). rewrite E. apply seq_NoDup. Qed.

Lemma lo_of_spec w lo n : map fst (w_txs w) = seq lo n -> (lo + n)%nat = w_next w -> lo_of w = lo.
Proof.
  unfold lo_of. destruct (w_txs w) as [|[t x] l]; destruct n; cbn; intros E HN; try discriminate; [lia|].
  now injection E.
Qed.

Lemma skip_seq {A} (pre l : list (nat * A)) lo n : map fst (pre ++ l) = seq lo n ->
  map fst l = seq (lo + length pre) (n - length pre) /\ (length pre <= n)%nat.
Proof.
  revert lo n. induction pre as [|[t x] pre IH]; intros lo n E.
  - cbn in *. rewrite E. split; [f_equal; lia|lia].
  - destruct n; cbn in E; [discriminate|]. injection E as -> E. apply IH in E. destruct E as [E1 E2].
    cbn [length]. split; [rewrite E1; f_equal; lia|lia].
Qed.

(* the state after a successful flush of [u] *)
Definition after_flush (u : url) (its : list item) (w : writer) : writer :=
  advance_durable (remove_sync u
    {| w_txs := remove_tx_locations u (flat_map i_txs its) (w_txs w); w_syncs := w_syncs w;
       w_size := w_size w; w_mem := w_mem w; w_dur := w_dur w; w_next := w_next w |}).

Lemma after_flush_inv u c w : WInv w -> get u (w_syncs w) = Some c ->
  WInv (after_flush u (c_items c) w) /\
  (forall v, sh (after_flush u (c_items c) w) v = if Nat.eqb u v then [] else sh w v) /\
  w_syncs (after_flush u (c_items c) w) = del u (w_syncs w).
Proof.
  intros HI Eg. unfold after_flush, advance_durable, remove_sync. cbn [w_syncs]. rewrite Eg. cbn [w_txs w_dur].
  set (txs1 := remove_tx_locations u (flat_map i_txs (c_items c)) (w_txs w)).
  destruct (advance txs1 (w_dur w)) as [txs' dur'] eqn:EA. cbn [w_size w_mem w_next w_syncs].
  apply advance_spec in EA. destruct EA as (pre & Epre & HF & HM).
  assert (Hsh : forall v, sh {| w_txs := txs'; w_syncs := del u (w_syncs w); w_size := w_size w - c_size c;
                  w_mem := w_mem w; w_dur := dur'; w_next := w_next w |} v = if Nat.eqb u v then [] else sh w v).
  { intros v. unfold sh, items_of. cbn [w_syncs]. destruct (Nat.eqb_spec u v) as [<-|HN].
    - now rewrite get_del_same.
    - now rewrite get_del_other. }
  assert (Hu : forall t x, get t txs1 = Some x -> ~ In u (t_locs x)).
  { intros t x G. unfold txs1 in G. rewrite rtl_get in G. destruct (get t (w_txs w)) as [y|] eqn:Gy; [|discriminate].
    cbn in G. injection G as <-. destruct (existsb (Nat.eqb t) (flat_map i_txs (c_items c))) eqn:Ex.
    - cbn. rewrite In_set_rem. tauto.
    - intros HIn. destruct (I_loc2 _ HI _ _ _ Gy HIn) as (s & Hs & Ht).
      assert (existsb (Nat.eqb t) (flat_map i_txs (c_items c)) = true); [|congruence].
      apply existsb_In. unfold sh, items_of in Hs. rewrite Eg in Hs. apply in_map_iff in Hs.
      destruct Hs as (it & <- & Hit). apply in_flat_map. exists it. auto. }
  assert (Hfst : map fst txs1 = map fst (w_txs w)) by apply rtl_fst.
  destruct (I_ids _ HI) as (lo & n & Eids & Enext).
  assert (Hnd : NoDup (map fst txs1)) by (rewrite Hfst, Eids; apply seq_NoDup).
  split; [|split; [exact Hsh|reflexivity]].
  constructor; cbn [w_size w_syncs w_txs w_next].
  - pose proof (total_del _ _ _ (I_nodup _ HI) Eg). rewrite (I_size _ HI). lia.
  - apply NoDup_del, HI.
  - intros v d Gd. destruct (Nat.eq_dec u v) as [<-|HN]; [rewrite get_del_same in Gd; discriminate|].
    rewrite get_del_other in Gd by auto. exact (I_coll _ HI _ _ Gd).
  - rewrite Epre in Hfst. rewrite Eids in Hfst. apply skip_seq in Hfst. destruct Hfst as [E1 E2].
    eexists _, _. split; [exact E1|lia].
  - intros pre1 t x y post E Hn.
    (* same position in the original queue *)
    assert (Hlen : exists pre2 x2 y2 post2, w_txs w = pre2 ++ (t, x2) :: y2 :: post2 /\ get t (w_txs w) = Some x2).
    { assert (HE : map fst (w_txs w) = map fst (pre ++ pre1) ++ t :: fst y :: map fst post).
      { rewrite <- Hfst, Epre, E. rewrite !map_app. cbn. now rewrite app_assoc. }
      apply map_eq_app in HE. destruct HE as (l1 & l2 & Ew & E1 & E2).
      destruct l2 as [|[t2 x2] [|y2 l2]]; try discriminate. cbn in E2. injection E2 as -> _ _.
      exists l1, x2, y2, l2. split; [exact Ew|]. apply In_get; [apply ids_nodup; auto|].
      rewrite Ew. apply in_or_app. right. now left. }
    destruct Hlen as (pre2 & x2 & y2 & post2 & Ew & Gt).
    apply (I_open _ HI _ _ _ _ _ Ew).
    assert (G1 : get t txs1 = Some x).
    { apply In_get; auto. rewrite Epre, E. apply in_or_app; right. apply in_or_app; right. now left. }
    unfold txs1 in G1. rewrite rtl_get, Gt in G1. cbn in G1. injection G1 as <-.
    destruct (existsb _ _) in Hn; exact Hn.
  - intros v s t Hin Ht. rewrite Hsh in Hin. destruct (Nat.eqb_spec u v) as [<-|HN]; [destruct Hin|].
    destruct (I_loc1 _ HI _ _ _ Hin Ht) as (x & Gx & Hl).
    assert (G1 : exists x1, get t txs1 = Some x1 /\ In v (t_locs x1)).
    { unfold txs1. rewrite rtl_get, Gx. cbn. eexists. split; [reflexivity|].
      destruct (existsb _ _); [|auto]. cbn. apply In_set_rem. auto. }
    destruct G1 as (x1 & G1 & Hl1). exists x1. split; [|auto].
    rewrite Epre, get_app in G1. destruct (get t pre) as [z|] eqn:Gz; [|auto].
    injection G1 as ->. apply get_In in Gz. rewrite Forall_forall in HF. apply HF in Gz. cbn in Gz.
    destruct Gz as [_ Gz]. rewrite Gz in Hl1. destruct Hl1.
  - intros t x v Gt Hl.
    assert (G1 : get t txs1 = Some x).
    { apply In_get; auto. rewrite Epre. apply in_or_app; right. now apply get_In. }
    rewrite Hsh. destruct (Nat.eqb_spec u v) as [<-|HN]; [exfalso; eapply Hu; eauto|].
    unfold txs1 in G1. rewrite rtl_get in G1. destruct (get t (w_txs w)) as [y|] eqn:Gy; [|discriminate].
    cbn in G1. injection G1 as <-. apply (I_loc2 _ HI t y v Gy).
    destruct (existsb _ _) in Hl; [|auto]. cbn in Hl. apply In_set_rem in Hl. tauto.
Qed.

(* ---------- enqueue ---------- *)
Definition cont_tx (m : msg) (x : transaction) : transaction :=
  {| t_origin := t_origin x;
     t_seq := match m_seq m with Some _ => m_seq m | None => t_seq x end;
     t_locs := if m_rows m =? 0 then t_locs x else set_add (m_url m) (t_locs x) |}.
Definition new_tx (m : msg) : transaction :=
  {| t_origin := m_origin m; t_seq := m_seq m; t_locs := [m_url m] |}.

Lemma upsert_spec w m t txs next : upsert_tx w m = Some (t, txs, next) ->
  (t = w_next w /\ txs = w_txs w ++ [(t, new_tx m)] /\ next = S (w_next w) /\
   (m_rows m = 0 -> m_seq m = None) /\
   (forall pre j x, w_txs w = pre ++ [(j, x)] -> t_seq x <> None)) \/
  (exists pre x, w_txs w = pre ++ [(t, x)] /\ t_seq x = None /\ m_origin m = t_origin x /\
                 txs = pre ++ [(t, cont_tx m x)] /\ next = w_next w).
Proof.
  unfold upsert_tx.
  assert (Fresh : (if (m_rows m =? 0) && match m_seq m with Some _ => true | None => false end
                   then None
                   else Some (w_next w, w_txs w ++ [(w_next w, new_tx m)], S (w_next w))) = Some (t, txs, next) ->
            (forall pre j x, w_txs w = pre ++ [(j, x)] -> t_seq x <> None) ->
            t = w_next w /\ txs = w_txs w ++ [(t, new_tx m)] /\ next = S (w_next w) /\
            (m_rows m = 0 -> m_seq m = None) /\
            (forall pre j x, w_txs w = pre ++ [(j, x)] -> t_seq x <> None)).
  { intros E HL. destruct (N.eqb_spec (m_rows m) 0) as [E0|E0]; destruct (m_seq m) as [q|]; cbn in E;
      try discriminate; injection E as <- <- <-; repeat split; auto; intros; congruence. }
  destruct (last_opt (w_txs w)) as [[j x]|] eqn:EL.
  - apply last_opt_Some in EL. destruct EL as [pre EL].
    destruct (t_seq x) as [q|] eqn:Ex.
    + intros E. left. apply Fresh; [exact E|]. intros pre' j' x' E'. rewrite EL in E'.
      apply app_inj_tail in E'. destruct E' as [_ E']. injection E' as _ <-. congruence.
    + destruct (Nat.eqb_spec (m_origin m) (t_origin x)) as [Eo|]; cbn; [|discriminate].
      intros E. right. injection E as <- <- <-. exists pre, x. rewrite EL, upd_last_snoc.
      repeat split; auto. unfold cont_tx. now rewrite Ex.
  - apply last_opt_None in EL. intros E. left. apply Fresh; [exact E|].
    intros pre' j' x' E'. rewrite EL in E'. destruct pre'; discriminate.
Qed.

Definition add_shape (l : list (list txid * list prov)) (t : txid) (np : list prov)
  (l' : list (list txid * list prov)) : Prop :=
  l' = l ++ [([t], np)] \/
  exists pre a b, l = pre ++ [(a, b)] /\ l' = pre ++ [(a ++ [t], b ++ np)].

Lemma coll_append_spec cf t sc bs c : coll_ok c ->
  exists c', coll_append cf t sc bs c = Some c' /\ coll_ok c' /\ c_time c' = c_time c /\
    c_size c' = c_size c + sum_size bs /\
    add_shape (map shape (c_items c)) t (flat_map b_prov bs) (map shape (c_items c')).
Proof.
  intros (Hs & Hr & Hne & Htx). unfold coll_append.
  destruct (last_opt (c_items c)) as [prev|] eqn:EL; [|apply last_opt_None in EL; contradiction].
  apply last_opt_Some in EL. destruct EL as [pre EL].
  eexists. split; [reflexivity|]. cbn [c_time c_size c_items].
  destruct (_ && _).
  - rewrite EL, upd_last_snoc. rewrite EL in Hs, Hr, Htx.
    rewrite items_size_app, items_size_cons in Hs. rewrite items_rows_app, items_rows_cons in Hr.
    repeat split; cbn.
    + rewrite items_size_app, items_size_cons. cbn [i_data]. rewrite sum_size_app. unfold items_size in *. lia.
    + rewrite items_rows_app, items_rows_cons. cbn [i_data]. rewrite sum_rows_app. unfold items_rows in *. lia.
    + destruct pre; discriminate.
    + apply Forall_app in Htx. apply Forall_app. split; [tauto|]. constructor; [|constructor].
      cbn. destruct (i_txs prev); discriminate.
    + right. exists (map shape pre), (i_txs prev), (flat_map b_prov (i_data prev)).
      rewrite !map_app. cbn. split; [reflexivity|]. unfold shape at 2. cbn. now rewrite flat_map_app'.
  - repeat split; cbn.
    + rewrite items_size_app, items_size_cons. cbn [i_data]. rewrite items_size_nil. lia.
    + rewrite items_rows_app, items_rows_cons. cbn [i_data]. rewrite items_rows_nil. lia.
    + destruct (c_items c); discriminate.
    + apply Forall_app. split; [auto|]. constructor; [cbn; discriminate|constructor].
    + left. rewrite map_app. reflexivity.
Qed.

Lemma add_shape_In l t np l' s' : add_shape l t np l' -> In s' l' ->
  In s' l \/ s' = ([t], np) \/ (exists a b, In (a, b) l /\ s' = (a ++ [t], b ++ np)).
Proof.
  intros [->|(pre & a & b & -> & ->)] HI; apply in_app_or in HI; destruct HI as [HI|[<-|[]]]; auto.
  - left. apply in_or_app; auto.
  - right. right. exists a, b. split; [apply in_or_app; right; now left|reflexivity].
Qed.
Lemma add_shape_keep l t np l' s : add_shape l t np l' -> In s l ->
  exists s', In s' l' /\ incl (fst s) (fst s') /\ incl (snd s) (snd s').
Proof.
  intros [->|(pre & a & b & -> & ->)] HI.
  - exists s. split; [apply in_or_app; auto|split; apply incl_refl].
  - apply in_app_or in HI. destruct HI as [HI|[<-|[]]].
    + exists s. split; [apply in_or_app; auto|split; apply incl_refl].
    + exists (a ++ [t], b ++ np). split; [apply in_or_app; right; now left|].
      cbn. split; apply incl_appl, incl_refl.
Qed.
Lemma add_shape_new l t np l' : add_shape l t np l' -> exists s', In s' l' /\ In t (fst s') /\ incl np (snd s').
Proof.
  intros [->|(pre & a & b & -> & ->)].
  - exists ([t], np). split; [apply in_or_app; right; now left|]. cbn. split; [auto|apply incl_refl].
  - exists (a ++ [t], b ++ np). split; [apply in_or_app; right; now left|]. cbn.
    split; [apply in_or_app; right; now left|apply incl_appr, incl_refl].
Qed.
Lemma add_shape_snd l t np l' : add_shape l t np l' -> flat_map snd l' = flat_map snd l ++ np.
Proof.
  intros [->|(pre & a & b & -> & ->)]; rewrite !flat_map_app'; cbn; rewrite ?app_nil_r; [reflexivity|].
  now rewrite app_assoc.
Qed.

Lemma enqueue_err cf now id m w w' : enqueue_sync cf now id m w = (w', SErr) -> w' = w /\ upsert_tx w m = None.
Proof.
  unfold enqueue_sync. destruct (upsert_tx w m) as [[[t txs] next]|]; [|intros [= <-]; auto].
  destruct (m_rows m =? 0); [discriminate|]. destruct (get _ _); [|discriminate].
  destruct (coll_append _ _ _ _ _); discriminate.
Qed.

Record enq_ok (id : nat) (now : N) (m : msg) (w w' : writer) (t : txid) : Prop := {
  q_ups : exists txs next, upsert_tx w m = Some (t, txs, next) /\ w_txs w' = txs /\ w_next w' = next;
  q_mem : w_mem w' = match m_seq m with Some s => put (m_origin m) s (w_mem w) | None => w_mem w end;
  q_dur : w_dur w' = w_dur w;
  q_sh0 : m_rows m = 0 -> forall u, sh w' u = sh w u;
  q_sh1 : forall u, u <> m_url m -> sh w' u = sh w u;
  q_sh2 : m_rows m <> 0 -> add_shape (sh w (m_url m)) t (flat_map b_prov (tag id 0 (m_batches m))) (sh w' (m_url m));
  q_fst : map fst (w_syncs w') = map fst (w_syncs w) \/
          map fst (w_syncs w') = map fst (w_syncs w) ++ [m_url m] /\ get (m_url m) (w_syncs w) = None;
  q_time : forall u c', get u (w_syncs w') = Some c' ->
           (exists c, get u (w_syncs w) = Some c /\ c_time c' = c_time c) \/
           (get u (w_syncs w) = None /\ u = m_url m /\ c_time c' = now);
  q_times : map (fun p => c_time (snd p)) (w_syncs w') = map (fun p => c_time (snd p)) (w_syncs w) \/
            map (fun p => c_time (snd p)) (w_syncs w') = map (fun p => c_time (snd p)) (w_syncs w) ++ [now]
}.

Lemma map_time_upd u c c' l : get u l = Some c -> c_time c' = c_time c ->
  map (fun p => c_time (snd p)) (upd u (fun _ => c') l) = map (fun p : nat * coll => c_time (snd p)) l.
Proof.
  induction l as [|[j x] l IH]; [discriminate|]. cbn. destruct (Nat.eqb u j); cbn.
  - intros [= ->] E. now rewrite E.
  - intros G E. now rewrite IH.
Qed.

Lemma txs_get_snoc (w : writer) (l : list (txid * transaction)) t x :
  NoDup (map fst (l ++ [(t, x)])) -> get t (l ++ [(t, x)]) = Some x.
Proof. intros HN. apply In_get; auto. apply in_or_app; right; now left. Qed.

Lemma enqueue_inv cf now id m w w' st :
  WInv w -> (m_rows m = 0 -> m_seq m <> None) ->
  enqueue_sync cf now id m w = (w', st) ->
  (st = SErr /\ w' = w /\ upsert_tx w m = None) \/
  (st = SOk /\ WInv w' /\ exists t, enq_ok id now m w w' t).
Proof.
  intros HI Hprobe E.
  destruct st; [right|left|exfalso].
  2:{ apply enqueue_err in E. tauto. }
  2:{ unfold enqueue_sync in E. destruct (upsert_tx w m) as [[[t txs] next]|]; [|discriminate].
      destruct (m_rows m =? 0); [discriminate|].
      destruct (get (m_url m) (w_syncs w)) as [c|] eqn:Eg; [|discriminate].
      destruct (coll_append_spec cf t (m_schema m) (tag id 0 (m_batches m)) c (I_coll _ HI _ _ Eg)) as (c' & Ec & _).
      rewrite Ec in E. discriminate. }
  split; [reflexivity|].
  unfold enqueue_sync in E. destruct (upsert_tx w m) as [[[t txs] next]|] eqn:EU; [|discriminate].
  assert (EQ : exists t, enq_ok id now m w w' t).
  { exists t. destruct (N.eqb_spec (m_rows m) 0) as [E0|E0].
    - injection E as <-. constructor; cbn; eauto; try (intros; congruence).
    - destruct (get (m_url m) (w_syncs w)) as [c|] eqn:Eg.
      + destruct (coll_append_spec cf t (m_schema m) (tag id 0 (m_batches m)) c (I_coll _ HI _ _ Eg))
          as (c' & Ec & Hok & Htm & Hsz & Hsh).
        rewrite Ec in E. injection E as <-. constructor; cbn; eauto; try (intros; congruence).
        * intros u HN. unfold sh, items_of. cbn [w_syncs]. rewrite get_upd_other by congruence. reflexivity.
        * intros _. unfold sh, items_of. cbn [w_syncs]. rewrite get_upd_same, Eg. cbn. exact Hsh.
        * left. apply map_fst_upd.
        * intros u d Gd. destruct (Nat.eq_dec (m_url m) u) as [<-|HN].
          -- rewrite get_upd_same, Eg in Gd. cbn in Gd. injection Gd as <-. left. eauto.
          -- rewrite get_upd_other in Gd by auto. left. eauto.
        * left. eapply map_time_upd; eauto.
      + injection E as <-. constructor; cbn; eauto; try (intros; congruence).
        * intros u HN. unfold sh, items_of. cbn [w_syncs]. rewrite get_app. cbn.
          destruct (Nat.eqb_spec u (m_url m)); [congruence|]. destruct (get u (w_syncs w)); reflexivity.
        * intros _. unfold sh, items_of. cbn [w_syncs]. rewrite get_app, Eg. cbn. rewrite Nat.eqb_refl.
          left. reflexivity.
        * right. rewrite map_app. auto.
        * intros u d Gd. rewrite get_app in Gd. destruct (get u (w_syncs w)) as [d'|] eqn:Gd'.
          -- injection Gd as ->. left; eauto.
          -- cbn in Gd. destruct (Nat.eqb_spec u (m_url m)) as [->|]; [|discriminate]. injection Gd as <-.
             right. auto.
        * right. rewrite map_app. reflexivity. }
  split; [|exact EQ].
  destruct EQ as [t0 [(txs0 & next0 & EU0 & Etx & Enx) _ _ Hsh0 Hsh1 Hsh2 Hfst _ _]].
  rewrite EU0 in EU. injection EU as -> -> ->. rename EU0 into EU.
  apply upsert_spec in EU.
  destruct (I_ids _ HI) as (lo & n & Eids & Enext).
  (* transaction lookups after the update *)
  assert (Hids : exists lo' n', map fst txs = seq lo' n' /\ (lo' + n')%nat = next).
  { destruct EU as [(-> & -> & -> & _ & _)|(pre & x & Ew & Ex & Eo & -> & ->)].
    - exists lo, (S n). rewrite map_app, Eids, seq_S. cbn. rewrite Enext. split; [reflexivity|lia].
    - exists lo, n. split; [|auto]. rewrite <- Eids, Ew, !map_app. reflexivity. }
  assert (Hnd : NoDup (map fst txs)).
  { destruct Hids as (? & ? & -> & _). apply seq_NoDup. }
  assert (Hget : forall j y, get j txs = Some y ->
             (j <> t /\ get j (w_txs w) = Some y) \/
             (j = t /\ y = new_tx m /\ get t (w_txs w) = None) \/
             (j = t /\ exists x, get t (w_txs w) = Some x /\ y = cont_tx m x)).
  { intros j y G. destruct EU as [(Et & -> & Hn & _ & _)|(pre & x & Ew & Ex & Eo & -> & _)].
    - rewrite get_app in G. destruct (get j (w_txs w)) as [z|] eqn:Gz.
      + injection G as ->. left. split; [|auto]. intros ->. apply get_In in Gz.
        assert (HX : In t (map fst (w_txs w))) by (apply (in_map fst) in Gz; exact Gz).
        rewrite Eids in HX. apply in_seq in HX. lia.
      + cbn in G. destruct (Nat.eqb_spec j t) as [->|]; [|discriminate]. injection G as <-. right; left; auto.
    - destruct (Nat.eq_dec j t) as [->|HN].
      + rewrite txs_get_snoc in G by auto. injection G as <-. right; right. split; [auto|].
        exists x. split; [|auto]. rewrite Ew. apply txs_get_snoc; [auto|]. rewrite <- Ew. now apply ids_nodup.
      + left. split; [auto|]. rewrite get_app in G. rewrite Ew, get_app. cbn in *.
        destruct (Nat.eqb_spec j t); [congruence|]. exact G. }
  assert (Hget2 : forall j x, get j (w_txs w) = Some x -> exists y, get j txs = Some y /\ incl (t_locs x) (t_locs y)).
  { intros j x G. destruct EU as [(Et & -> & _)|(pre & z & Ew & Ex & Eo & -> & _)].
    - rewrite get_app, G. exists x. split; [reflexivity|apply incl_refl].
    - destruct (Nat.eq_dec j t) as [->|HN].
      + rewrite txs_get_snoc by auto. eexists. split; [reflexivity|].
        assert (x = z) as ->.
        { rewrite Ew, txs_get_snoc in G; [congruence|auto|]. rewrite <- Ew; now apply ids_nodup. }
        cbn. destruct (m_rows m =? 0); [apply incl_refl|]. intros v Hv. apply In_set_add; auto.
      + exists x. split; [|apply incl_refl]. rewrite Ew, get_app in G. rewrite get_app. cbn in *.
        destruct (Nat.eqb_spec j t); [congruence|]. exact G. }
  assert (Htl : m_rows m <> 0 -> exists y, get t txs = Some y /\ In (m_url m) (t_locs y)).
  { intros H0. destruct EU as [(Et & -> & _)|(pre & z & Ew & Ex & Eo & -> & _)];
      rewrite txs_get_snoc by auto; eexists; (split; [reflexivity|]).
    - now left.
    - cbn. destruct (N.eqb_spec (m_rows m) 0); [contradiction|]. apply In_set_add; auto. }
  assert (Hopen : forall pre j x y post, txs = pre ++ (j, x) :: y :: post -> t_seq x <> None).
  { intros pre j x y post Eq. destruct EU as [(Et & Etxs & _ & _ & HL)|(pre' & z & Ew & Ex & Eo & Etxs & _)].
    - rewrite Etxs in Eq. destruct post as [|a post] using rev_ind.
      + change [(j, x); y] with ([(j, x)] ++ [y]) in Eq. rewrite app_assoc in Eq. apply app_inj_tail in Eq.
        destruct Eq as [Eq _]. eapply HL; eauto.
      + rewrite !app_comm_cons, app_assoc in Eq. apply app_inj_tail in Eq. destruct Eq as [Eq _].
        eapply (I_open _ HI); eauto.
    - rewrite Etxs in Eq. destruct post as [|a post] using rev_ind.
      + change [(j, x); y] with ([(j, x)] ++ [y]) in Eq. rewrite app_assoc in Eq. apply app_inj_tail in Eq.
        destruct Eq as [Eq _]. rewrite Eq in Ew. rewrite <- app_assoc in Ew. cbn in Ew.
        eapply (I_open _ HI); eauto.
      + rewrite !app_comm_cons, app_assoc in Eq. apply app_inj_tail in Eq. destruct Eq as [Eq _].
        rewrite Eq in Ew. rewrite <- app_assoc in Ew. cbn in Ew. eapply (I_open _ HI); eauto. }
  assert (Hloc1 : forall u s j, In s (sh w' u) -> In j (fst s) -> exists x, get j txs = Some x /\ In u (t_locs x)).
  { assert (Old : forall u s j, In s (sh w u) -> In j (fst s) -> exists x, get j txs = Some x /\ In u (t_locs x)).
    { intros u s j Hs Hj. destruct (I_loc1 _ HI _ _ _ Hs Hj) as (x & Gx & Hl).
      destruct (Hget2 _ _ Gx) as (y & Gy & Hinc). exists y. auto. }
    intros u s j Hs Hj. destruct (N.eq_dec (m_rows m) 0) as [E0|E0].
    - rewrite Hsh0 in Hs by auto. eauto.
    - destruct (Nat.eq_dec u (m_url m)) as [->|HN]; [|rewrite Hsh1 in Hs by auto; eauto].
      destruct (add_shape_In _ _ _ _ _ (Hsh2 E0) Hs) as [Hs'|[->|(a & b & Hab & ->)]]; [eauto| |].
      + destruct Hj as [<-|[]]. auto.
      + cbn in Hj. apply in_app_or in Hj. destruct Hj as [Hj|[<-|[]]]; [|auto].
        apply (Old _ _ _ Hab Hj). }
  assert (Hloc2 : forall j x u, get j txs = Some x -> In u (t_locs x) -> exists s, In s (sh w' u) /\ In j (fst s)).
  { assert (Old : forall u s j, In s (sh w u) -> In j (fst s) -> exists s', In s' (sh w' u) /\ In j (fst s')).
    { intros u s j Hs Hj. destruct (N.eq_dec (m_rows m) 0) as [E0|E0].
      - rewrite Hsh0 by auto. eauto.
      - destruct (Nat.eq_dec u (m_url m)) as [->|HN]; [|rewrite Hsh1 by auto; eauto].
        destruct (add_shape_keep _ _ _ _ _ (Hsh2 E0) Hs) as (s' & Hs' & Hi & _). eauto. }
    intros j x u Gj Hl. destruct (Hget _ _ Gj) as [(HN & G)|[(-> & -> & G)|(-> & z & G & ->)]].
    - destruct (I_loc2 _ HI _ _ _ G Hl) as (s & Hs & Hj). eauto.
    - cbn in Hl. destruct Hl as [<-|[]].
      destruct EU as [(_ & _ & _ & HR & _)|(pre & z & Ew & _)].
      + assert (E0 : m_rows m <> 0) by (intros E0; apply (Hprobe E0); auto).
        destruct (add_shape_new _ _ _ _ (Hsh2 E0)) as (s' & Hs' & Ht & _). eauto.
      + exfalso. rewrite Ew, txs_get_snoc in G; [discriminate|auto|]. rewrite <- Ew; now apply ids_nodup.
    - cbn in Hl. destruct (N.eqb_spec (m_rows m) 0) as [E0|E0].
      + destruct (I_loc2 _ HI _ _ _ G Hl) as (s & Hs & Hj). eauto.
      + apply In_set_add in Hl. destruct Hl as [->|Hl].
        * destruct (add_shape_new _ _ _ _ (Hsh2 E0)) as (s' & Hs' & Ht & _). eauto.
        * destruct (I_loc2 _ HI _ _ _ G Hl) as (s & Hs & Hj). eauto. }
  assert (Hcoll : w_size w' = total (w_syncs w') /\ (forall u c, get u (w_syncs w') = Some c -> coll_ok c)).
  { clear - HI E. destruct (N.eqb_spec (m_rows m) 0) as [E0|E0].
    - injection E as <-. cbn. split; [apply HI|intros u c; apply (I_coll _ HI)].
    - destruct (get (m_url m) (w_syncs w)) as [c|] eqn:Eg.
      + destruct (coll_append_spec cf t (m_schema m) (tag id 0 (m_batches m)) c (I_coll _ HI _ _ Eg))
          as (c' & Ec & Hok & Htm & Hsz & Hsh).
        rewrite Ec in E. injection E as <-. cbn. split.
        * pose proof (total_upd _ _ c' _ Eg). rewrite (I_size _ HI). lia.
        * intros u d Gd. destruct (Nat.eq_dec (m_url m) u) as [<-|HN].
          -- rewrite get_upd_same, Eg in Gd. cbn in Gd. injection Gd as <-. exact Hok.
          -- rewrite get_upd_other in Gd by auto. exact (I_coll _ HI _ _ Gd).
      + injection E as <-. cbn. split.
        * rewrite total_app, total_single. cbn. rewrite (I_size _ HI). lia.
        * intros u d Gd. rewrite get_app in Gd. destruct (get u (w_syncs w)) as [d'|] eqn:Gd'.
          -- injection Gd as ->. exact (I_coll _ HI _ _ Gd').
          -- cbn in Gd. destruct (Nat.eqb_spec u (m_url m)) as [->|]; [|discriminate]. injection Gd as <-.
             unfold coll_ok. cbn [c_items c_size c_rows]. rewrite items_size_cons, items_rows_cons, items_size_nil, items_rows_nil.
             cbn [i_data]. repeat split; [lia|lia|discriminate|].
             constructor; [cbn; discriminate|constructor]. }
  constructor.
  - apply Hcoll.
  - destruct Hfst as [->|[-> Hn]]; [apply HI|]. apply get_None in Hn.
    apply NoDup_snoc; [apply HI|exact Hn].
  - apply Hcoll.
  - rewrite Etx, Enx. exact Hids.
  - rewrite Etx. exact Hopen.
  - rewrite Etx. exact Hloc1.
  - rewrite Etx. exact Hloc2.
Qed.
