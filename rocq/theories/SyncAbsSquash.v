(* Squashing and merging on abstract changes. *)
From Coq Require Import List Arith ZArith Bool Lia.
From Verif Require Import SyncDataModel SyncDataSpec.
Import ListNotations.

Lemma keqb_spec a b : reflect (a = b) (keqb a b).
Proof. unfold keqb. destruct (list_eq_dec value_eq_dec a b); constructor; auto. Qed.
Lemma teqb_spec a b : reflect (a = b) (teqb a b).
Proof. unfold teqb. destruct (list_eq_dec value_eq_dec a b); constructor; auto. Qed.
Lemma veqb_spec a b : reflect (a = b) (veqb a b).
Proof. unfold veqb. destruct (value_eq_dec a b); constructor; auto. Qed.
Lemma okeqb_spec a k : reflect (a = Some k) (okeqb a k).
Proof.
  destruct a as [k'|]; cbn; [|constructor; discriminate].
  destruct (keqb_spec k' k); constructor; congruence.
Qed.

Definition key_dec : forall a b : list value, {a = b} + {a <> b} := list_eq_dec value_eq_dec.

(* ----- pk maps ----- *)
Lemma pk_get_del k k' m : pk_get k (pk_del k' m) = if teqb k k' then None else pk_get k m.
Proof.
  unfold pk_del. induction m as [|[a v] m IH]; cbn; [destruct (teqb k k'); auto|].
  destruct (teqb_spec k' a) as [->|N]; cbn.
  - rewrite IH. destruct (teqb k a); auto.
  - destruct (teqb_spec k a) as [->|N2].
    + destruct (teqb_spec a k'); congruence.
    + exact IH.
Qed.
Lemma pk_get_put k k' v m : pk_get k (pk_put k' v m) = if teqb k k' then Some v else pk_get k m.
Proof.
  unfold pk_put. cbn. destruct (teqb_spec k k') as [->|N]; auto.
  rewrite pk_get_del. destruct (teqb_spec k k'); congruence.
Qed.

(* ----- set_nth ----- *)
Lemma set_nth_length {A} i (x : A) l : length (set_nth i x l) = length l.
Proof. revert i; induction l; intros [|i]; cbn; auto. Qed.
Lemma nth_error_set_nth {A} i (x : A) l j :
  nth_error (set_nth i x l) j = if Nat.eqb i j then option_map (fun _ => x) (nth_error l j) else nth_error l j.
Proof.
  revert i j; induction l as [|y l IH]; intros [|i] [|j]; cbn; auto.
  destruct (Nat.eqb i j); reflexivity.
Qed.
Lemma map_set_nth {A B} (f : A -> B) i x l : map f (set_nth i x l) = set_nth i (f x) (map f l).
Proof. revert i; induction l; intros [|i]; cbn; auto. now rewrite IHl. Qed.

(* ----- assignments ----- *)
Definition comp (later earlier : list (option value)) : list (option value) :=
  map (fun p => match fst p with Some v => Some v | None => snd p end) (combine later earlier).
Lemma comp_length a b : length a = length b -> length (comp a b) = length a.
Proof. intros. unfold comp. rewrite map_length, combine_length. lia. Qed.
Lemma new_vals_length o s w :
  length s = w -> (forall vs, o = Some vs -> length vs = w) -> length (new_vals o s) = w.
Proof.
  intros Hs Ho. unfold new_vals. rewrite map_length, combine_length.
  destruct o; [rewrite (Ho _ eq_refl)|rewrite map_length]; lia.
Qed.
Lemma new_vals_comp_list a b vs :
  length a = length b -> length vs = length a ->
  map (fun p => match fst p with Some v => v | None => snd p end)
      (combine b (map (fun p : option value * value => match fst p with Some v => v | None => snd p end) (combine a vs))) =
  map (fun p => match fst p with Some v => v | None => snd p end) (combine (comp b a) vs).
Proof.
  unfold comp.
  revert b vs; induction a as [|x a IH]; intros [|y b] [|v vs] H1 H2; cbn in *; try lia; auto.
  f_equal; [destruct y, x; reflexivity|apply IH; lia].
Qed.
Lemma new_vals_comp o a b w :
  length a = w -> length b = w -> (forall vs, o = Some vs -> length vs = w) ->
  new_vals (Some (new_vals o a)) b = new_vals o (comp b a).
Proof.
  intros Ha Hb Ho. unfold new_vals at 1 2 3. destruct o as [vs|].
  - apply new_vals_comp_list; [lia|]. rewrite (Ho _ eq_refl). lia.
  - rewrite new_vals_comp_list; [|lia|rewrite map_length; lia].
    f_equal. f_equal. clear Ho. unfold comp. revert b Hb; rewrite <- Ha; clear Ha.
    induction a as [|x a IH]; intros [|y b] Hb; cbn in *; try lia; auto. f_equal. apply IH; lia.
Qed.

(* ----- tables of a given width ----- *)
Lemma wide_old w t c : wide w t -> forall vs, old_row t c = Some vs -> length vs = w.
Proof. intros H vs. unfold old_row. destruct (ch_old c); [apply H|discriminate]. Qed.
Lemma wide_apply1 w t c : wide w t -> length (ch_set c) = w -> wide w (apply1 c t).
Proof.
  intros H Hc k vs. unfold apply1. destruct (okeqb (ch_new c) k).
  - intros [= <-]. apply new_vals_length; auto. now apply wide_old.
  - destruct (okeqb (ch_old c) k); [discriminate|apply H].
Qed.

(* ----- at_once ----- *)

Lemma at_once_ext cs cs' t t' :
  (forall c, ~ void c -> In c cs <-> In c cs') -> at_once cs t t' -> at_once cs' t t'.
Proof.
  intros E H k. destruct (H k) as (A & B & C).
  assert (Hn : forall c, In c cs' -> ch_new c = Some k -> In c cs).
  { intros c Hc Hk. apply E; auto. intros [_ V]. congruence. }
  assert (Ho : forall c, In c cs' -> ch_old c = Some k -> In c cs).
  { intros c Hc Hk. apply E; auto. intros [V _]. congruence. }
  assert (Hn' : forall c, In c cs -> ch_new c = Some k -> In c cs').
  { intros c Hc Hk. apply E; auto. intros [_ V]. congruence. }
  assert (Ho' : forall c, In c cs -> ch_old c = Some k -> In c cs').
  { intros c Hc Hk. apply E; auto. intros [V _]. congruence. }
  split; [|split].
  - intros c Hc Hk. eauto.
  - intros N (c & Hc & Hk). apply B; [|eauto]. intros c' Hc' E'. now apply (N c'); auto.
  - intros N. apply C. intros c Hc. split; intros E'; [now apply (proj1 (N c (Hn' c Hc E')))|now apply (proj2 (N c (Ho' c Hc E')))].
Qed.

Lemma at_once_present cs t t' k :
  at_once cs t t' -> t' k <> None ->
  (exists c, In c cs /\ ch_new c = Some k) \/
  ((forall c, In c cs -> ch_new c <> Some k /\ ch_old c <> Some k) /\ t k <> None).
Proof.
  intros H Hk. destruct (H k) as (A & B & C).
  destruct (existsb (fun c => okeqb (ch_new c) k) cs) eqn:E.
  - apply existsb_exists in E as (c & Hc & E). destruct (okeqb_spec (ch_new c) k); [|discriminate]. eauto.
  - assert (N : forall c, In c cs -> ch_new c <> Some k).
    { intros c Hc Hn. assert (existsb (fun c => okeqb (ch_new c) k) cs = true); [|congruence].
      apply existsb_exists. exists c. split; auto. destruct (okeqb_spec (ch_new c) k); auto. }
    right. assert (N2 : forall c, In c cs -> ch_old c <> Some k).
    { intros c Hc Ho. apply Hk. apply B; eauto. }
    split; [intros; split; auto|]. rewrite <- C; auto.
Qed.
Lemma at_once_absent cs t t' k :
  at_once cs t t' -> t' k = None ->
  (forall c, In c cs -> ch_new c <> Some k) /\ ((exists c, In c cs /\ ch_old c = Some k) \/ t k = None).
Proof.
  intros H Hk. destruct (H k) as (A & B & C).
  assert (N : forall c, In c cs -> ch_new c <> Some k).
  { intros c Hc Hn. rewrite (A c Hc Hn) in Hk. discriminate. }
  split; auto.
  destruct (existsb (fun c => okeqb (ch_old c) k) cs) eqn:E.
  - apply existsb_exists in E as (c & Hc & E). destruct (okeqb_spec (ch_old c) k); [|discriminate]. eauto.
  - right. rewrite <- C; auto. intros c Hc. split; auto. intros Ho.
    assert (existsb (fun c => okeqb (ch_old c) k) cs = true); [|congruence].
    apply existsb_exists. exists c. split; auto. destruct (okeqb_spec (ch_old c) k); auto.
Qed.

(* the result is determined *)
Lemma at_once_fun cs t t1 t2 : at_once cs t t1 -> at_once cs t t2 -> forall k, t1 k = t2 k.
Proof.
  intros H1 H2 k. destruct (H1 k) as (A1 & B1 & C1). destruct (H2 k) as (A2 & B2 & C2).
  destruct (existsb (fun c => okeqb (ch_new c) k) cs) eqn:E.
  - apply existsb_exists in E as (c & Hc & E). destruct (okeqb_spec (ch_new c) k); [|discriminate].
    rewrite (A1 c), (A2 c); auto.
  - assert (N : forall c, In c cs -> ch_new c <> Some k).
    { intros c Hc Hn. assert (existsb (fun c => okeqb (ch_new c) k) cs = true); [|congruence].
      apply existsb_exists. exists c. split; auto. destruct (okeqb_spec (ch_new c) k); auto. }
    destruct (existsb (fun c => okeqb (ch_old c) k) cs) eqn:E2.
    + apply existsb_exists in E2 as (c & Hc & E2). destruct (okeqb_spec (ch_old c) k); [|discriminate].
      rewrite B1, B2; eauto.
    + assert (N2 : forall c, In c cs -> ch_new c <> Some k /\ ch_old c <> Some k).
      { intros c Hc. split; auto. intros Ho.
        assert (existsb (fun c => okeqb (ch_old c) k) cs = true); [|congruence].
        apply existsb_exists. exists c. split; auto. destruct (okeqb_spec (ch_old c) k); auto. }
      rewrite C1, C2; auto.
Qed.
Lemma at_once_nil t : at_once [] t t.
Proof. intros k. split; [|split]; cbn; try tauto. intros _ (c & [] & _). Qed.

(* a set of changes that can be applied at once to [t] *)
Record net (t : list value -> option (list value)) (cs : list change) : Prop := {
  net_one : one_per_row cs;
  net_old : forall c k, In c cs -> ch_old c = Some k -> t k <> None;
  net_new : forall c k, In c cs -> ch_new c = Some k -> t k = None \/ exists c', In c' cs /\ ch_old c' = Some k }.

(* NoDup of the keys from index uniqueness, and back *)
Lemma somes_nodup {A B} (f : A -> option B) l :
  (forall i j a b k, nth_error l i = Some a -> nth_error l j = Some b -> f a = Some k -> f b = Some k -> i = j) ->
  NoDup (somes f l).
Proof.
  induction l as [|x l IH]; cbn; [constructor|].
  intros H. destruct (f x) as [k|] eqn:E; cbn.
  - constructor.
    + intros Hin. unfold somes in Hin. apply in_flat_map in Hin as (y & Hy & Hk).
      destruct (f y) as [k'|] eqn:E'; cbn in Hk; [|tauto]. destruct Hk as [->|[]].
      apply In_nth_error in Hy as (j & Hj).
      assert (0 = S j); [|lia]. eapply (H 0 (S j)); cbn; eauto.
    + apply IH. intros i j a b k' Ha Hb Fa Fb.
      assert (S i = S j); [|lia]. eapply (H (S i) (S j)); cbn; eauto.
  - apply IH. intros i j a b k' Ha Hb Fa Fb.
    assert (S i = S j); [|lia]. eapply (H (S i) (S j)); cbn; eauto.
Qed.
Lemma in_somes {A B} (f : A -> option B) l k : In k (somes f l) <-> exists a, In a l /\ f a = Some k.
Proof.
  unfold somes. rewrite in_flat_map. split.
  - intros (x & Hx & Hk). destruct (f x) eqn:E; cbn in Hk; [|tauto]. destruct Hk as [->|[]]. eauto.
  - intros (x & Hx & E). exists x. rewrite E. cbn. auto.
Qed.
Lemma nodup_somes {A B} (f : A -> option B) l a b k :
  NoDup (somes f l) -> In a l -> In b l -> f a = Some k -> f b = Some k -> a = b.
Proof.
  induction l as [|x l IH]; cbn; [tauto|].
  intros H Ha Hb Fa Fb. destruct (f x) as [k'|] eqn:E; cbn in H.
  - inversion H as [|? ? Hn Hd]; subst. destruct Ha as [->|Ha], Hb as [->|Hb]; auto.
    + exfalso. apply Hn. rewrite Fa in E. injection E as ->. apply in_somes. eauto.
    + exfalso. apply Hn. rewrite Fb in E. injection E as ->. apply in_somes. eauto.
  - destruct Ha as [->|Ha]; [congruence|]. destruct Hb as [->|Hb]; [congruence|]. auto.
Qed.

(* ---------- abstract squashing ---------- *)
Record astate := { a_chains : list change; a_pk : list (list value * nat) }.
Definition dummy : change := {| ch_old := None; ch_new := None; ch_set := [] |}.
Definition a_hit (st : astate) (c : change) : option nat :=
  match ch_old c with Some k => pk_get k (a_pk st) | None => None end.
Definition a_put (c : change) (id : nat) (m : list (list value * nat)) : list (list value * nat) :=
  match ch_new c with Some k => pk_put k id m | None => m end.
Definition a_step (st : astate) (c : change) : astate :=
  match a_hit st c with
  | Some id =>
      let h := nth id (a_chains st) dummy in
      {| a_chains := set_nth id {| ch_old := ch_old h; ch_new := ch_new c; ch_set := comp (ch_set c) (ch_set h) |} (a_chains st);
         a_pk := a_put c id (match ch_old c with Some k => pk_del k (a_pk st) | None => a_pk st end) |}
  | None =>
      {| a_chains := a_chains st ++ [c]; a_pk := a_put c (length (a_chains st)) (a_pk st) |}
  end.

Record AInv (w : nat) (t0 t : list value -> option (list value)) (st : astate) : Prop := {
  ai_sem : at_once (a_chains st) t0 t;
  ai_wide : wide w t;
  ai_sets : forall c, In c (a_chains st) -> length (ch_set c) = w;
  ai_pk : forall k id, pk_get k (a_pk st) = Some id <-> exists c, nth_error (a_chains st) id = Some c /\ ch_new c = Some k;
  ai_old1 : forall i j a b k, nth_error (a_chains st) i = Some a -> nth_error (a_chains st) j = Some b ->
                              ch_old a = Some k -> ch_old b = Some k -> i = j;
  ai_dom : forall c k, In c (a_chains st) -> ch_old c = Some k -> t0 k <> None;
  ai_free : forall c k, In c (a_chains st) -> ch_new c = Some k ->
                        t0 k = None \/ exists c', In c' (a_chains st) /\ ch_old c' = Some k }.

Lemma AInv_init w t : wide w t -> AInv w t t {| a_chains := []; a_pk := [] |}.
Proof.
  intros Hw. split; cbn; try tauto; auto.
  - apply at_once_nil.
  - intros k id. split; [discriminate|]. intros (c & H & _). destruct id; discriminate.
  - intros i j a b k H. destruct i; discriminate.
Qed.

Lemma ai_new1 w t0 t st : AInv w t0 t st ->
  forall i j a b k, nth_error (a_chains st) i = Some a -> nth_error (a_chains st) j = Some b ->
                    ch_new a = Some k -> ch_new b = Some k -> i = j.
Proof.
  intros H i j a b k Ha Hb Na Nb.
  assert (pk_get k (a_pk st) = Some i) by (apply (ai_pk _ _ _ _ H); eauto).
  assert (pk_get k (a_pk st) = Some j) by (apply (ai_pk _ _ _ _ H); eauto). congruence.
Qed.

Lemma AInv_step w t0 t st c :
  wide w t0 -> AInv w t0 t st -> length (ch_set c) = w -> valid1 t c -> AInv w t0 (apply1 c t) (a_step st c).
Proof.
  intros Hw0 H Hc [Vo Vn]. pose proof H as [Hsem Hw Hsets Hpk Hold1 Hdom Hfree].
  pose proof (ai_new1 _ _ _ _ H) as Hnew1.
  unfold a_step. destruct (a_hit st c) as [id|] eqn:Hit.
  - (* the old key belongs to a chain *)
    unfold a_hit in Hit. destruct (ch_old c) as [k0|] eqn:Eo; [|discriminate].
    pose proof Hit as Hit'. apply Hpk in Hit as (h & Hh & Hhn).
    assert (Eh : nth id (a_chains st) dummy = h) by (apply nth_error_nth; auto). rewrite Eh. cbn zeta.
    set (h' := {| ch_old := ch_old h; ch_new := ch_new c; ch_set := comp (ch_set c) (ch_set h) |}).
    assert (Hlen : id < length (a_chains st)) by (apply nth_error_Some; congruence).
    assert (Hin : In h (a_chains st)) by (eapply nth_error_In; eauto).
    assert (Hat : forall j, nth_error (set_nth id h' (a_chains st)) j =
                            if Nat.eqb id j then Some h' else nth_error (a_chains st) j).
    { intros j. rewrite nth_error_set_nth. destruct (Nat.eqb_spec id j); auto. subst. rewrite Hh. reflexivity. }
    assert (Hin' : forall x, In x (set_nth id h' (a_chains st)) ->
              x = h' \/ exists j, j <> id /\ nth_error (a_chains st) j = Some x).
    { intros x Hx. apply In_nth_error in Hx as (j & Hj). rewrite Hat in Hj.
      destruct (Nat.eqb_spec id j); [left; congruence|right; eauto]. }
    assert (Hh'in : In h' (set_nth id h' (a_chains st))).
    { apply (nth_error_In _ id). rewrite Hat, Nat.eqb_refl. reflexivity. }
    assert (Hother : forall j x, j <> id -> nth_error (a_chains st) j = Some x -> In x (set_nth id h' (a_chains st))).
    { intros j x Hj Hx. apply (nth_error_In _ j). rewrite Hat. destruct (Nat.eqb_spec id j); congruence. }
    assert (Hk0 : t k0 = Some (new_vals (old_row t0 h) (ch_set h))) by (apply Hsem; auto).
    assert (Holds : forall k, (exists x, In x (set_nth id h' (a_chains st)) /\ ch_old x = Some k) <->
                              (exists x, In x (a_chains st) /\ ch_old x = Some k)).
    { intros k. split; intros (x & Hx & Ek).
      - apply Hin' in Hx as [->|(j & _ & Hj)]; [exists h; auto|exists x; split; auto; eapply nth_error_In; eauto].
      - apply In_nth_error in Hx as (j & Hj). destruct (Nat.eq_dec j id) as [->|Nj].
        + exists h'. split; auto. cbn. congruence.
        + exists x. split; eauto. }
    assert (Hnewk : forall n, ch_new c = Some n -> forall j x, j <> id -> nth_error (a_chains st) j = Some x -> ch_new x <> Some n).
    { intros n En j x Nj Hj E. destruct (Vn n En) as [Hn|[= <-]].
      - apply (at_once_absent _ _ _ _ Hsem) in Hn as [Hn _]. apply (Hn x); auto. eapply nth_error_In; eauto.
      - apply Nj. eapply Hnew1; eauto. }
    split; cbn [a_chains a_pk].
    + (* semantics *)
      intros k. unfold apply1. rewrite Eo. unfold old_row at 1. rewrite Eo, Hk0.
      rewrite (new_vals_comp _ _ _ w); auto; [|now apply wide_old].
      split; [|split].
      * intros x Hx En. apply Hin' in Hx as [->|(j & Nj & Hj)].
        -- cbn in En. rewrite En. cbn. destruct (keqb_spec k k); [reflexivity|congruence].
        -- destruct (okeqb_spec (ch_new c) k) as [E|_]; [exfalso; eapply Hnewk; eauto|].
           cbn. destruct (keqb_spec k0 k) as [->|_]; [exfalso; apply Nj; eapply Hnew1; eauto|].
           apply Hsem; auto. eapply nth_error_In; eauto.
      * intros N HE. assert (ch_new c <> Some k) by (apply (N h'); auto).
        destruct (okeqb_spec (ch_new c) k); [contradiction|].
        cbn. destruct (keqb_spec k0 k); [reflexivity|].
        apply Holds in HE. apply Hsem; auto.
        intros x Hx E. apply In_nth_error in Hx as (j & Hj). destruct (Nat.eq_dec j id) as [->|Nj].
        { congruence. } apply (N x); eauto.
      * intros N. assert (ch_new c <> Some k) by (apply (N h'); auto).
        destruct (okeqb_spec (ch_new c) k); [contradiction|].
        assert (NO : ~ exists x, In x (a_chains st) /\ ch_old x = Some k).
        { intros HE. apply Holds in HE as (x & Hx & E). exact (proj2 (N x Hx) E). }
        cbn. destruct (keqb_spec k0 k) as [->|Nk].
        { (* the chain's own key: it must have been free in t0 *)
          destruct (Hfree h k Hin Hhn) as [F|F]; [auto|contradiction]. }
        apply Hsem. intros x Hx. split; intros E; [|apply NO; eauto].
        apply In_nth_error in Hx as (j & Hj). destruct (Nat.eq_dec j id) as [->|Nj]; [congruence|].
        exact (proj1 (N x (Hother _ _ Nj Hj)) E).
    + now apply wide_apply1.
    + intros x Hx. apply Hin' in Hx as [->|(j & _ & Hj)]; [|apply Hsets; eapply nth_error_In; eauto].
      cbn. rewrite comp_length; auto. rewrite (Hsets h); auto.
    + intros k i. unfold a_put. destruct (ch_new c) as [n|] eqn:En.
      * rewrite pk_get_put, pk_get_del. rewrite Hat. split.
        -- destruct (teqb_spec k n) as [->|N1].
           ++ intros [= <-]. rewrite Nat.eqb_refl. exists h'. auto.
           ++ destruct (teqb_spec k k0); [discriminate|]. intros G. apply Hpk in G as (x & Hx & E).
              destruct (Nat.eqb_spec id i) as [->|]; [congruence|]. eauto.
        -- destruct (Nat.eqb_spec id i) as [->|Ni].
           ++ intros (x & [= <-] & E). cbn in E. injection E as ->. destruct (teqb_spec k k); congruence.
           ++ intros (x & Hx & E). destruct (teqb_spec k n) as [->|N1].
              { exfalso. eapply Hnewk; eauto. }
              destruct (teqb_spec k k0) as [->|]; [exfalso; apply Ni; eapply Hnew1; eauto|].
              apply Hpk. eauto.
      * rewrite pk_get_del, Hat. split.
        -- destruct (teqb_spec k k0); [discriminate|]. intros G. apply Hpk in G as (x & Hx & E).
           destruct (Nat.eqb_spec id i) as [->|]; [congruence|]. eauto.
        -- destruct (Nat.eqb_spec id i) as [->|Ni].
           ++ intros (x & [= <-] & E). cbn in E. discriminate.
           ++ intros (x & Hx & E). destruct (teqb_spec k k0) as [->|]; [exfalso; apply Ni; eapply Hnew1; eauto|].
              apply Hpk. eauto.
    + intros i j a b k Ha Hb Oa Ob. rewrite Hat in Ha, Hb.
      destruct (Nat.eqb_spec id i), (Nat.eqb_spec id j); subst; auto.
      * injection Ha as <-. cbn in Oa. eapply Hold1; eauto.
      * injection Hb as <-. cbn in Ob. eapply Hold1; eauto.
      * eapply Hold1; eauto.
    + intros x k Hx E. apply Hin' in Hx as [->|(j & _ & Hj)]; [apply (Hdom h); auto|].
      apply (Hdom x); auto. eapply nth_error_In; eauto.
    + intros x k Hx E. rewrite Holds. apply Hin' in Hx as [->|(j & _ & Hj)].
      * cbn in E. destruct (Vn k E) as [F|[= <-]].
        -- apply (at_once_absent _ _ _ _ Hsem) in F as [_ [F|F]]; auto.
        -- apply (Hfree h); auto.
      * apply (Hfree x); auto. eapply nth_error_In; eauto.
  - (* a new chain *)
    assert (Hnohit : forall k, ch_old c = Some k -> forall x, In x (a_chains st) -> ch_new x <> Some k).
    { intros k E x Hx Ex. unfold a_hit in Hit. rewrite E in Hit. apply In_nth_error in Hx as (j & Hj).
      assert (pk_get k (a_pk st) = Some j) by (apply Hpk; eauto). congruence. }
    assert (Hfresh : forall k, ch_old c = Some k ->
              (forall x, In x (a_chains st) -> ch_new x <> Some k /\ ch_old x <> Some k) /\ t0 k <> None /\ t k = t0 k).
    { intros k E. pose proof (Vo k E) as P. destruct (at_once_present _ _ _ _ Hsem P) as [(x & Hx & Ex)|[A B]].
      - exfalso. eapply Hnohit; eauto.
      - split; auto. split; auto. now apply Hsem. }
    assert (Hor : old_row t c = old_row t0 c).
    { unfold old_row. destruct (ch_old c) as [k|] eqn:E; auto. now apply Hfresh. }
    assert (Hnewk : forall n, ch_new c = Some n -> forall x, In x (a_chains st) -> ch_new x <> Some n).
    { intros n En x Hx E. destruct (Vn n En) as [F|F].
      - apply (at_once_absent _ _ _ _ Hsem) in F as [F _]. now apply (F x).
      - exact (proj1 (proj1 (Hfresh n F) x Hx) E). }
    assert (Hat : forall j x, nth_error (a_chains st ++ [c]) j = Some x ->
              (j < length (a_chains st) /\ nth_error (a_chains st) j = Some x) \/ (j = length (a_chains st) /\ x = c)).
    { intros j x Hj. destruct (Nat.lt_ge_cases j (length (a_chains st))).
      - rewrite nth_error_app1 in Hj by auto. auto.
      - rewrite nth_error_app2 in Hj by auto. destruct (j - length (a_chains st)) eqn:D; cbn in Hj.
        + right. split; [lia|congruence].
        + destruct n; discriminate. }
    split; cbn [a_chains a_pk].
    + intros k. unfold apply1. rewrite Hor. split; [|split].
      * intros x Hx En. apply in_app_or in Hx as [Hx|[<-|[]]].
        -- destruct (okeqb_spec (ch_new c) k) as [E|_]; [exfalso; eapply Hnewk; eauto|].
           destruct (okeqb_spec (ch_old c) k) as [E|_]; [exfalso; eapply Hnohit; eauto|].
           now apply Hsem.
        -- destruct (okeqb_spec (ch_new c) k); [reflexivity|congruence].
      * intros N (x & Hx & E).
        destruct (okeqb_spec (ch_new c) k) as [E'|_]; [exfalso; apply (N c); auto; apply in_or_app; cbn; auto|].
        destruct (okeqb_spec (ch_old c) k) as [E'|Nc]; [reflexivity|].
        apply Hsem; [intros y Hy; apply N; apply in_or_app; auto|].
        apply in_app_or in Hx as [Hx|[<-|[]]]; [eauto|contradiction].
      * intros N.
        destruct (okeqb_spec (ch_new c) k) as [E'|_]; [exfalso; refine (proj1 (N c _) E'); apply in_or_app; cbn; auto|].
        destruct (okeqb_spec (ch_old c) k) as [E'|Nc]; [exfalso; refine (proj2 (N c _) E'); apply in_or_app; cbn; auto|].
        apply Hsem. intros y Hy. apply N. apply in_or_app; auto.
    + now apply wide_apply1.
    + intros x Hx. apply in_app_or in Hx as [Hx|[<-|[]]]; auto.
    + intros k i. unfold a_put.
      assert (Hshift : (exists x, nth_error (a_chains st ++ [c]) i = Some x /\ ch_new x = Some k) <->
                       (i = length (a_chains st) /\ ch_new c = Some k) \/ pk_get k (a_pk st) = Some i).
      { rewrite Hpk. split.
        - intros (x & Hx & E). apply Hat in Hx as [[_ Hx]|[-> ->]]; [right; eauto|left; auto].
        - intros [[-> E]|(x & Hx & E)].
          + exists c. rewrite nth_error_app2, Nat.sub_diag by lia. auto.
          + exists x. rewrite nth_error_app1; auto. apply nth_error_Some. congruence. }
      rewrite Hshift. destruct (ch_new c) as [n|] eqn:En.
      * rewrite pk_get_put. destruct (teqb_spec k n) as [->|Nn].
        -- split; [intros [= <-]; auto|]. intros [[-> _]|G]; [reflexivity|].
           apply Hpk in G as (x & Hx & E). exfalso. eapply Hnewk; eauto. eapply nth_error_In; eauto.
        -- split; [auto|]. intros [[_ [= ->]]|G]; [contradiction|auto].
      * split; [auto|]. intros [[_ E]|G]; [discriminate|auto].
    + intros i j a b k Ha Hb Oa Ob. apply Hat in Ha as [[Li Ha]|[-> ->]], Hb as [[Lj Hb]|[-> ->]]; auto.
      * eapply Hold1; eauto.
      * exfalso. refine (proj2 (proj1 (Hfresh k Ob) a _) Oa). eapply nth_error_In; eauto.
      * exfalso. refine (proj2 (proj1 (Hfresh k Oa) b _) Ob). eapply nth_error_In; eauto.
    + intros x k Hx E. apply in_app_or in Hx as [Hx|[<-|[]]]; [eapply Hdom; eauto|]. now apply Hfresh.
    + intros x k Hx E.
      assert (W : (t0 k = None \/ exists c', In c' (a_chains st) /\ ch_old c' = Some k) ->
                  t0 k = None \/ exists c', In c' (a_chains st ++ [c]) /\ ch_old c' = Some k).
      { intros [F|(y & Hy & F)]; auto. right. exists y. split; auto. apply in_or_app; auto. }
      apply in_app_or in Hx as [Hx|[<-|[]]].
      * apply W. eapply Hfree; eauto.
      * destruct (Vn k E) as [F|F].
        -- apply W. apply (at_once_absent _ _ _ _ Hsem) in F as [_ [F|F]]; auto.
        -- right. exists c. split; auto. apply in_or_app; cbn; auto.
Qed.

Lemma AInv_run w t0 cs : forall t st,
  wide w t0 -> AInv w t0 t st -> (forall c, In c cs -> length (ch_set c) = w) -> valid_stream t cs ->
  AInv w t0 (apply_all cs t) (fold_left a_step cs st).
Proof.
  induction cs as [|c cs IH]; intros t st Hw H Hc V; cbn; auto.
  destruct V as [V1 V2]. apply IH; auto.
  - apply AInv_step; auto. apply Hc; cbn; auto.
  - intros; apply Hc; cbn; auto.
Qed.

Lemma AInv_net w t0 t st : AInv w t0 t st -> net t0 (a_chains st).
Proof.
  intros H. split.
  - split; apply somes_nodup; [apply (ai_old1 _ _ _ _ H)|apply (ai_new1 _ _ _ _ H)].
  - apply (ai_dom _ _ _ _ H).
  - apply (ai_free _ _ _ _ H).
Qed.
