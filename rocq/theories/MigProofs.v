(* Proofs about MigModel.v, used by MigProps.v. *)
From Coq Require Import List Arith Bool ZArith Lia.
From Verif Require Import MigModel MigSpec.
Import ListNotations.

Section P.
Variable known : nat -> bool.

Definition with_type (x : column) (f : form) : column := {| c_id := c_id x; c_version := c_version x; c_name := c_name x; c_type := f |}.
Definition conv (x : column) : column := match convert known (c_type x) with Some f => with_type x f | None => x end.
Definition updates (id : nat) (a : action) : bool := match a with Update i _ => Nat.eqb id i | Migrate _ => false end.
Definition with_columns (c : catalog) (l : list column) : catalog :=
  {| applied := applied c; columns := l; tables := tables c; versions := versions c; partitions := partitions c; dropped := dropped c |}.
Definition good (c : catalog) (a : action) : Prop :=
  exists y f, In y (columns c) /\ convert known (c_type y) = Some f /\ a = Update (c_id y) f.

Lemma same_id : forall (l : list column) x y, NoDup (map c_id l) -> In x l -> In y l -> c_id x = c_id y -> x = y.
Proof.
  induction l as [|a l IH]; intros x y N X Y E; [destruct X|]. cbn in N. inversion N as [|b m N1 N2]; subst. destruct X as [->|X], Y as [->|Y]; auto.
  - exfalso. apply N1. rewrite E. apply in_map. exact Y.
  - exfalso. apply N1. rewrite <- E. apply in_map. exact X.
Qed.
Lemma conv_id : forall x, c_id (conv x) = c_id x.
Proof. intros x. unfold conv. destruct (convert known (c_type x)); reflexivity. Qed.

Lemma updates_run : forall c l, NoDup (map c_id (columns c)) -> Forall (good c) l ->
  fold_left act l c = with_columns c (map (fun x => if existsb (updates (c_id x)) l then conv x else x) (columns c)).
Proof.
  intros c l N. induction l as [|a l IH] using rev_ind; intros G.
  - cbn. rewrite map_id. destruct c; reflexivity.
  - apply Forall_app in G as [G1 G2]. inversion G2 as [|b m G3 _]; subst. destruct G3 as (y & f & Y & C & ->).
    rewrite fold_left_app, (IH G1). cbn [fold_left act]. unfold with_columns. cbn [applied columns tables versions partitions dropped]. f_equal.
    rewrite map_map. apply map_ext_in. intros x X. rewrite existsb_app. cbn [existsb updates]. rewrite orb_false_r.
    assert (I : c_id (if existsb (updates (c_id x)) l then conv x else x) = c_id x) by (destruct (existsb _ l); [apply conv_id|reflexivity]).
    rewrite I. destruct (Nat.eqb_spec (c_id x) (c_id y)) as [E|E].
    + rewrite orb_true_r. assert (x = y) as -> by (apply (same_id (columns c)); assumption).
      unfold conv. rewrite C. destruct (existsb _ l); reflexivity.
    + rewrite orb_false_r. reflexivity.
Qed.

Definition ups (m e : nat) (c : catalog) : catalog := fold_left act (map Migrate (seq (S e) m)) c.
Definition row_updates (l : list column) : list action :=
  flat_map (fun x => match convert known (c_type x) with Some f => [Update (c_id x) f] | None => [] end) l.

Lemma firstn_seq : forall n a b, firstn n (seq a b) = seq a (Nat.min n b).
Proof. induction n as [|n IH]; intros a [|b]; cbn; try reflexivity. rewrite IH. reflexivity. Qed.
Lemma good_rows : forall c, Forall (good c) (row_updates (columns c)).
Proof.
  intros c. apply Forall_forall. intros a H. unfold row_updates in H. apply in_flat_map in H as (y & Y & H).
  destruct (convert known (c_type y)) eqn:E; [|destruct H]. destruct H as [<-|[]]. exists y, f. auto.
Qed.
Lemma setup_shape : forall e c, of_age e c -> setup known c = row_updates (columns c) ++ map Migrate (seq (S e) (4 - e)).
Proof.
  intros e c (L & A & _). unfold setup. fold (row_updates (columns c)). f_equal. unfold refused. rewrite A.
  destruct e as [|[|[|[|[|e]]]]]; reflexivity.
Qed.
Lemma start_shape : forall e c k, of_age e c ->
  exists l m, start known k c = ups m e (with_columns c (map (fun x => if existsb (updates (c_id x)) l then conv x else x) (columns c))) /\
    Forall (good c) l /\ e + m <= 4 /\ (length (setup known c) <= k -> l = row_updates (columns c) /\ m = 4 - e).
Proof.
  intros e c k O. pose proof O as (L & A & N & _). exists (firstn k (row_updates (columns c))), (Nat.min (k - length (row_updates (columns c))) (4 - e)).
  assert (G : Forall (good c) (firstn k (row_updates (columns c)))).
  { pose proof (good_rows c) as H. rewrite <- (firstn_skipn k (row_updates (columns c))) in H. apply Forall_app in H. apply H. }
  split.
  - unfold start. rewrite (setup_shape e c O), firstn_app, fold_left_app, (updates_run c _ N G), firstn_map, firstn_seq. reflexivity.
  - split; [exact G|]. split; [lia|]. intros K. rewrite (setup_shape e c O), app_length, map_length, seq_length in K. split; [apply firstn_all2; lia|lia].
Qed.

(* one migration *)
Lemma conv_says : forall x, says (conv x) = says x.
Proof.
  intros x. unfold conv, says. destruct (c_type x) as [t|n t b|n t b|] eqn:E; cbn [convert]; try (rewrite E; reflexivity).
  destruct (known t); [reflexivity|rewrite E; reflexivity].
Qed.
Lemma says_kept : forall e c, of_age e c -> e < 4 -> map says (columns (act c (Migrate (S e)))) = map says (columns c).
Proof.
  intros e c (L & A & N & B & _) H. destruct e as [|[|[|[|e]]]]; try reflexivity; try lia.
  cbn. rewrite map_map. apply map_ext_in. intros x X. destruct (B (le_n 1) x X) as [t T]. unfold says. cbn. rewrite T. reflexivity.
Qed.
Lemma listing_kept : forall c n, listing (act c (Migrate n)) = listing c.
Proof.
  intros c n. destruct n as [|[|[|[|[|n]]]]]; try reflexivity.
  - unfold listing. cbn. rewrite map_map. reflexivity.
  - unfold listing. cbn. rewrite !map_map. reflexivity.
  - unfold listing. cbn. rewrite map_map. reflexivity.
Qed.
Lemma age_up : forall e c, of_age e c -> e < 4 -> of_age (S e) (act c (Migrate (S e))).
Proof.
  intros e c (L & A & N & B & D & Z) H. destruct e as [|[|[|[|e]]]]; try lia.
  - destruct (Z eq_refl) as (Z1 & Z2 & Z3). split; [lia|]. split; [cbn; rewrite A; reflexivity|]. split; [cbn; rewrite Z1; constructor|].
    split; [cbn; rewrite Z1; intros _ x []|]. split; [intros X; lia|discriminate].
  - split; [lia|]. split; [cbn; rewrite A; reflexivity|]. split; [cbn; rewrite map_map; exact N|]. split; [intros X; lia|]. split; [|discriminate].
    intros _ x t X. cbn in X. apply in_map_iff in X as (y & <- & Y). cbn. destruct (c_type y); discriminate.
  - split; [lia|]. split; [cbn; rewrite A; reflexivity|]. split; [exact N|]. split; [intros X; lia|]. split; [|discriminate]. intros _. apply D. lia.
  - split; [lia|]. split; [cbn; rewrite A; reflexivity|]. split; [exact N|]. split; [intros X; lia|]. split; [|discriminate]. intros _. apply D. lia.
Qed.
Lemma ups_kept : forall m e c, of_age e c -> e + m <= 4 ->
  of_age (e + m) (ups m e c) /\ listing (ups m e c) = listing c /\ map says (columns (ups m e c)) = map says (columns c).
Proof.
  induction m as [|m IH]; intros e c O L; [rewrite Nat.add_0_r; auto|].
  assert (H : e < 4) by lia. destruct (IH (S e) (act c (Migrate (S e))) (age_up e c O H) ltac:(lia)) as (I1 & I2 & I3).
  change (ups (S m) e c) with (ups m (S e) (act c (Migrate (S e)))). rewrite <- Nat.add_succ_comm. split; [exact I1|]. split.
  - rewrite I2. apply listing_kept.
  - rewrite I3. apply says_kept; assumption.
Qed.
(* the updates of rows *)
Lemma conv_bare : forall x t, c_type x = Bare t -> conv x = x.
Proof. intros x t E. unfold conv. rewrite E. reflexivity. Qed.
Lemma rows_kept : forall e c (g : column -> bool), of_age e c ->
  let c' := with_columns c (map (fun x => if g x then conv x else x) (columns c)) in
  of_age e c' /\ listing c' = listing c /\ map says (columns c') = map says (columns c).
Proof.
  intros e c g (L & A & N & B & D & Z). cbv zeta.
  assert (E : map c_id (map (fun x => if g x then conv x else x) (columns c)) = map c_id (columns c)).
  { rewrite map_map. apply map_ext. intros x. destruct (g x); [apply conv_id|reflexivity]. }
  split; [|split].
  - split; [exact L|]. split; [exact A|]. split; [cbn; rewrite E; exact N|]. split; [|split].
    + intros H x X. cbn in X. apply in_map_iff in X as (y & <- & Y). destruct (B H y Y) as [t T]. exists t. rewrite (conv_bare y t T). destruct (g y); exact T.
    + intros H x t X. cbn in X. apply in_map_iff in X as (y & <- & Y). destruct (g y); [|exact (D H y t Y)]. unfold conv.
      destruct (convert known (c_type y)) eqn:C; [|exact (D H y t Y)]. cbn. destruct (c_type y); cbn in C; try discriminate C. destruct (known t0); [|discriminate C]. injection C as <-. discriminate.
    + intros H. destruct (Z H) as (Z1 & Z2 & Z3). cbn. rewrite Z1. auto.
  - unfold listing. cbn. rewrite map_map. f_equal. apply map_ext. intros x. destruct (g x); [|reflexivity]. unfold conv. destruct (convert known (c_type x)); reflexivity.
  - cbn. rewrite map_map. apply map_ext. intros x. destruct (g x); [apply conv_says|reflexivity].
Qed.
Lemma start_kept : forall e c k, of_age e c ->
  exists e', e <= e' /\ of_age e' (start known k c) /\ listing (start known k c) = listing c /\
    map says (columns (start known k c)) = map says (columns c).
Proof.
  intros e c k O. destruct (start_shape e c k O) as (l & m & -> & _ & L & _).
  destruct (rows_kept e c (fun x => existsb (updates (c_id x)) l) O) as (R1 & R2 & R3).
  destruct (ups_kept m e _ R1 L) as (U1 & U2 & U3). exists (e + m). split; [lia|]. split; [exact U1|]. split; [rewrite U2; exact R2|rewrite U3; exact R3].
Qed.
Lemma starts_kept : forall ks e c, of_age e c ->
  exists e', e <= e' /\ of_age e' (starts known ks c) /\ listing (starts known ks c) = listing c /\
    map says (columns (starts known ks c)) = map says (columns c).
Proof.
  induction ks as [|k ks IH]; intros e c O; [exists e; auto|].
  destruct (start_kept e c k O) as (e1 & L1 & O1 & A1 & B1). destruct (IH e1 _ O1) as (e2 & L2 & O2 & A2 & B2).
  exists e2. split; [lia|]. split; [exact O2|]. split; [etransitivity; [exact A2|exact A1]|etransitivity; [exact B2|exact B1]].
Qed.

(* a complete start *)
Lemma existsb_rows : forall c x, NoDup (map c_id (columns c)) -> In x (columns c) ->
  (if existsb (updates (c_id x)) (row_updates (columns c)) then conv x else x) = conv x.
Proof.
  intros c x N X. destruct (existsb _ _) eqn:E; [reflexivity|]. unfold conv. destruct (convert known (c_type x)) as [f|] eqn:C; [|reflexivity]. exfalso.
  assert (H : existsb (updates (c_id x)) (row_updates (columns c)) = true); [|congruence].
  apply existsb_exists. exists (Update (c_id x) f). split; [|apply Nat.eqb_refl]. unfold row_updates. apply in_flat_map. exists x. split; [exact X|]. rewrite C. left. reflexivity.
Qed.
Lemma complete_shape : forall e c, of_age e c -> complete_start known c = ups (4 - e) e (with_columns c (map conv (columns c))).
Proof.
  intros e c O. destruct (start_shape e c (length (setup known c)) O) as (l & m & E & _ & _ & F). destruct (F (le_n _)) as [-> ->].
  unfold complete_start. rewrite E. f_equal. unfold with_columns. f_equal. apply map_ext_in. intros x X. apply existsb_rows; [apply O|exact X].
Qed.
Lemma complete_age : forall e c, of_age e c -> of_age 4 (complete_start known c).
Proof.
  intros e c O. rewrite (complete_shape e c O). replace 4 with (e + (4 - e)) at 1 by (destruct O; lia). apply ups_kept; [|destruct O; lia].
  pose proof (rows_kept e c (fun _ => true) O) as R. apply R.
Qed.
Lemma ups_columns : forall m e c, 2 <= e -> columns (ups m e c) = columns c.
Proof.
  induction m as [|m IH]; intros e c H; [reflexivity|]. change (ups (S m) e c) with (ups m (S e) (act c (Migrate (S e)))). rewrite IH by lia.
  destruct e as [|[|[|[|e]]]]; try lia; reflexivity.
Qed.
Lemma conv_conv : forall x, convert known (c_type (conv x)) = None.
Proof.
  intros x. unfold conv. destruct (c_type x) as [t|n t b|n t b|] eqn:E; cbn [convert]; rewrite ?E; try reflexivity.
  destruct (known t) eqn:K; [reflexivity|]. rewrite E. cbn. rewrite K. reflexivity.
Qed.
Lemma idle : forall c k, of_age 4 c -> (forall x, In x (columns c) -> convert known (c_type x) = None) -> start known k c = c.
Proof.
  intros c k O H. unfold start. rewrite (setup_shape 4 c O). cbn [seq Nat.sub map]. rewrite app_nil_r.
  replace (row_updates (columns c)) with (@nil action); [destruct k; reflexivity|].
  unfold row_updates. induction (columns c) as [|x l IH]; [reflexivity|]. cbn. rewrite (H x (or_introl eq_refl)). cbn. apply IH. intros y Y. apply H. right. exact Y.
Qed.
End P.
