(* Physical squashing: the row-id based loop refines squashing of abstract changes. *)
From Coq Require Import List Arith ZArith Bool Lia.
From Verif Require Import SyncDataModel SyncDataSpec SyncAbsSquash.
Import ListNotations.

(* the specification has its own versions of these *)
Ltac spec_helpers := change same_role with role_eqb in *; change null with is_null in *; change yes with is_true in *.
Lemma role_eqb_spec a b : reflect (a = b) (role_eqb a b).
Proof. destruct a, b; constructor; congruence. Qed.

Lemma nth_error_with_idx {A} (l : list A) i : nth_error (with_idx l) i = option_map (fun x => (i, x)) (nth_error l i).
Proof.
  unfold with_idx.
  assert (G : forall k i, nth_error (combine (seq k (length l)) l) i = option_map (fun x => (k + i, x)) (nth_error l i)).
  { clear i. induction l as [|x l IH]; intros k i; cbn; [destruct i; reflexivity|].
    destruct i; cbn; [now rewrite Nat.add_0_r|]. rewrite IH. now rewrite Nat.add_succ_r. }
  apply (G 0).
Qed.
Lemma with_idx_length {A} (l : list A) : length (with_idx l) = length l.
Proof. unfold with_idx. rewrite combine_length, seq_length. lia. Qed.

(* ----- schemas ----- *)
Notation descs sch := (map (fun c => (c_role c, c_name c)) sch).

Lemma find_col_from_some k sch n ro i :
  find_col_from k sch n ro = Some i ->
  k <= i /\ exists c, nth_error sch (i - k) = Some c /\ c_name c = n /\ c_role c = ro.
Proof.
  revert k. induction sch as [|c sch IH]; intros k; cbn; [discriminate|].
  destruct (find_col_from (S k) sch n ro) as [j|] eqn:E.
  - intros [= <-]. apply IH in E as (L & c' & Hc & Hn & Hr). split; [lia|]. exists c'.
    replace (j - k) with (S (j - S k)) by lia. auto.
  - destruct (Nat.eqb_spec (c_name c) n) as [E1|]; [|discriminate].
    destruct (role_eqb_spec (c_role c) ro); [|discriminate]. intros [= <-].
    split; [lia|]. exists c. rewrite Nat.sub_diag. auto.
Qed.
Lemma find_col_some sch n ro i :
  find_col sch n ro = Some i -> exists c, nth_error sch i = Some c /\ c_name c = n /\ c_role c = ro.
Proof. intros H. apply find_col_from_some in H as (_ & c & H). rewrite Nat.sub_0_r in H. eauto. Qed.
Lemma find_col_from_none k sch n ro :
  find_col_from k sch n ro = None -> forall c, In c sch -> ~ (c_name c = n /\ c_role c = ro).
Proof.
  revert k. induction sch as [|c sch IH]; intros k; cbn; [tauto|].
  destruct (find_col_from (S k) sch n ro) eqn:E; [discriminate|].
  destruct (Nat.eqb_spec (c_name c) n), (role_eqb_spec (c_role c) ro); cbn; try discriminate;
    intros _ c' [<-|Hc] [H1 H2]; try contradiction; eapply IH; eauto.
Qed.
Lemma find_col_none sch n ro :
  find_col sch n ro = None <-> forall c, In c sch -> ~ (c_name c = n /\ c_role c = ro).
Proof.
  split; [apply find_col_from_none|]. intros H. destruct (find_col sch n ro) eqn:E; auto.
  apply find_col_some in E as (c & Hc & H1 & H2). exfalso. eapply H; [eapply nth_error_In; eauto|auto].
Qed.
Lemma nodup_nth {A} (l : list A) i j x : NoDup l -> nth_error l i = Some x -> nth_error l j = Some x -> i = j.
Proof.
  intros H Hi Hj. rewrite NoDup_nth_error in H. apply H; [|congruence].
  apply nth_error_Some. congruence.
Qed.
Lemma find_col_at sch i c :
  NoDup (descs sch) -> nth_error sch i = Some c -> find_col sch (c_name c) (c_role c) = Some i.
Proof.
  intros H Hi. destruct (find_col sch (c_name c) (c_role c)) as [j|] eqn:E.
  - apply find_col_some in E as (c' & Hj & H1 & H2). f_equal.
    eapply (nodup_nth _ j i (c_role c, c_name c) H); rewrite nth_error_map.
    + rewrite Hj. cbn. congruence.
    + rewrite Hi. reflexivity.
  - exfalso. eapply find_col_none; eauto. eapply nth_error_In; eauto.
Qed.
Lemma has_col_names sch n ro : has_col sch n ro = true <-> In n (names_of sch ro).
Proof.
  unfold has_col, names_of. rewrite in_map_iff. split.
  - destruct (find_col sch n ro) eqn:E; [|discriminate]. intros _.
    apply find_col_some in E as (c & Hc & H1 & H2). exists c. split; auto. apply filter_In.
    split; [eapply nth_error_In; eauto|]. destruct (role_eqb_spec (c_role c) ro); auto.
  - intros (c & H1 & H2). apply filter_In in H2 as [H2 H3].
    destruct (find_col sch n ro) eqn:E; auto. exfalso.
    destruct (role_eqb_spec (c_role c) ro); [|discriminate].
    apply (proj1 (find_col_none sch n ro) E c); auto.
Qed.

Lemma cell_nth_error i (r : list value) v : nth_error r i = Some v -> cell i r = v.
Proof. unfold cell. apply nth_error_nth. Qed.

(* reading by role and name is reading at the position of the column *)
Lemma read_find sch r ro n :
  NoDup (descs sch) -> length r = length sch ->
  read sch r ro n = option_map (fun i => cell i r) (find_col sch n ro).
Proof.
  intros Hd Hl. unfold read. spec_helpers.
  destruct (find _ (combine sch r)) as [[c v]|] eqn:E; cbn.
  - pose proof (find_some _ _ E) as [Hin Hp]. cbn in Hp.
    apply andb_true_iff in Hp as [Hn Hr]. apply Nat.eqb_eq in Hn.
    destruct (role_eqb_spec (c_role c) ro) as [Hr'|]; [|discriminate].
    apply In_nth_error in Hin as (i & Hi).
    assert (Hc : nth_error sch i = Some c /\ nth_error r i = Some v).
    { clear - Hi. revert r i Hi. induction sch as [|x sch IH]; intros [|y r] [|i] H; cbn in *; try discriminate.
      - injection H as -> ->. auto.
      - auto. }
    destruct Hc as [Hc Hv]. subst. rewrite (find_col_at _ _ _ Hd Hc). cbn. f_equal.
    symmetry. now apply cell_nth_error.
  - destruct (find_col sch n ro) as [i|] eqn:F; auto. exfalso.
    apply find_col_some in F as (c & Hc & Hn & Hr).
    assert (Hi : i < length sch) by (apply nth_error_Some; congruence).
    destruct (nth_error r i) as [v|] eqn:Hv; [|apply nth_error_None in Hv; lia].
    assert (Hin : In (c, v) (combine sch r)).
    { clear - Hc Hv. revert r i Hc Hv. induction sch as [|x sch IH]; intros [|y r] [|i] H1 H2; cbn in *; try discriminate.
      - left. congruence.
      - right. eauto. }
    apply (find_none _ _ E) in Hin. cbn in Hin. rewrite Hn, Hr, Nat.eqb_refl in Hin.
    destruct ro; discriminate.
Qed.

Lemma cols_from_find sch suf k ro :
  NoDup (descs sch) -> (exists pre, sch = pre ++ suf /\ length pre = k) ->
  map (fun n => find_col sch n ro) (map c_name (filter (fun c => role_eqb (c_role c) ro) suf)) = map Some (cols_from k suf ro).
Proof.
  intros Hd. revert k. induction suf as [|c suf IH]; intros k (pre & E & L); cbn; auto.
  assert (IH' : map (fun n => find_col sch n ro) (map c_name (filter (fun c => role_eqb (c_role c) ro) suf)) =
                map Some (cols_from (S k) suf ro)).
  { apply IH. exists (pre ++ [c]). rewrite <- app_assoc, app_length. cbn. split; [auto|lia]. }
  destruct (role_eqb_spec (c_role c) ro) as [R|R]; cbn; [|exact IH'].
  rewrite IH'. f_equal. rewrite <- R. apply find_col_at; auto.
  rewrite E, nth_error_app2 by lia. replace (k - length pre) with 0 by lia. reflexivity.
Qed.
Lemma cols_of_find sch ro :
  NoDup (descs sch) -> map (fun n => find_col sch n ro) (names_of sch ro) = map Some (cols_of sch ro).
Proof. intros H. apply (cols_from_find sch sch 0 ro H). exists []. auto. Qed.
Lemma tuple_read sch r ro :
  NoDup (descs sch) ->
  tuple (cols_of sch ro) r = map (fun n => ocell (find_col sch n ro) (Some r)) (names_of sch ro).
Proof.
  intros H. unfold tuple.
  assert (E : map (fun i => cell i r) (cols_of sch ro) = map (fun o => ocell o (Some r)) (map Some (cols_of sch ro)))
    by (rewrite map_map; reflexivity).
  rewrite E, <- cols_of_find by auto. now rewrite map_map.
Qed.
Lemma in_cols_of sch ro i :
  NoDup (descs sch) -> In i (cols_of sch ro) <-> exists c, nth_error sch i = Some c /\ c_role c = ro.
Proof.
  intros Hd. split.
  - intros H. apply (in_map Some) in H. rewrite <- cols_of_find in H by auto.
    apply in_map_iff in H as (n & H & _). apply find_col_some in H as (c & Hc & _ & Hr). eauto.
  - intros (c & Hc & Hr).
    assert (In (Some i) (map Some (cols_of sch ro))).
    { rewrite <- cols_of_find by auto. apply in_map_iff. exists (c_name c). rewrite <- Hr. split.
      - now apply find_col_at.
      - apply has_col_names. unfold has_col. rewrite (find_col_at _ _ _ Hd Hc). reflexivity. }
    apply in_map_iff in H as (j & [= ->] & H). auto.
Qed.

(* the key of a row, by position *)
Definition fkey (sch : list column) (ro : role) (pks : list nat) (r : list value) : list value :=
  map (fun n => ocell (find_col sch n ro) (Some r)) pks.
Lemma read_key_fkey sch r ro pks :
  NoDup (descs sch) -> length r = length sch -> read_key sch r ro pks = fkey sch ro pks r.
Proof.
  intros H L. unfold read_key, fkey. apply map_ext. intros n. rewrite read_find by auto.
  destruct (find_col sch n ro); reflexivity.
Qed.

(* the assignment of a row, by position; flags and flagged values from [g], other values from [m] *)
Definition fset (sch : list column) (m g : list value) (n : nat) : option value :=
  match find_col sch n Value with
  | None => None
  | Some i => match find_col sch n Changed with
              | None => Some (cell i m)
              | Some j => if is_true (cell j g) then Some (cell i g) else None
              end
  end.
Lemma assigned_fset sch r n :
  NoDup (descs sch) -> length r = length sch -> assigned sch r n = fset sch r r n.
Proof.
  intros H L. unfold assigned, fset. spec_helpers. rewrite !read_find by auto.
  destruct (find_col sch n Value), (find_col sch n Changed); reflexivity.
Qed.

Lemma map_const_len {A B C} (c : C) (l : list A) (l' : list B) :
  length l = length l' -> map (fun _ => c) l = map (fun _ => c) l'.
Proof. revert l'. induction l as [|x l IH]; intros [|y l'] L; cbn in *; try lia; auto. f_equal. apply IH. lia. Qed.
Lemma all_null_eq {A} (l : list A) (vs : list value) :
  length vs = length l -> forallb is_null vs = true -> vs = map (fun _ => VNull) l.
Proof.
  revert vs. induction l as [|x l IH]; intros [|v vs] L E; cbn in *; try lia; auto.
  destruct v; cbn in E; try discriminate. f_equal. apply IH; auto.
Qed.
Lemma all_null_map {A} (l : list A) : forallb is_null (map (fun _ => VNull) l) = true.
Proof. induction l; auto. Qed.

Section Sq.
Variables (pks vals : list nat) (sch : list column) (rows : list (list value)).
Hypothesis Hgood : good_schema pks sch.
Hypothesis Hrows : forall r, In r rows -> good_row pks sch r.
Hypothesis Hflags : forall r, In r rows -> flags_alike sch r.

Notation R j := (nth j rows []).
Notation chg := (change_of pks vals sch).

Let Hd : NoDup (descs sch) := proj1 Hgood.

Lemma out_row_length h : length (out_row sch rows h) = length sch.
Proof. unfold out_row. now rewrite map_length, with_idx_length. Qed.
Lemma out_row_cell h i c :
  nth_error sch i = Some c -> cell i (out_row sch rows h) = cell i (R (source_row sch h (i, c))).
Proof.
  intros H. unfold out_row. apply cell_nth_error. rewrite nth_error_map, nth_error_with_idx, H. reflexivity.
Qed.

Lemma flagged_iff n i : find_col sch n Value = Some i -> flagged sch i = has_col sch n Changed.
Proof.
  intros H. unfold flagged, has_col.
  destruct (find_col sch n Changed) as [j|] eqn:E.
  - apply existsb_exists. apply find_col_some in E as (c & Hc & Hn & Hr). exists c.
    split; [eapply nth_error_In; eauto|]. rewrite Hr, Hn, H. cbn. apply Nat.eqb_refl.
  - apply not_true_iff_false. intros X. apply existsb_exists in X as (c & Hc & X).
    apply andb_true_iff in X as [Xr X]. destruct (role_eqb_spec (c_role c) Changed); [|discriminate].
    destruct (find_col sch (c_name c) Value) as [j|] eqn:F; [|discriminate]. apply Nat.eqb_eq in X. subst j.
    apply find_col_some in F as (c1 & H1 & H1n & _). apply find_col_some in H as (c2 & H2 & H2n & _).
    assert (c_name c = n) by congruence.
    apply (proj1 (find_col_none sch n Changed) E c); auto.
Qed.

(* the change described by an output row *)
Lemma out_change h g :
  h_chg h = map (fun _ => g) (cols_of sch Changed) ->
  chg (out_row sch rows h) =
  {| ch_old := as_key (fkey sch OldPk pks (R (h_old h)));
     ch_new := as_key (fkey sch NewPk pks (R (h_new h)));
     ch_set := map (fset sch (R (h_new h)) (R g)) vals |}.
Proof.
  intros Hg. unfold change_of.
  rewrite !read_key_fkey by (auto using out_row_length).
  assert (Hk : forall ro j, (ro = OldPk /\ j = h_old h) \/ (ro = NewPk /\ j = h_new h) ->
                            fkey sch ro pks (out_row sch rows h) = fkey sch ro pks (R j)).
  { intros ro j Hro. unfold fkey. apply map_ext. intros n.
    destruct (find_col sch n ro) as [i|] eqn:E; cbn; auto.
    apply find_col_some in E as (c & Hc & Hn & Hr). rewrite (out_row_cell _ _ _ Hc).
    unfold source_row. cbn. rewrite Hr. destruct Hro as [[-> ->]|[-> ->]]; reflexivity. }
  rewrite (Hk OldPk (h_old h)), (Hk NewPk (h_new h)) by auto.
  f_equal. apply map_ext. intros n. rewrite assigned_fset by (auto using out_row_length).
  unfold fset. destruct (find_col sch n Value) as [i|] eqn:E; auto.
  pose proof (flagged_iff _ _ E) as F. unfold has_col in F.
  apply find_col_some in E as (c & Hc & Hn & Hr).
  rewrite (out_row_cell _ _ _ Hc). unfold source_row. cbn. rewrite Hr, F.
  destruct (find_col sch n Changed) as [j|] eqn:E2; auto.
  apply find_col_some in E2 as (c' & Hc' & Hn' & Hr').
  rewrite (out_row_cell _ _ _ Hc'). unfold source_row. cbn. rewrite Hr', Hg.
  assert (In j (cols_of sch Changed)) by (apply in_cols_of; eauto).
  destruct (cols_of sch Changed); [contradiction|]. reflexivity.
Qed.
Lemma row_change r : length r = length sch ->
  chg r = {| ch_old := as_key (fkey sch OldPk pks r); ch_new := as_key (fkey sch NewPk pks r);
             ch_set := map (fset sch r r) vals |}.
Proof.
  intros L. unfold change_of. rewrite !read_key_fkey by auto. f_equal.
  apply map_ext. intros n. now apply assigned_fset.
Qed.

Lemma old_tuple r : tuple (cols_of sch OldPk) r = fkey sch OldPk pks r.
Proof. rewrite tuple_read by auto. pose proof (proj1 (proj2 Hgood)) as E. now rewrite E. Qed.
Lemma new_tuple r : tuple (cols_of sch NewPk) r = fkey sch NewPk pks r.
Proof. rewrite tuple_read by auto. pose proof (proj1 (proj2 (proj2 Hgood))) as E. now rewrite E. Qed.
Lemma nulls_pks : nulls (cols_of sch OldPk) = map (fun _ => VNull) pks.
Proof.
  unfold nulls. pose proof (proj1 (proj2 Hgood)) as E.
  assert (L : length (cols_of sch OldPk) = length pks).
  { rewrite <- (map_length Some), <- cols_of_find, map_length, E; auto. }
  now apply map_const_len.
Qed.
Lemma as_key_nulls (vs : list value) :
  length vs = length pks -> as_key vs = if teqb vs (nulls (cols_of sch OldPk)) then None else Some vs.
Proof.
  rewrite nulls_pks. intros L. unfold as_key. spec_helpers.
  destruct (teqb_spec vs (map (fun _ => VNull) pks)) as [->|N].
  - now rewrite all_null_map.
  - destruct (forallb is_null vs) eqn:E; auto. exfalso. apply N. now apply all_null_eq.
Qed.
Lemma fkey_length ro r : length (fkey sch ro pks r) = length pks.
Proof. unfold fkey. apply map_length. Qed.
Lemma as_key_some vs k : as_key vs = Some k -> vs = k.
Proof. unfold as_key. spec_helpers. destruct (forallb is_null vs); congruence. Qed.

(* the refinement relation *)
Record RInv (st : sq_state) (ast : astate) : Prop := {
  ri_chains : a_chains ast = map (fun h => chg (out_row sch rows h)) (q_chains st);
  ri_pk : q_pk st = a_pk ast;
  ri_chg : forall h, In h (q_chains st) -> exists g, h_chg h = map (fun _ => g) (cols_of sch Changed);
  ri_temp : forall id, In id (q_temp st) -> exists c, nth_error (a_chains ast) id = Some c /\ void c;
  ri_void : (forall r, In r rows -> ~ void (chg r)) ->
            forall id c, nth_error (a_chains ast) id = Some c -> void c -> In id (q_temp st) }.

Lemma uniform r : In r rows -> exists b, forall j, In j (cols_of sch Changed) -> is_true (cell j r) = b.
Proof.
  intros Hr. destruct (cols_of sch Changed) as [|j0 js] eqn:E.
  - exists false. intros j [].
  - exists (is_true (cell j0 r)). rewrite <- E. intros j Hj.
    assert (Hj0 : In j0 (cols_of sch Changed)) by (rewrite E; cbn; auto).
    apply in_cols_of in Hj as (c & Hc & Hcr); auto. apply in_cols_of in Hj0 as (c0 & Hc0 & Hcr0); auto.
    destruct (Hrows r Hr) as [L _].
    apply (Hflags r Hr (c_name c) (c_name c0)); rewrite read_find by auto.
    + rewrite <- Hcr. rewrite (find_col_at _ _ _ Hd Hc). reflexivity.
    + rewrite <- Hcr0. rewrite (find_col_at _ _ _ Hd Hc0). reflexivity.
Qed.

Lemma map_combine_const {A B C} (f : A * B -> C) (a : A) (l : list B) :
  map f (combine (map (fun _ => a) l) l) = map (fun b => f (a, b)) l.
Proof. induction l; cbn; auto. now rewrite IHl. Qed.

Lemma fset_comp r m g row_id b :
  r = R row_id ->
  (forall j, In j (cols_of sch Changed) -> is_true (cell j r) = b) ->
  map (fset sch r (R (if b then row_id else g))) vals =
  comp (map (fset sch r r) vals) (map (fset sch m (R g)) vals).
Proof.
  intros Hr Hb. unfold comp. induction vals as [|n ns IH]; cbn; auto. f_equal; auto.
  unfold fset. destruct (find_col sch n Value) as [i|]; auto.
  destruct (find_col sch n Changed) as [j|] eqn:E; auto.
  assert (Hj : In j (cols_of sch Changed)).
  { apply find_col_some in E as (c & Hc & _ & Hcr). apply in_cols_of; eauto. }
  rewrite (Hb j Hj). destruct b; cbn.
  - rewrite <- Hr, (Hb j Hj). reflexivity.
  - destruct (is_true (cell j (R g))); reflexivity.
Qed.

Lemma RInv_step w t0 t st ast row_id :
  RInv st ast -> AInv w t0 t ast -> row_id < length rows ->
  RInv (squash_step sch rows st row_id) (a_step ast (chg (R row_id))).
Proof.
  intros [Hch Hpk Hchg Htemp Hvoid] HA Hlt.
  assert (Hin : In (R row_id) rows) by (apply nth_In; auto).
  destruct (Hrows _ Hin) as [HL _].
  set (r := R row_id) in *.
  unfold squash_step. fold r. rewrite old_tuple, new_tuple.
  pose proof (row_change r HL) as Ec.
  assert (Hhit : pk_get (fkey sch OldPk pks r) (q_pk st) = a_hit ast (chg r)).
  { unfold a_hit. rewrite Ec. cbn [ch_old]. rewrite as_key_nulls by apply fkey_length. rewrite Hpk.
    destruct (teqb_spec (fkey sch OldPk pks r) (nulls (cols_of sch OldPk))) as [E|N]; auto.
    rewrite E. destruct (pk_get (nulls (cols_of sch OldPk)) (a_pk ast)) as [id|] eqn:G; auto. exfalso.
    apply (ai_pk _ _ _ _ HA) in G as (c & Hc & Hn). rewrite Hch, nth_error_map in Hc.
    destruct (nth_error (q_chains st) id) as [h|] eqn:Hh; [|discriminate]. cbn in Hc. injection Hc as <-.
    destruct (Hchg h) as (g & Hg); [eapply nth_error_In; eauto|].
    rewrite (out_change _ _ Hg) in Hn. cbn [ch_new] in Hn. rewrite as_key_nulls in Hn by apply fkey_length.
    destruct (teqb_spec (fkey sch NewPk pks (R (h_new h))) (nulls (cols_of sch OldPk))); [discriminate|].
    congruence. }
  rewrite Hhit. unfold a_step. destruct (a_hit ast (chg r)) as [id|] eqn:Hit.
  - assert (Hold : ch_old (chg r) = Some (fkey sch OldPk pks r)).
    { unfold a_hit in Hit. rewrite Ec in *. cbn [ch_old] in *.
      destruct (as_key (fkey sch OldPk pks r)) eqn:E; [|discriminate]. f_equal. symmetry. now apply as_key_some. }
    rewrite Hold.
    assert (Hid : exists h, nth_error (q_chains st) id = Some h).
    { unfold a_hit in Hit. rewrite Hold in Hit. apply (ai_pk _ _ _ _ HA) in Hit as (c & Hc & _).
      rewrite Hch, nth_error_map in Hc. destruct (nth_error (q_chains st) id); [eauto|discriminate]. }
    destruct Hid as (h & Hh).
    set (dh := {| h_old := 0; h_new := 0; h_chg := [] |}).
    assert (Enth : nth id (q_chains st) dh = h) by (apply nth_error_nth; auto).
    rewrite Enth. cbn zeta.
    destruct (Hchg h) as (g & Hg); [eapply nth_error_In; eauto|].
    destruct (uniform r Hin) as (b & Hb).
    set (h' := {| h_old := h_old h; h_new := row_id;
                  h_chg := map (fun p => if is_true (cell (snd p) r) then row_id else fst p)
                               (combine (h_chg h) (cols_of sch Changed)) |}).
    assert (Hg' : h_chg h' = map (fun _ => if b then row_id else g) (cols_of sch Changed)).
    { cbn. rewrite Hg, map_combine_const. apply map_ext_in. intros j Hj. cbn. now rewrite (Hb j Hj). }
    assert (Ea : nth id (a_chains ast) dummy = chg (out_row sch rows h)).
    { apply nth_error_nth. rewrite Hch, nth_error_map, Hh. reflexivity. }
    rewrite Ea.
    assert (Eh' : chg (out_row sch rows h') =
                  {| ch_old := ch_old (chg (out_row sch rows h)); ch_new := ch_new (chg r);
                     ch_set := comp (ch_set (chg r)) (ch_set (chg (out_row sch rows h))) |}).
    { rewrite (out_change _ _ Hg'), (out_change _ _ Hg), Ec. cbn [ch_old ch_new ch_set h_old h_new h'].
      fold r. f_equal. apply fset_comp; auto. }
    rewrite <- Eh'.
    assert (Hchains : set_nth id (chg (out_row sch rows h')) (a_chains ast) =
                      map (fun h => chg (out_row sch rows h)) (set_nth id h' (q_chains st))).
    { rewrite map_set_nth, Hch. reflexivity. }
    assert (Hchg' : forall x, In x (set_nth id h' (q_chains st)) -> exists g, h_chg x = map (fun _ => g) (cols_of sch Changed)).
    { intros x Hx. apply In_nth_error in Hx as (j & Hj). rewrite nth_error_set_nth in Hj.
      destruct (Nat.eqb id j).
      - destruct (nth_error (q_chains st) j); [|discriminate]. cbn in Hj. injection Hj as <-. eauto.
      - apply Hchg. eapply nth_error_In; eauto. }
    assert (Htemp' : forall i, In i (q_temp st) -> exists c,
               nth_error (set_nth id (chg (out_row sch rows h')) (a_chains ast)) i = Some c /\ void c).
    { intros i Hi. destruct (Htemp i Hi) as (c & Hc & Hv). rewrite nth_error_set_nth.
      destruct (Nat.eqb_spec id i) as [->|]; [|eauto]. exfalso.
      unfold a_hit in Hit. rewrite Hold in Hit. apply (ai_pk _ _ _ _ HA) in Hit as (c' & Hc' & Hn).
      destruct Hv as [_ Hv]. congruence. }
    assert (Hnewk : ch_new (chg r) = if teqb (fkey sch NewPk pks r) (nulls (cols_of sch OldPk)) then None
                                     else Some (fkey sch NewPk pks r)).
    { rewrite Ec. cbn [ch_new]. apply as_key_nulls. apply fkey_length. }
    assert (Hvoid' : (forall r, In r rows -> ~ void (chg r)) -> forall i c,
               nth_error (set_nth id (chg (out_row sch rows h')) (a_chains ast)) i = Some c -> void c ->
               In i (q_temp st) \/ (i = id /\ void (chg (out_row sch rows h')))).
    { intros HV i c Hi Hv. rewrite nth_error_set_nth in Hi. destruct (Nat.eqb_spec id i) as [->|].
      - right. destruct (nth_error (a_chains ast) i); [|discriminate]. cbn in Hi. injection Hi as <-. auto.
      - left. eapply Hvoid; eauto. }
    unfold a_put. rewrite Hnewk.
    destruct (teqb_spec (fkey sch NewPk pks r) (nulls (cols_of sch OldPk))) as [En|Nn]; cbn [negb].
    + rewrite old_tuple.
      destruct (teqb_spec (fkey sch OldPk pks (R (h_old h))) (nulls (cols_of sch OldPk))) as [Eo|No].
      * split; cbn [q_chains q_pk q_temp a_chains a_pk]; auto; [now rewrite Hpk| |].
        2:{ intros HV i c Hi Hv. destruct (Hvoid' HV i c Hi Hv) as [X|[-> _]]; cbn; auto. }
        intros i [<-|Hi]; auto.
        exists (chg (out_row sch rows h')). rewrite nth_error_set_nth, Nat.eqb_refl.
        rewrite Hch, nth_error_map, Hh. split; auto. rewrite Eh'. split; cbn [ch_old ch_new].
        -- rewrite (out_change _ _ Hg). cbn [ch_old]. rewrite as_key_nulls by apply fkey_length.
           destruct (teqb_spec (fkey sch OldPk pks (R (h_old h))) (nulls (cols_of sch OldPk))); congruence.
        -- rewrite Hnewk. destruct (teqb_spec (fkey sch NewPk pks r) (nulls (cols_of sch OldPk))); congruence.
      * split; cbn [q_chains q_pk q_temp a_chains a_pk]; auto; [now rewrite Hpk|].
        intros HV i c Hi Hv. destruct (Hvoid' HV i c Hi Hv) as [X|[-> [X _]]]; auto. exfalso.
        rewrite (out_change _ _ Hg') in X. cbn [ch_old h' h_old] in X. rewrite as_key_nulls in X by apply fkey_length.
        destruct (teqb_spec (fkey sch OldPk pks (R (h_old h))) (nulls (cols_of sch OldPk))); congruence.
    + split; cbn [q_chains q_pk q_temp a_chains a_pk]; auto; [now rewrite Hpk|].
      intros HV i c Hi Hv. destruct (Hvoid' HV i c Hi Hv) as [X|[-> [_ X]]]; auto. exfalso.
      rewrite Eh' in X. cbn [ch_new] in X. rewrite Hnewk in X.
      destruct (teqb_spec (fkey sch NewPk pks r) (nulls (cols_of sch OldPk))); congruence.
  - set (h' := {| h_old := row_id; h_new := row_id; h_chg := map (fun _ => row_id) (cols_of sch Changed) |}).
    assert (Eh' : chg (out_row sch rows h') = chg r).
    { rewrite (out_change h' row_id eq_refl), Ec. reflexivity. }
    assert (Hnewk : ch_new (chg r) = if teqb (fkey sch NewPk pks r) (nulls (cols_of sch OldPk)) then None
                                     else Some (fkey sch NewPk pks r)).
    { rewrite Ec. cbn [ch_new]. apply as_key_nulls. apply fkey_length. }
    split; cbn [q_chains q_pk q_temp a_chains a_pk].
    + rewrite map_app, Hch. cbn [map]. now rewrite Eh'.
    + unfold a_put. rewrite Hnewk.
      destruct (teqb (fkey sch NewPk pks r) (nulls (cols_of sch OldPk))); cbn [negb]; auto.
      rewrite Hch, map_length, Hpk. reflexivity.
    + intros x Hx. apply in_app_or in Hx as [Hx|[<-|[]]]; auto. exists row_id. reflexivity.
    + intros i Hi. destruct (Htemp i Hi) as (c & Hc & Hv). exists c. split; auto.
      rewrite nth_error_app1; auto. apply nth_error_Some. congruence.
    + intros HV i c Hi Hv. destruct (Nat.lt_ge_cases i (length (a_chains ast))) as [Li|Li].
      * rewrite nth_error_app1 in Hi by auto. eapply Hvoid; eauto.
      * rewrite nth_error_app2 in Hi by auto. destruct (i - length (a_chains ast)) as [|d]; cbn in Hi; [|destruct d; discriminate].
        injection Hi as <-. exfalso. exact (HV r Hin Hv).
Qed.

Lemma rows_seq : map (fun j => R j) (seq 0 (length rows)) = rows.
Proof.
  clear. assert (G : forall k pre, length pre = k -> map (fun j => nth j (pre ++ rows) []) (seq k (length rows)) = rows).
  { induction rows as [|r rs IH]; intros k pre L; cbn; auto. f_equal.
    - rewrite app_nth2 by lia. replace (k - length pre) with 0 by lia. reflexivity.
    - rewrite <- (IH (S k) (pre ++ [r])) at 2; [|rewrite app_length; cbn; lia].
      apply map_ext. intros j. now rewrite <- app_assoc. }
  exact (G 0 [] eq_refl).
Qed.

Lemma squash_run w t0 ids : forall t st ast,
  wide w t0 -> length vals = w ->
  RInv st ast -> AInv w t0 t ast -> (forall i, In i ids -> i < length rows) ->
  valid_stream t (map (fun j => chg (R j)) ids) ->
  RInv (fold_left (squash_step sch rows) ids st) (fold_left a_step (map (fun j => chg (R j)) ids) ast).
Proof.
  induction ids as [|i ids IH]; intros t st ast Hw Hv HR HA Hi V; cbn; auto.
  cbn in V. destruct V as [V1 V2].
  eapply IH; eauto.
  - eapply RInv_step; eauto. apply Hi; cbn; auto.
  - apply AInv_step; eauto. unfold change_of. cbn. now rewrite map_length.
  - intros; apply Hi; cbn; auto.
Qed.

Definition final_ast := fold_left a_step (map chg rows) {| a_chains := []; a_pk := [] |}.

Lemma squash_refines w t0 :
  wide w t0 -> length vals = w -> valid_stream t0 (map chg rows) ->
  RInv (squash_loop sch rows (seq 0 (length rows))) final_ast /\
  AInv w t0 (apply_all (map chg rows) t0) final_ast.
Proof.
  intros Hw Hv V. unfold final_ast, squash_loop.
  assert (E : map chg rows = map (fun j => chg (R j)) (seq 0 (length rows))).
  { rewrite <- rows_seq at 1. now rewrite map_map. }
  split.
  - rewrite E. eapply squash_run; eauto.
    + split; cbn; auto; try tauto. intros _ id c Hi. destruct id; discriminate.
    + now apply AInv_init.
    + intros i Hi. apply in_seq in Hi. lia.
    + now rewrite <- E.
  - apply AInv_run; auto; [now apply AInv_init|].
    intros c Hc. apply in_map_iff in Hc as (r & <- & _). cbn. now rewrite map_length.
Qed.

Lemma live_in st h :
  In h (live_chains st) <-> exists i, nth_error (q_chains st) i = Some h /\ ~ In i (q_temp st).
Proof.
  unfold live_chains. rewrite in_map_iff. fold (with_idx (q_chains st)). split.
  - intros ([i h'] & E & Hin). cbn in E. subst h'. apply filter_In in Hin as [Hin Hn].
    apply In_nth_error in Hin as (j & Hj). rewrite nth_error_with_idx in Hj.
    destruct (nth_error (q_chains st) j) eqn:Hq; [|discriminate]. cbn in Hj. injection Hj as <- ->.
    exists j. split; auto. intros Ht. cbn in Hn. apply negb_true_iff in Hn.
    assert (existsb (Nat.eqb j) (q_temp st) = true); [|congruence].
    apply existsb_exists. exists j. split; auto. apply Nat.eqb_refl.
  - intros (i & Hi & Ht). exists (i, h). split; auto. apply filter_In. split.
    + apply (nth_error_In _ i). rewrite nth_error_with_idx, Hi. reflexivity.
    + cbn. apply negb_true_iff. apply not_true_iff_false. intros X. apply existsb_exists in X as (j & Hj & E).
      apply Nat.eqb_eq in E. subst. contradiction.
Qed.
End Sq.

(* a sublist of distinct keys has distinct keys *)
Lemma somes_filter_nodup {A B} (f : A -> option B) (p : A -> bool) l : NoDup (somes f l) -> NoDup (somes f (filter p l)).
Proof.
  induction l as [|x l IH]; cbn; auto. intros H.
  destruct (f x) as [k|] eqn:E; cbn in H.
  - inversion H as [|? ? Hn Hd]; subst. destruct (p x); cbn; auto. rewrite E. cbn. constructor; auto.
    intros X. apply Hn. apply in_somes in X as (a & Ha & Fa). apply in_somes. apply filter_In in Ha as [Ha _]. eauto.
  - destruct (p x); cbn; auto. rewrite E. cbn. auto.
Qed.
Lemma somes_map {A B C} (f : B -> option C) (g : A -> B) l : somes f (map g l) = somes (fun x => f (g x)) l.
Proof. unfold somes. induction l; cbn; auto. now rewrite IHl. Qed.
Lemma map_snd_combine_seq {A} k (l : list A) : map snd (combine (seq k (length l)) l) = l.
Proof. revert k. induction l; intros k; cbn; auto. now rewrite IHl. Qed.

Theorem squash_rows_correct pks vals sch rows out t0 :
  good_schema pks sch ->
  (forall r, In r rows -> good_row pks sch r) ->
  (forall r, In r rows -> flags_alike sch r) ->
  wide (length vals) t0 ->
  valid_stream t0 (map (change_of pks vals sch) rows) ->
  squash_rows sch rows = Some out ->
  at_once (map (change_of pks vals sch) out) t0 (apply_all (map (change_of pks vals sch) rows) t0) /\
  net t0 (map (change_of pks vals sch) out) /\
  (forall r, In r out -> good_row pks sch r) /\
  (forall c, In c (map (change_of pks vals sch) out) -> In c (a_chains (final_ast pks vals sch rows))).
Proof.
  intros Hg Hr Hf Hw V E.
  destruct (squash_refines pks vals sch rows Hg Hr Hf _ t0 Hw eq_refl V) as [HR HA].
  set (chg := change_of pks vals sch) in *.
  unfold squash_rows in E.
  set (st := squash_loop sch rows (seq 0 (length rows))) in *.
  destruct (has_changed sch && _); [discriminate|].
  destruct (negb _); [discriminate|]. injection E as <-.
  set (ast := final_ast pks vals sch rows) in *.
  assert (Hin : forall c, In c (map chg (map (out_row sch rows) (live_chains st))) -> In c (a_chains ast)).
  { intros c Hc. rewrite map_map in Hc. apply in_map_iff in Hc as (h & <- & Hh).
    apply live_in in Hh as (i & Hi & _).
    rewrite (ri_chains _ _ _ _ _ _ HR). apply in_map_iff. exists h. split; auto. eapply nth_error_In; eauto. }
  assert (Hin' : forall c, ~ void c -> In c (a_chains ast) -> In c (map chg (map (out_row sch rows) (live_chains st)))).
  { intros c Nv Hc. rewrite (ri_chains _ _ _ _ _ _ HR) in Hc. apply in_map_iff in Hc as (h & Ec & Hh).
    apply In_nth_error in Hh as (i & Hi). rewrite map_map. apply in_map_iff. exists h. split; auto.
    apply live_in. exists i. split; auto. intros Ht.
    apply (ri_temp _ _ _ _ _ _ HR) in Ht as (c' & Hc' & Hv).
    rewrite (ri_chains _ _ _ _ _ _ HR), nth_error_map, Hi in Hc'. cbn in Hc'. injection Hc' as <-.
    apply Nv. rewrite <- Ec. exact Hv. }
  assert (Hnet := AInv_net _ _ _ _ HA).
  split; [|split; [|split; [|exact Hin]]].
  - eapply at_once_ext; [|exact (ai_sem _ _ _ _ HA)]. intros c Nv. split; auto.
  - split.
    + assert (G : forall f : change -> option (list value), NoDup (somes f (a_chains ast)) ->
                    NoDup (somes f (map chg (map (out_row sch rows) (live_chains st))))).
      { intros f N. rewrite map_map, somes_map. unfold live_chains. rewrite somes_map.
        apply somes_filter_nodup. 
        rewrite (ri_chains _ _ _ _ _ _ HR), somes_map in N.
        rewrite <- (map_snd_combine_seq 0 (q_chains st)), somes_map in N. exact N. }
      destruct (net_one _ _ Hnet) as [N1 N2]. split; apply G; auto.
    + intros c k Hc. apply (net_old _ _ Hnet). auto.
    + intros c k Hc En. destruct (net_new _ _ Hnet c k (Hin c Hc) En) as [F|(c' & Hc' & F)]; auto.
      right. exists c'. split; auto. apply Hin'; auto. intros [X _]. congruence.
  - intros r Ho. apply in_map_iff in Ho as (h & <- & Hh). apply live_in in Hh as (i & Hi & _).
    destruct (ri_chg _ _ _ _ _ _ HR h) as (g & Hgh); [eapply nth_error_In; eauto|].
    split; [apply out_row_length|].
    assert (Hk : forall ro, (ro = OldPk \/ ro = NewPk) -> forall j, whole (fkey sch ro pks (nth j rows []))).
    { intros ro Hro j. destruct (Nat.lt_ge_cases j (length rows)) as [L|L].
      - destruct (Hr (nth j rows [])) as (L' & W1 & W2); [now apply nth_In|].
        rewrite !read_key_fkey in * by (auto; apply Hg). destruct Hro as [->| ->]; auto.
      - rewrite nth_overflow by auto. left. unfold fkey. apply Forall_forall. intros v Hv.
        apply in_map_iff in Hv as (n & <- & _). unfold ocell, cell.
        destruct (find_col sch n ro); auto. destruct n0; reflexivity. }
    rewrite !read_key_fkey by (first [apply Hg|apply out_row_length]).
    assert (Hkk : forall ro j, (ro = OldPk /\ j = h_old h) \/ (ro = NewPk /\ j = h_new h) ->
                            fkey sch ro pks (out_row sch rows h) = fkey sch ro pks (nth j rows [])).
    { intros ro j Hro. unfold fkey. apply map_ext. intros n.
      destruct (find_col sch n ro) as [p|] eqn:Ep; cbn; auto.
      apply find_col_some in Ep as (c & Hc & Hn & Hcr). rewrite (out_row_cell _ _ _ _ _ Hc).
      unfold source_row. cbn. rewrite Hcr. destruct Hro as [[-> ->]|[-> ->]]; reflexivity. }
    rewrite (Hkk OldPk (h_old h)), (Hkk NewPk (h_new h)) by auto. split; apply Hk; auto.
Qed.

(* rows that are inserted and deleted within the batch are not emitted *)
Theorem squash_rows_no_temp pks vals sch rows out t0 :
  good_schema pks sch ->
  (forall r, In r rows -> good_row pks sch r) ->
  (forall r, In r rows -> flags_alike sch r) ->
  wide (length vals) t0 ->
  valid_stream t0 (map (change_of pks vals sch) rows) ->
  (forall r, In r rows -> ~ void (change_of pks vals sch r)) ->
  squash_rows sch rows = Some out ->
  forall r, In r out -> ~ void (change_of pks vals sch r).
Proof.
  intros Hg Hr Hf Hw V NV E r Ho Hv.
  destruct (squash_refines pks vals sch rows Hg Hr Hf _ t0 Hw eq_refl V) as [HR HA].
  unfold squash_rows in E.
  destruct (has_changed sch && _); [discriminate|].
  destruct (negb _); [discriminate|]. injection E as <-.
  apply in_map_iff in Ho as (h & <- & Hh). apply live_in in Hh as (i & Hi & Ht). apply Ht.
  eapply (ri_void _ _ _ _ _ _ HR); eauto. rewrite (ri_chains _ _ _ _ _ _ HR), nth_error_map, Hi. reflexivity.
Qed.
