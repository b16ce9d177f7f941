(* Merging two syncs: the merged rows describe the merged changes. *)
From Coq Require Import List Arith ZArith Bool Lia Permutation.
From Verif Require Import SyncDataModel SyncDataSpec SyncAbsSquash SyncSquashProofs SyncAbsMerge.
Import ListNotations.

(* no assignment of the lower row is hidden by the upper row *)
Definition mergeable (vals : list nat) (lower upper : list column) (l u : list value) : Prop :=
  forall n, In n vals ->
    assigned upper u n <> None \/ assigned lower l n = None \/
    (has_col lower n Changed = false /\ has_col upper n Value = false).

Section M.
Variables (bt : nat) (pks vals : list nat) (lower upper : list column).
Hypothesis GL : good_schema pks lower.
Hypothesis GU : good_schema pks upper.
Let DL : NoDup (descs lower) := proj1 GL.
Let DU : NoDup (descs upper) := proj1 GU.

Notation cols := (merge_join_cols bt lower upper).
Notation M := (map fst cols).
Notation dsc c := (c_role c, c_name c).

Lemma changed_has_value sch n : good_schema pks sch -> has_col sch n Changed = true -> has_col sch n Value = true.
Proof. intros (_ & _ & _ & _ & H & _). rewrite !has_col_names. auto. Qed.
Lemma has_col_in sch c : In c sch -> has_col sch (c_name c) (c_role c) = true.
Proof.
  intros H. apply has_col_names. unfold names_of. apply in_map_iff. exists c. split; auto.
  apply filter_In. split; auto. destruct (role_eqb_spec (c_role c) (c_role c)); auto.
Qed.
Lemma has_col_find sch n ro : has_col sch n ro = true -> exists i c, nth_error sch i = Some c /\ c_name c = n /\ c_role c = ro.
Proof.
  unfold has_col. destruct (find_col sch n ro) as [i|] eqn:E; [|discriminate]. intros _.
  apply find_col_some in E as (c & H). eauto.
Qed.

Definition lower_item (ic : nat * column) : list (column * (option (list value) -> option (list value) -> value)) :=
  let i := fst ic in let c := snd ic in
  match c_role c with
  | OldPk => [(c, join_old_pk i (c_name c) upper)]
  | NewPk => [(c, join_new_pk i (c_name c) upper)]
  | Changed => [(c, join_changed Lower i (c_name c) upper)]
  | Value => (if needs_extra (c_name c) lower upper then [(changed_col bt (c_name c), join_extra Lower)] else [])
             ++ [(c, join_value Lower i (c_name c) upper)]
  end.
Definition seen_lower := map fst (join_lower_cols bt lower upper).
Definition upper_item (ic : nat * column) : list (column * (option (list value) -> option (list value) -> value)) :=
  let i := fst ic in let c := snd ic in
  if existsb (desc_eqb c) seen_lower then []
  else
    match c_role c with
    | Changed => [(c, join_changed Upper i (c_name c) lower)]
    | Value => (if needs_extra (c_name c) upper lower then [(changed_col bt (c_name c), join_extra Upper)] else [])
               ++ [(c, join_value Upper i (c_name c) lower)]
    | _ => []
    end.
Lemma lower_cols_eq : join_lower_cols bt lower upper = flat_map lower_item (with_idx lower).
Proof. reflexivity. Qed.
Lemma upper_cols_eq : join_upper_cols bt lower upper = flat_map upper_item (with_idx upper).
Proof. reflexivity. Qed.

Lemma desc_eqb_spec a b : reflect (dsc a = dsc b) (desc_eqb a b).
Proof.
  unfold desc_eqb. destruct (Nat.eqb_spec (c_name a) (c_name b)), (role_eqb_spec (c_role a) (c_role b));
    constructor; cbn; congruence.
Qed.

(* descriptors contributed by one column *)
Lemma in_lower_desc ic d : In d (map (fun p => dsc (fst p)) (lower_item ic)) <->
  d = dsc (snd ic) \/ (c_role (snd ic) = Value /\ needs_extra (c_name (snd ic)) lower upper = true /\ d = (Changed, c_name (snd ic))).
Proof.
  destruct ic as [i c]. unfold lower_item. cbn [fst snd]. destruct (c_role c) eqn:R; cbn.
  1,2,4: split; [intros [<-|[]]; left; congruence|intros [->|[H _]]; [left; congruence|congruence]].
  destruct (needs_extra (c_name c) lower upper) eqn:E; cbn.
  - split; [intros [<-|[<-|[]]]; [right; auto|left; congruence]|].
    intros [->|(_ & _ & ->)]; [right; left; congruence|left; reflexivity].
  - split; [intros [<-|[]]; left; congruence|]. intros [->|(_ & H & _)]; [left; congruence|discriminate].
Qed.
Lemma in_seen c : existsb (desc_eqb c) seen_lower = true <->
  has_col lower (c_name c) (c_role c) = true \/
  (c_role c = Changed /\ has_col lower (c_name c) Value = true /\ needs_extra (c_name c) lower upper = true).
Proof.
  unfold seen_lower. rewrite existsb_exists, lower_cols_eq. split.
  - intros (d & Hd & E). destruct (desc_eqb_spec c d) as [Ed|]; [|discriminate].
    apply in_map_iff in Hd as (p & <- & Hp). apply in_flat_map in Hp as ([i c'] & Hic & Hp).
    assert (Hin : In (dsc c) (map (fun p => dsc (fst p)) (lower_item (i, c')))).
    { rewrite Ed. apply in_map_iff. eauto. }
    apply in_with_idx in Hic. apply nth_error_In in Hic.
    apply in_lower_desc in Hin as [Hin|(R & X & Hin)]; cbn in *.
    + left. injection Hin as -> ->. now apply has_col_in.
    + right. injection Hin as R' N'. rewrite R', N'. split; auto. split; auto. rewrite <- R. now apply has_col_in.
  - intros H.
    assert (G : exists ic, In ic (with_idx lower) /\ In (dsc c) (map (fun p => dsc (fst p)) (lower_item ic))).
    { destruct H as [H|(R & H & X)]; apply has_col_find in H as (i & c' & Hi & Hn & Hr); exists (i, c'); (split; [now apply in_with_idx|]); apply in_lower_desc; cbn.
      - left. congruence.
      - right. rewrite Hn, R. auto. }
    destruct G as (ic & Hic & G). apply in_map_iff in G as (p & E & Hp).
    exists (fst p). split.
    + apply in_map. apply in_flat_map. eauto.
    + destruct (desc_eqb_spec c (fst p)); congruence.
Qed.
Lemma in_upper_desc ic d : In d (map (fun p => dsc (fst p)) (upper_item ic)) ->
  existsb (desc_eqb (snd ic)) seen_lower = false /\
  ((d = dsc (snd ic) /\ (c_role (snd ic) = Value \/ c_role (snd ic) = Changed)) \/
   (c_role (snd ic) = Value /\ needs_extra (c_name (snd ic)) upper lower = true /\ d = (Changed, c_name (snd ic)))).
Proof.
  destruct ic as [i c]. unfold upper_item. cbn [fst snd]. destruct (existsb (desc_eqb c) seen_lower); [intros []|].
  intros H. split; auto. revert H. destruct (c_role c) eqn:R; cbn; try tauto.
  - destruct (needs_extra (c_name c) upper lower) eqn:E; cbn.
    + intros [<-|[<-|[]]]; [right; auto|left; rewrite R; auto].
    + intros [<-|[]]; left; rewrite R; auto.
  - intros [<-|[]]; left; rewrite R; auto.
Qed.

Lemma in_upper_desc_back i c :
  nth_error upper i = Some c -> existsb (desc_eqb c) seen_lower = false -> (c_role c = Value \/ c_role c = Changed) ->
  In (dsc c) (map (fun p => dsc (fst p)) (upper_item (i, c))) /\
  (c_role c = Value -> needs_extra (c_name c) upper lower = true -> In (Changed, c_name c) (map (fun p => dsc (fst p)) (upper_item (i, c)))).
Proof.
  intros Hi Hs Hr. unfold upper_item. cbn [fst snd]. rewrite Hs. destruct Hr as [R|R]; rewrite R; cbn; rewrite ?R.
  - split.
    + rewrite map_app, in_app_iff. right. cbn. rewrite R. auto.
    + intros _ ->. cbn. auto.
  - split; auto; discriminate.
Qed.

Lemma nodup_item_lower ic : NoDup (map (fun p => dsc (fst p)) (lower_item ic)).
Proof.
  destruct ic as [i c]. unfold lower_item. cbn [fst snd]. destruct (c_role c) eqn:R; cbn.
  1,2,4: constructor; [intros []|constructor].
  destruct (needs_extra (c_name c) lower upper); cbn.
  - constructor; [|constructor; [intros []|constructor]]. cbn. intros [E|[]]. congruence.
  - constructor; [intros []|constructor].
Qed.
Lemma nodup_item_upper ic : NoDup (map (fun p => dsc (fst p)) (upper_item ic)).
Proof.
  destruct ic as [i c]. unfold upper_item. cbn [fst snd]. destruct (existsb _ _); [constructor|].
  destruct (c_role c) eqn:R; cbn; try (constructor; [intros []|constructor]); try constructor.
  destruct (needs_extra (c_name c) upper lower); cbn.
  - constructor; [|constructor; [intros []|constructor]]. cbn. intros [E|[]]. congruence.
  - constructor; [intros []|constructor].
Qed.

Lemma dsc_inj sch i j c d : NoDup (descs sch) -> nth_error sch i = Some c -> nth_error sch j = Some d -> dsc c = dsc d -> (i, c) = (j, d).
Proof.
  intros H Hi Hj E. assert (i = j).
  { apply (nodup_nth (descs sch) i j (dsc c) H); rewrite nth_error_map; [rewrite Hi|rewrite Hj]; cbn; congruence. }
  subst. congruence.
Qed.
Lemma needs_extra_true n this other : needs_extra n this other = true <-> has_col other n Value = false /\ has_col this n Changed = false.
Proof. unfold needs_extra. destruct (has_col other n Value), (has_col this n Changed); cbn; intuition discriminate. Qed.

Lemma map_dsc_flat_map {A B} (f : A -> list (column * B)) l :
  map (fun p => dsc (fst p)) (flat_map f l) = flat_map (fun x => map (fun p => dsc (fst p)) (f x)) l.
Proof. apply map_flat_map. Qed.

Lemma merged_nodup : NoDup (descs M).
Proof.
  rewrite map_map. unfold merge_join_cols. rewrite map_app, lower_cols_eq, upper_cols_eq, !map_dsc_flat_map.
  apply nodup_app.
  - apply nodup_flat_map; [apply with_idx_nodup|intros; apply nodup_item_lower|].
    intros [i c] [j d] x Ha Hb Hx Hy. apply in_with_idx in Ha, Hb. apply in_lower_desc in Hx, Hy. cbn [fst snd] in *.
    assert (Hca : In c lower) by (eapply nth_error_In; eauto). assert (Hdb : In d lower) by (eapply nth_error_In; eauto).
    destruct Hx as [->|(R & X & ->)], Hy as [E|(R' & X' & E)].
    + apply (dsc_inj lower); auto.
    + exfalso. apply needs_extra_true in X' as [_ X']. apply has_col_in in Hca. injection E as E1 E2. congruence.
    + exfalso. apply needs_extra_true in X as [_ X]. apply has_col_in in Hdb. injection E as E1 E2. congruence.
    + apply (dsc_inj lower); auto. injection E as E; congruence.
  - apply nodup_flat_map; [apply with_idx_nodup|intros; apply nodup_item_upper|].
    intros [i c] [j d] x Ha Hb Hx Hy. apply in_with_idx in Ha, Hb. apply in_upper_desc in Hx as [_ Hx], Hy as [_ Hy]. cbn [fst snd] in *.
    assert (Hca : In c upper) by (eapply nth_error_In; eauto). assert (Hdb : In d upper) by (eapply nth_error_In; eauto).
    destruct Hx as [[-> _]|(R & X & ->)], Hy as [[E _]|(R' & X' & E)].
    + apply (dsc_inj upper); auto.
    + exfalso. apply needs_extra_true in X' as [_ X']. apply has_col_in in Hca. injection E as E1 E2. congruence.
    + exfalso. apply needs_extra_true in X as [_ X]. apply has_col_in in Hdb. injection E as E1 E2. congruence.
    + apply (dsc_inj upper); auto. injection E as E; congruence.
  - intros x Hx Hy. apply in_flat_map in Hx as ([i c] & Ha & Hx). apply in_flat_map in Hy as ([j d] & Hb & Hy).
    apply in_with_idx in Ha, Hb. apply in_lower_desc in Hx. apply in_upper_desc in Hy as [S Hy]. cbn [fst snd] in *.
    assert (Hca : In c lower) by (eapply nth_error_In; eauto). assert (Hdb : In d upper) by (eapply nth_error_In; eauto).
    assert (S' : ~ (has_col lower (c_name d) (c_role d) = true \/
                  (c_role d = Changed /\ has_col lower (c_name d) Value = true /\ needs_extra (c_name d) lower upper = true))).
    { rewrite <- in_seen. congruence. }
    destruct Hx as [->|(R & X & ->)], Hy as [[E _]|(R' & X' & E)].
    + apply S'. left. injection E as E1 E2. rewrite <- E1, <- E2. now apply has_col_in.
    + apply needs_extra_true in X' as [X' _]. injection E as E1 E2.
      pose proof (has_col_in _ _ Hca) as Y. rewrite E1, E2 in Y. apply (changed_has_value _ _ GL) in Y. congruence.
    + apply S'. right. injection E as E1 E2. rewrite <- E1, <- E2. split; auto. split; auto. rewrite <- R. now apply has_col_in.
    + apply needs_extra_true in X' as [X' _]. injection E as E2.
      pose proof (has_col_in _ _ Hca) as Y. rewrite R, E2 in Y. congruence.
Qed.

(* reading the merged row *)
Definition proj_row (lu : option (list value) * option (list value)) : list value := map (fun p => snd p (fst lu) (snd lu)) cols.
Lemma proj_row_length lu : length (proj_row lu) = length M.
Proof. unfold proj_row. now rewrite !map_length. Qed.
Lemma find_hit {A} (p : A -> bool) l x : In x l -> p x = true -> (forall y, In y l -> p y = true -> y = x) -> find p l = Some x.
Proof.
  induction l as [|y l IH]; cbn; [tauto|]. intros Hin Hp Hu. destruct (p y) eqn:E.
  - f_equal. apply Hu; auto.
  - apply IH; auto. destruct Hin as [->|]; auto. congruence.
Qed.
Lemma combine_map2 {A B C} (f : A -> B) (g : A -> C) l : combine (map f l) (map g l) = map (fun x => (f x, g x)) l.
Proof. induction l; cbn; auto. now rewrite IHl. Qed.
Lemma find_map {A B} (p : B -> bool) (f : A -> B) l : find p (map f l) = option_map f (find (fun x => p (f x)) l).
Proof. induction l; cbn; auto. destruct (p (f a)); auto. Qed.

Lemma read_cols lu ro n :
  read M (proj_row lu) ro n =
  option_map (fun p => snd p (fst lu) (snd lu)) (find (fun p => Nat.eqb (c_name (fst p)) n && role_eqb (c_role (fst p)) ro) cols).
Proof.
  unfold read, proj_row. spec_helpers. rewrite combine_map2, find_map. cbn.
  match goal with |- context [find ?p ?l] => destruct (find p l); reflexivity end.
Qed.
Lemma read_in lu c f : In (c, f) cols -> read M (proj_row lu) (c_role c) (c_name c) = Some (f (fst lu) (snd lu)).
Proof.
  intros H. rewrite read_cols.
  assert (E : find (fun p => Nat.eqb (c_name (fst p)) (c_name c) && role_eqb (c_role (fst p)) (c_role c)) cols = Some (c, f)).
  { apply In_nth_error in H as (i & Hi).
    destruct (find _ cols) as [p|] eqn:E.
    - pose proof (find_some _ _ E) as [Hp Hd]. apply andb_true_iff in Hd as [Hn Hr].
      apply Nat.eqb_eq in Hn. destruct (role_eqb_spec (c_role (fst p)) (c_role c)) as [Hr'|]; [|discriminate].
      apply In_nth_error in Hp as (j & Hj).
      assert (i = j).
      { eapply (nodup_nth (descs M) i j (dsc c) merged_nodup); rewrite !nth_error_map; [rewrite Hi|rewrite Hj]; cbn; congruence. }
      subst. congruence.
    - exfalso. pose proof (find_none _ _ E (c, f) (nth_error_In _ _ Hi)) as X. cbn in X.
      rewrite Nat.eqb_refl in X. destruct (c_role c); discriminate. }
  rewrite E. reflexivity.
Qed.
Lemma read_out lu ro n : (forall c f, In (c, f) cols -> ~ (c_role c = ro /\ c_name c = n)) -> read M (proj_row lu) ro n = None.
Proof.
  intros H. rewrite read_cols. destruct (find _ cols) as [[c f]|] eqn:E; auto. exfalso.
  apply find_some in E as [Hp Hd]. apply andb_true_iff in Hd as [Hn Hr]. apply Nat.eqb_eq in Hn.
  cbn in *. destruct (role_eqb_spec (c_role c) ro); [|discriminate]. eapply H; eauto.
Qed.

Lemma in_cols_lower i c p : nth_error lower i = Some c -> In p (lower_item (i, c)) -> In p cols.
Proof. intros Hi Hp. unfold merge_join_cols. apply in_or_app. left. rewrite lower_cols_eq. apply in_flat_map. exists (i, c). split; auto. now apply in_with_idx. Qed.
Lemma in_cols_upper i c p : nth_error upper i = Some c -> In p (upper_item (i, c)) -> In p cols.
Proof. intros Hi Hp. unfold merge_join_cols. apply in_or_app. right. rewrite upper_cols_eq. apply in_flat_map. exists (i, c). split; auto. now apply in_with_idx. Qed.
Lemma in_cols_inv c f : In (c, f) cols ->
  (exists i d, nth_error lower i = Some d /\ In (dsc c) (map (fun p => dsc (fst p)) (lower_item (i, d)))) \/
  (exists i d, nth_error upper i = Some d /\ In (dsc c) (map (fun p => dsc (fst p)) (upper_item (i, d)))).
Proof.
  unfold merge_join_cols. rewrite in_app_iff, lower_cols_eq, upper_cols_eq, !in_flat_map.
  intros [([i d] & Hd & H)|([i d] & Hd & H)]; apply in_with_idx in Hd; [left|right]; exists i, d; (split; auto); apply in_map_iff; exists (c, f); auto.
Qed.

(* which columns the merged schema has *)
Lemma merged_value n : (exists c f, In (c, f) cols /\ c_role c = Value /\ c_name c = n) <->
  has_col lower n Value = true \/ has_col upper n Value = true.
Proof.
  split.
  - intros (c & f & Hin & R & N). apply in_cols_inv in Hin as [(i & d & Hd & H)|(i & d & Hd & H)].
    + apply in_lower_desc in H as [H|(_ & _ & H)]; cbn in H; [|congruence].
      left. apply nth_error_In in Hd. apply has_col_in in Hd. congruence.
    + apply in_upper_desc in H as [_ [[H _]|(_ & _ & H)]]; cbn in H; [|congruence].
      right. apply nth_error_In in Hd. apply has_col_in in Hd. congruence.
  - intros H. destruct (has_col lower n Value) eqn:EL.
    + apply has_col_find in EL as (i & c & Hi & Hn & Hr).
      exists c, (join_value Lower i (c_name c) upper). split; auto. eapply in_cols_lower; eauto.
      unfold lower_item. cbn. rewrite Hr. apply in_or_app. right. cbn. auto.
    + destruct H as [H|H]; [discriminate|]. apply has_col_find in H as (i & c & Hi & Hn & Hr).
      exists c, (join_value Upper i (c_name c) lower). split; auto. eapply in_cols_upper; eauto.
      unfold upper_item. cbn. destruct (existsb (desc_eqb c) seen_lower) eqn:S.
      * exfalso. apply in_seen in S as [S|(S & _)]; congruence.
      * rewrite Hr. apply in_or_app. right. cbn. auto.
Qed.

Lemma read_old lu n : In n pks ->
  read M (proj_row lu) OldPk n = Some (match lu with
    | (Some l, _) => ocell (find_col lower n OldPk) (Some l)
    | (None, u) => ocell (find_col upper n OldPk) u end).
Proof.
  intros Hn. pose proof GL as (_ & EO & _). rewrite <- EO in Hn. apply has_col_names in Hn.
  apply has_col_find in Hn as (i & c & Hi & Hn & Hr).
  assert (Hin : In (c, join_old_pk i (c_name c) upper) cols).
  { eapply in_cols_lower; eauto. unfold lower_item. cbn. rewrite Hr. cbn. auto. }
  apply (read_in lu) in Hin. rewrite Hr, Hn in Hin. rewrite Hin. f_equal. unfold join_old_pk.
  pose proof (find_col_at _ _ _ DL Hi) as F. rewrite Hr, Hn in F.
  destruct lu as [[l|] [u|]]; cbn [fst snd missing]; try (rewrite F; reflexivity); auto.
  cbn. destruct (find_col upper n OldPk); reflexivity.
Qed.
Lemma read_new lu n : In n pks ->
  read M (proj_row lu) NewPk n = Some (match lu with
    | (_, Some u) => ocell (find_col upper n NewPk) (Some u)
    | (l, None) => ocell (find_col lower n NewPk) l end).
Proof.
  intros Hn. pose proof GL as (_ & _ & EN & _). rewrite <- EN in Hn. apply has_col_names in Hn.
  apply has_col_find in Hn as (i & c & Hi & Hn & Hr).
  assert (Hin : In (c, join_new_pk i (c_name c) upper) cols).
  { eapply in_cols_lower; eauto. unfold lower_item. cbn. rewrite Hr. cbn. auto. }
  apply (read_in lu) in Hin. rewrite Hr, Hn in Hin. rewrite Hin. f_equal. unfold join_new_pk.
  pose proof (find_col_at _ _ _ DL Hi) as F. rewrite Hr, Hn in F.
  destruct lu as [[l|] [u|]]; cbn [fst snd missing]; try (rewrite F; reflexivity); auto.
Qed.

(* value and flag of a column *)
Lemma read_value_lower lu n i : find_col lower n Value = Some i ->
  read M (proj_row lu) Value n = Some (join_value Lower i n upper (fst lu) (snd lu)).
Proof.
  intros F. pose proof F as F'. apply find_col_some in F' as (c & Hi & Hn & Hr).
  assert (Hin : In (c, join_value Lower i (c_name c) upper) cols).
  { eapply in_cols_lower; eauto. unfold lower_item. cbn. rewrite Hr. apply in_or_app. right. cbn. auto. }
  apply (read_in lu) in Hin. now rewrite Hr, Hn in Hin.
Qed.
Lemma read_value_upper lu n i : find_col lower n Value = None -> find_col upper n Value = Some i ->
  read M (proj_row lu) Value n = Some (join_value Upper i n lower (fst lu) (snd lu)).
Proof.
  intros FL F. pose proof F as F'. apply find_col_some in F' as (c & Hi & Hn & Hr).
  assert (Hin : In (c, join_value Upper i (c_name c) lower) cols).
  { eapply in_cols_upper; eauto. unfold upper_item. cbn. destruct (existsb (desc_eqb c) seen_lower) eqn:S.
    - exfalso. apply in_seen in S as [S|(S & _)]; [|congruence]. unfold has_col in S. rewrite Hn, Hr, FL in S. discriminate.
    - rewrite Hr. apply in_or_app. right. cbn. auto. }
  apply (read_in lu) in Hin. now rewrite Hr, Hn in Hin.
Qed.
Lemma read_value_none lu n : find_col lower n Value = None -> find_col upper n Value = None -> read M (proj_row lu) Value n = None.
Proof.
  intros FL FU. apply read_out. intros c f Hin [R N].
  assert (H : has_col lower n Value = true \/ has_col upper n Value = true) by (apply merged_value; eauto).
  unfold has_col in H. rewrite FL, FU in H. destruct H; discriminate.
Qed.

Lemma read_flag_lower lu n j : find_col lower n Changed = Some j ->
  read M (proj_row lu) Changed n = Some (join_changed Lower j n upper (fst lu) (snd lu)).
Proof.
  intros F. pose proof F as F'. apply find_col_some in F' as (c & Hi & Hn & Hr).
  assert (Hin : In (c, join_changed Lower j (c_name c) upper) cols).
  { eapply in_cols_lower; eauto. unfold lower_item. cbn. rewrite Hr. cbn. auto. }
  apply (read_in lu) in Hin. now rewrite Hr, Hn in Hin.
Qed.
Lemma read_flag_extra_lower lu n i : find_col lower n Value = Some i -> find_col lower n Changed = None -> find_col upper n Value = None ->
  read M (proj_row lu) Changed n = Some (join_extra Lower (fst lu) (snd lu)).
Proof.
  intros F FC FU. apply find_col_some in F as (c & Hi & Hn & Hr).
  assert (Hin : In (changed_col bt (c_name c), join_extra Lower) cols).
  { eapply in_cols_lower; eauto. unfold lower_item. cbn. rewrite Hr.
    assert (X : needs_extra (c_name c) lower upper = true).
    { apply needs_extra_true. unfold has_col. rewrite Hn, FC, FU. auto. }
    rewrite X. cbn. auto. }
  apply (read_in lu) in Hin. cbn in Hin. now rewrite Hn in Hin.
Qed.
Lemma not_seen_changed c : c_role c = Changed -> find_col lower (c_name c) Changed = None ->
  (has_col upper (c_name c) Value = true) -> existsb (desc_eqb c) seen_lower = false.
Proof.
  intros Hr F HU. destruct (existsb (desc_eqb c) seen_lower) eqn:S; auto. exfalso.
  apply in_seen in S as [S|(_ & _ & S)].
  - unfold has_col in S. rewrite Hr, F in S. discriminate.
  - apply needs_extra_true in S as [S _]. congruence.
Qed.
Lemma read_flag_upper lu n j : find_col lower n Changed = None -> find_col upper n Changed = Some j ->
  read M (proj_row lu) Changed n = Some (join_changed Upper j n lower (fst lu) (snd lu)).
Proof.
  intros FL F. pose proof F as F'. apply find_col_some in F' as (c & Hi & Hn & Hr).
  assert (Hin : In (c, join_changed Upper j (c_name c) lower) cols).
  { eapply in_cols_upper; eauto. unfold upper_item. cbn.
    rewrite not_seen_changed; auto; [|now rewrite Hn|].
    - rewrite Hr. cbn. auto.
    - apply (changed_has_value _ _ GU). unfold has_col. rewrite Hn, F. reflexivity. }
  apply (read_in lu) in Hin. now rewrite Hr, Hn in Hin.
Qed.
Lemma read_flag_extra_upper lu n i : find_col lower n Value = None -> find_col upper n Value = Some i -> find_col upper n Changed = None ->
  read M (proj_row lu) Changed n = Some (join_extra Upper (fst lu) (snd lu)).
Proof.
  intros FL F FC. apply find_col_some in F as (c & Hi & Hn & Hr).
  assert (Hin : In (changed_col bt (c_name c), join_extra Upper) cols).
  { eapply in_cols_upper; eauto. unfold upper_item. cbn. destruct (existsb (desc_eqb c) seen_lower) eqn:S.
    - exfalso. apply in_seen in S as [S|(S & _)]; [|congruence]. unfold has_col in S. rewrite Hn, Hr, FL in S. discriminate.
    - rewrite Hr.
      assert (X : needs_extra (c_name c) upper lower = true).
      { apply needs_extra_true. unfold has_col. rewrite Hn, FC, FL. auto. }
      rewrite X. cbn. auto. }
  apply (read_in lu) in Hin. cbn in Hin. now rewrite Hn in Hin.
Qed.
Lemma read_flag_none lu n : find_col lower n Changed = None -> find_col upper n Changed = None ->
  (find_col lower n Value <> None -> find_col upper n Value <> None) ->
  (find_col upper n Value <> None -> find_col lower n Value <> None) ->
  read M (proj_row lu) Changed n = None.
Proof.
  intros FL FU E1 E2. apply read_out. intros c f Hin [R N].
  apply in_cols_inv in Hin as [(i & d & Hd & H)|(i & d & Hd & H)]; apply nth_error_In in Hd; apply has_col_in in Hd.
  - apply in_lower_desc in H as [H|(R' & X & H)]; cbn in H.
    + unfold has_col in Hd. replace (c_name d) with n in Hd by congruence. replace (c_role d) with Changed in Hd by congruence.
      rewrite FL in Hd. discriminate.
    + apply needs_extra_true in X as [X _]. unfold has_col in Hd, X. cbn in R', X. rewrite R' in Hd.
      replace (c_name d) with n in * by congruence.
      destruct (find_col lower n Value); [|discriminate]. destruct (find_col upper n Value); [discriminate|].
      apply E1; congruence.
  - apply in_upper_desc in H as [_ [[H _]|(R' & X & H)]]; cbn in H.
    + unfold has_col in Hd. replace (c_name d) with n in Hd by congruence. replace (c_role d) with Changed in Hd by congruence.
      rewrite FU in Hd. discriminate.
    + apply needs_extra_true in X as [X _]. unfold has_col in Hd, X. cbn in R', X. rewrite R' in Hd.
      replace (c_name d) with n in * by congruence.
      destruct (find_col upper n Value); [|discriminate]. destruct (find_col lower n Value); [discriminate|].
      apply E2; congruence.
Qed.

Lemma find_changed_value sch n j : good_schema pks sch -> find_col sch n Changed = Some j -> exists i, find_col sch n Value = Some i.
Proof.
  intros G F. assert (H : has_col sch n Value = true).
  { apply (changed_has_value _ _ G). unfold has_col. now rewrite F. }
  unfold has_col in H. destruct (find_col sch n Value); [eauto|discriminate].
Qed.

(* the assignment of the merged row *)
Lemma merged_assigned lu n :
  (forall l, fst lu = Some l -> length l = length lower) ->
  (forall u, snd lu = Some u -> length u = length upper) ->
  (forall l u, lu = (Some l, Some u) -> assigned upper u n <> None \/ assigned lower l n = None \/
                 (has_col lower n Changed = false /\ has_col upper n Value = false)) ->
  assigned M (proj_row lu) n =
  match lu with
  | (Some l, None) => assigned lower l n
  | (None, Some u) => assigned upper u n
  | (Some l, Some u) => match assigned upper u n with Some v => Some v | None => assigned lower l n end
  | (None, None) => assigned M (proj_row lu) n
  end.
Proof.
  intros Ll Lu Hm.
  assert (EL : forall l, fst lu = Some l -> assigned lower l n = fset lower l l n) by (intros; apply assigned_fset; auto).
  assert (EU : forall u, snd lu = Some u -> assigned upper u n = fset upper u u n) by (intros; apply assigned_fset; auto).
  destruct lu as [[l|] [u|]]; auto; cbn [fst snd] in *.
  - (* both *)
    specialize (Hm l u eq_refl). rewrite (EL l eq_refl), (EU u eq_refl) in *. unfold fset, assigned, has_col in *. spec_helpers.
    destruct (find_col lower n Value) as [i|] eqn:FL.
    + rewrite (read_value_lower _ _ _ FL). cbn [fst snd].
      destruct (find_col upper n Value) as [i'|] eqn:FU.
      * destruct (find_col lower n Changed) as [j|] eqn:CL.
        -- rewrite (read_flag_lower _ _ _ CL). cbn [fst snd]. unfold join_value, join_changed, has_col. cbn [missing]. rewrite FU.
           destruct (find_col upper n Changed) as [j'|]; cbn [ocell].
           ++ destruct (is_true (cell j' u)); auto. destruct Hm as [Hm|[Hm|[_ Hm]]]; congruence.
           ++ reflexivity.
        -- destruct (find_col upper n Changed) as [j'|] eqn:CU.
           ++ rewrite (read_flag_upper _ _ _ CL CU). cbn [fst snd]. unfold join_value, join_changed, has_col. cbn [missing]. rewrite FU, CL, FL. cbn [ocell].
              destruct (is_true (cell j' u)); auto. destruct Hm as [Hm|[Hm|[_ Hm]]]; congruence.
           ++ rewrite read_flag_none; try congruence; auto. unfold join_value, has_col. cbn [missing]. rewrite FU. reflexivity.
      * destruct (find_col lower n Changed) as [j|] eqn:CL.
        -- rewrite (read_flag_lower _ _ _ CL). cbn [fst snd]. unfold join_value, join_changed, has_col. cbn [missing]. rewrite FU.
           destruct (find_col upper n Changed) as [j'|] eqn:CU.
           { exfalso. apply (find_changed_value _ _ _ GU) in CU as (? & ?). congruence. }
           cbn. destruct (is_true (cell j l)); auto. destruct Hm as [Hm|[Hm|[Hm _]]]; congruence.
        -- rewrite (read_flag_extra_lower _ _ _ FL CL FU). unfold join_value, join_extra, has_col. cbn [missing fst snd]. rewrite FU. reflexivity.
    + destruct (find_col lower n Changed) as [j|] eqn:CL.
      { exfalso. apply (find_changed_value _ _ _ GL) in CL as (? & ?). congruence. }
      destruct (find_col upper n Value) as [i'|] eqn:FU.
      * rewrite (read_value_upper _ _ _ FL FU). cbn [fst snd]. unfold join_value, has_col. cbn [missing]. rewrite FL.
        destruct (find_col upper n Changed) as [j'|] eqn:CU.
        -- rewrite (read_flag_upper _ _ _ CL CU). cbn [fst snd]. unfold join_changed, has_col. cbn [missing]. rewrite CL, FL. cbn [ocell].
           destruct (is_true (cell j' u)); auto.
        -- rewrite (read_flag_extra_upper _ _ _ FL FU CU). reflexivity.
      * rewrite (read_value_none _ _ FL FU). reflexivity.
  - (* lower only *)
    rewrite (EL l eq_refl). unfold fset, assigned. spec_helpers.
    destruct (find_col lower n Value) as [i|] eqn:FL.
    + rewrite (read_value_lower _ _ _ FL). cbn [fst snd]. unfold join_value. cbn [missing ocell].
      destruct (find_col lower n Changed) as [j|] eqn:CL.
      * rewrite (read_flag_lower _ _ _ CL). cbn [fst snd]. unfold join_changed. cbn [missing ocell]. reflexivity.
      * destruct (find_col upper n Value) as [i'|] eqn:FU.
        -- destruct (find_col upper n Changed) as [j'|] eqn:CU.
           ++ rewrite (read_flag_upper _ _ _ CL CU). cbn [fst snd]. unfold join_changed, has_col. cbn [missing ocell]. rewrite CL, FL. reflexivity.
           ++ rewrite read_flag_none; try congruence; auto.
        -- rewrite (read_flag_extra_lower _ _ _ FL CL FU). reflexivity.
    + destruct (find_col lower n Changed) as [j|] eqn:CL.
      { exfalso. apply (find_changed_value _ _ _ GL) in CL as (? & ?). congruence. }
      destruct (find_col upper n Value) as [i'|] eqn:FU.
      * rewrite (read_value_upper _ _ _ FL FU).
        destruct (find_col upper n Changed) as [j'|] eqn:CU.
        -- rewrite (read_flag_upper _ _ _ CL CU). cbn [fst snd]. unfold join_changed, has_col. cbn [missing ocell]. rewrite CL, FL. reflexivity.
        -- rewrite (read_flag_extra_upper _ _ _ FL FU CU). reflexivity.
      * rewrite (read_value_none _ _ FL FU). reflexivity.
  - (* upper only *)
    rewrite (EU u eq_refl). unfold fset, assigned. spec_helpers.
    destruct (find_col lower n Value) as [i|] eqn:FL.
    + rewrite (read_value_lower _ _ _ FL). cbn [fst snd]. unfold join_value, has_col. cbn [missing ocell].
      destruct (find_col upper n Value) as [i'|] eqn:FU.
      * destruct (find_col lower n Changed) as [j|] eqn:CL.
        -- rewrite (read_flag_lower _ _ _ CL). cbn [fst snd]. unfold join_changed, has_col. cbn [missing ocell]. rewrite FU.
           destruct (find_col upper n Changed) as [j'|]; reflexivity.
        -- destruct (find_col upper n Changed) as [j'|] eqn:CU.
           ++ rewrite (read_flag_upper _ _ _ CL CU). reflexivity.
           ++ rewrite read_flag_none; try congruence; auto.
      * destruct (find_col lower n Changed) as [j|] eqn:CL.
        -- rewrite (read_flag_lower _ _ _ CL). cbn [fst snd]. unfold join_changed, has_col. cbn [missing ocell]. rewrite FU.
           destruct (find_col upper n Changed) as [j'|] eqn:CU; [|reflexivity].
           exfalso. apply (find_changed_value _ _ _ GU) in CU as (? & ?). congruence.
        -- rewrite (read_flag_extra_lower _ _ _ FL CL FU). reflexivity.
    + destruct (find_col lower n Changed) as [j|] eqn:CL.
      { exfalso. apply (find_changed_value _ _ _ GL) in CL as (? & ?). congruence. }
      destruct (find_col upper n Value) as [i'|] eqn:FU.
      * rewrite (read_value_upper _ _ _ FL FU). cbn [fst snd]. unfold join_value. cbn [missing ocell].
        destruct (find_col upper n Changed) as [j'|] eqn:CU.
        -- rewrite (read_flag_upper _ _ _ CL CU). reflexivity.
        -- rewrite (read_flag_extra_upper _ _ _ FL FU CU). reflexivity.
      * rewrite (read_value_none _ _ FL FU). reflexivity.
Qed.

(* the merged schema is well-formed *)
Lemma filter_flat_map {A B} (p : B -> bool) (f : A -> list B) l : filter p (flat_map f l) = flat_map (fun x => filter p (f x)) l.
Proof. induction l; cbn; auto. now rewrite filter_app, IHl. Qed.
Lemma merged_names ro : (ro = OldPk \/ ro = NewPk) -> names_of M ro = names_of lower ro.
Proof.
  intros Hro. unfold names_of. rewrite filter_map, map_map. unfold merge_join_cols.
  rewrite filter_app, map_app, lower_cols_eq, upper_cols_eq, !filter_flat_map, !map_flat_map.
  match goal with |- ?a ++ ?b = _ => assert (E2 : b = []) end.
  { assert (G : forall l, flat_map (fun ic => map (fun x => c_name (fst x)) (filter (fun x => role_eqb (c_role (fst x)) ro) (upper_item ic))) l = []).
    { induction l as [|[i c] l IH]; auto. cbn [flat_map]. rewrite IH, app_nil_r. unfold upper_item. cbn [fst snd].
      destruct (existsb _ _); auto. destruct (c_role c) eqn:R; auto.
      - destruct (needs_extra _ _ _); cbn; rewrite ?R; destruct Hro as [-> | ->]; reflexivity.
      - cbn. rewrite R. destruct Hro as [-> | ->]; reflexivity. }
    apply G. }
  rewrite E2, app_nil_r. rewrite <- (with_idx_snd lower) at 2. rewrite filter_map, map_map.
  assert (G : forall l : list (nat * column), flat_map (fun ic => map (fun x => c_name (fst x)) (filter (fun x => role_eqb (c_role (fst x)) ro) (lower_item ic))) l
                  = map (fun x => c_name (snd x)) (filter (fun x => role_eqb (c_role (snd x)) ro) l)).
  { induction l as [|[i c] l IH]; auto. cbn [flat_map filter]. rewrite IH. unfold lower_item. cbn [fst snd].
    destruct (c_role c) eqn:R; try (cbn; rewrite R; destruct Hro as [-> | ->]; reflexivity).
    destruct (needs_extra _ _ _); cbn; rewrite ?R; destruct Hro as [-> | ->]; reflexivity. }
  apply G.
Qed.
Lemma in_names_merged n ro : In n (names_of M ro) <-> exists c f, In (c, f) cols /\ c_role c = ro /\ c_name c = n.
Proof.
  unfold names_of. rewrite in_map_iff. split.
  - intros (c & Hn & Hc). apply filter_In in Hc as [Hc Hr]. apply in_map_iff in Hc as ([c' f] & E & Hc). cbn in E. subst c'.
    exists c, f. destruct (role_eqb_spec (c_role c) ro); [auto|discriminate].
  - intros (c & f & Hin & R & N). exists c. split; auto. apply filter_In. split.
    + apply in_map_iff. exists (c, f). auto.
    + destruct (role_eqb_spec (c_role c) ro); auto.
Qed.
Lemma merged_good : good_schema pks M.
Proof.
  pose proof GL as (_ & EO & EN & NE & HC & HV). pose proof GU as (_ & EO' & EN' & _ & HC' & HV').
  split; [exact merged_nodup|].
  rewrite !merged_names by auto. split; auto. split; auto. split; auto. split.
  - intros n Hn. apply in_names_merged in Hn as (c & f & Hin & R & N).
    apply in_names_merged. apply merged_value.
    apply in_cols_inv in Hin as [(i & d & Hd & H)|(i & d & Hd & H)]; apply nth_error_In in Hd; apply has_col_in in Hd.
    + left. apply in_lower_desc in H as [H|(R' & X & H)]; cbn in H.
      * apply (changed_has_value _ _ GL). congruence.
      * cbn in R'. congruence.
    + right. apply in_upper_desc in H as [_ [[H _]|(R' & X & H)]]; cbn in H.
      * apply (changed_has_value _ _ GU). congruence.
      * cbn in R'. congruence.
  - intros n Hn Hv. apply in_names_merged in Hv. apply merged_value in Hv as [Hv|Hv]; apply has_col_names in Hv.
    + eapply HV; eauto.
    + eapply HV'; eauto.
Qed.

(* the change described by a merged row *)
Notation chL := (change_of pks vals lower).
Notation chU := (change_of pks vals upper).
Lemma merged_change lu :
  (forall l, fst lu = Some l -> length l = length lower) ->
  (forall u, snd lu = Some u -> length u = length upper) ->
  (forall l u, lu = (Some l, Some u) -> mergeable vals lower upper l u) ->
  lu <> (None, None) ->
  change_of pks vals M (proj_row lu) = amk (option_map chL (fst lu), option_map chU (snd lu)).
Proof.
  intros Ll Lu Hm Hne.
  assert (KO : read_key M (proj_row lu) OldPk pks =
               match lu with (Some l, _) => read_key lower l OldPk pks | (None, Some u) => read_key upper u OldPk pks | _ => [] end).
  { destruct lu as [[l|] [u|]]; try congruence; cbn [fst snd] in *.
    1,2: rewrite (read_key_fkey lower); auto. 3: rewrite (read_key_fkey upper); auto.
    all: unfold read_key, fkey; apply map_ext_in; intros n Hn; rewrite read_old; auto. }
  assert (KN : read_key M (proj_row lu) NewPk pks =
               match lu with (_, Some u) => read_key upper u NewPk pks | (Some l, None) => read_key lower l NewPk pks | _ => [] end).
  { destruct lu as [[l|] [u|]]; try congruence; cbn [fst snd] in *.
    1,3: rewrite (read_key_fkey upper); auto. 3: rewrite (read_key_fkey lower); auto.
    all: unfold read_key, fkey; apply map_ext_in; intros n Hn; rewrite read_new; auto. }
  assert (KS : map (assigned M (proj_row lu)) vals =
               match lu with
               | (Some l, None) => map (assigned lower l) vals
               | (None, Some u) => map (assigned upper u) vals
               | (Some l, Some u) => comp (map (assigned upper u) vals) (map (assigned lower l) vals)
               | _ => [] end).
  { assert (E : forall n, In n vals -> assigned M (proj_row lu) n =
                match lu with
                | (Some l, None) => assigned lower l n
                | (None, Some u) => assigned upper u n
                | (Some l, Some u) => match assigned upper u n with Some v => Some v | None => assigned lower l n end
                | (None, None) => assigned M (proj_row lu) n end).
    { intros n Hn. apply merged_assigned; auto. intros l u E. apply (Hm l u E n Hn). }
    destruct lu as [[l|] [u|]]; try congruence.
    - unfold comp. rewrite combine_map2, map_map. apply map_ext_in. intros n Hn. now rewrite E.
    - apply map_ext_in. intros n Hn. now rewrite E.
    - apply map_ext_in. intros n Hn. now rewrite E. }
  unfold change_of. rewrite KO, KN, KS. destruct lu as [[l|] [u|]]; try congruence; reflexivity.
Qed.

Lemma merged_row_good lu :
  (forall l, fst lu = Some l -> good_row pks lower l) ->
  (forall u, snd lu = Some u -> good_row pks upper u) ->
  lu <> (None, None) -> good_row pks M (proj_row lu).
Proof.
  intros Hl Hu Hne. split; [apply proj_row_length|].
  assert (KO : read_key M (proj_row lu) OldPk pks =
               match lu with (Some l, _) => read_key lower l OldPk pks | (None, Some u) => read_key upper u OldPk pks | _ => [] end).
  { destruct lu as [[l|] [u|]]; try congruence; cbn [fst snd] in *.
    1,2: rewrite (read_key_fkey lower); [|auto|now apply (Hl l)]. 3: rewrite (read_key_fkey upper); [|auto|now apply (Hu u)].
    all: unfold read_key, fkey; apply map_ext_in; intros n Hn; rewrite read_old; auto. }
  assert (KN : read_key M (proj_row lu) NewPk pks =
               match lu with (_, Some u) => read_key upper u NewPk pks | (Some l, None) => read_key lower l NewPk pks | _ => [] end).
  { destruct lu as [[l|] [u|]]; try congruence; cbn [fst snd] in *.
    1,3: rewrite (read_key_fkey upper); [|auto|now apply (Hu u)]. 3: rewrite (read_key_fkey lower); [|auto|now apply (Hl l)].
    all: unfold read_key, fkey; apply map_ext_in; intros n Hn; rewrite read_new; auto. }
  rewrite KO, KN. destruct lu as [[l|] [u|]]; try congruence; cbn [fst snd] in *.
  - split; [apply (Hl l eq_refl)|apply (Hu u eq_refl)].
  - split; apply (Hl l eq_refl).
  - split; apply (Hu u eq_refl).
Qed.

(* the join condition is the one on changes *)
Lemma keys_match ks ks' :
  whole ks -> whole ks' -> length ks = length pks -> length ks' = length pks ->
  forallb (fun p => keq (fst p) (snd p)) (combine ks ks') =
  match as_key ks, as_key ks' with Some a, Some b => keqb a b | _, _ => false end.
Proof.
  intros W W' L L'. pose proof GL as (_ & _ & _ & NE & _).
  unfold as_key. spec_helpers.
  destruct W as [W|W].
  - assert (E : forallb is_null ks = true) by (apply forallb_forall; intros v Hv; rewrite Forall_forall in W; rewrite (W v Hv); auto).
    rewrite E. destruct pks as [|p ps]; [congruence|]. destruct ks as [|k ks]; [discriminate|]. destruct ks' as [|k' ks']; [discriminate|].
    cbn. inversion W; subst. reflexivity.
  - assert (E : forallb is_null ks = false).
    { destruct pks as [|p ps]; [congruence|]. destruct ks as [|k ks]; [discriminate|]. cbn. inversion W; subst. destruct k; auto. congruence. }
    rewrite E. destruct W' as [W'|W'].
    + assert (E' : forallb is_null ks' = true) by (apply forallb_forall; intros v Hv; rewrite Forall_forall in W'; rewrite (W' v Hv); auto).
      rewrite E'. destruct pks as [|p ps]; [congruence|]. destruct ks as [|k ks]; [discriminate|]. destruct ks' as [|k' ks']; [discriminate|].
      cbn. inversion W'; subst. inversion W; subst. unfold keq. destruct (veqb_spec k VNull); [congruence|]. now rewrite andb_false_r.
    + assert (E' : forallb is_null ks' = false).
      { destruct pks as [|p ps]; [congruence|]. destruct ks' as [|k ks'']; [discriminate|]. cbn. inversion W'; subst. destruct k; auto. congruence. }
      rewrite E'. assert (LL : length ks = length ks') by lia. clear - W W' LL.
      revert ks' W' LL. induction ks as [|k ks IH]; intros [|k' ks'] W' LL; cbn in *; try lia; auto.
      inversion W; inversion W'; subst. rewrite IH; auto.
      unfold keq. assert (N : is_null k = false) by (destruct k; auto; congruence). rewrite N. cbn [negb andb].
      destruct (veqb_spec k k') as [->|Nk]; cbn [andb].
      * destruct (keqb_spec ks ks'), (keqb_spec (k' :: ks) (k' :: ks')); congruence.
      * destruct (keqb_spec (k :: ks) (k' :: ks')); congruence.
Qed.
Lemma sync_match_amatch l u :
  good_row pks lower l -> good_row pks upper u -> sync_match lower upper l u = amatch (chL l) (chU u).
Proof.
  intros (Ll & _ & Wl) (Lu & Wu & _). unfold sync_match, amatch, change_of. cbn [ch_new ch_old].
  pose proof GU as (_ & EO' & _). rewrite EO'.
  rewrite <- keys_match; auto; try (unfold read_key; apply map_length).
  rewrite !read_key_fkey by auto. unfold fkey. rewrite combine_map2.
  clear. induction pks; cbn; auto. now rewrite IHl0.
Qed.

(* append-only upper syncs *)
Lemma append_only_old us u :
  (forall u, In u us -> good_row pks upper u) -> append_only upper us = true -> In u us -> ch_old (chU u) = None.
Proof.
  intros Hu H Hin. unfold append_only in H. destruct (Hu u Hin) as (Lu & Wu & _).
  pose proof (tuple_read upper u OldPk DU) as T. pose proof GU as (_ & EO & _ & NE & _). rewrite EO in T.
  destruct (cols_of upper OldPk) as [|i is] eqn:C; [discriminate|].
  rewrite forallb_forall in H. specialize (H u Hin).
  unfold change_of. cbn [ch_old]. rewrite read_key_fkey in * by auto. unfold fkey in *.
  rewrite <- T in *. unfold as_key. spec_helpers. destruct Wu as [W|W].
  - assert (E : forallb is_null (tuple (i :: is) u) = true) by (apply forallb_forall; intros v Hv; rewrite Forall_forall in W; rewrite (W v Hv); auto).
    now rewrite E.
  - exfalso. cbn in W. inversion W; subst. destruct (cell i u); cbn in H; congruence.
Qed.
End M.
