(* Logical merging of the pending items. *)
From Coq Require Import List Arith ZArith Bool Lia Permutation.
From Verif Require Import SyncDataModel SyncDataSpec SyncAbsSquash SyncSquashProofs SyncAbsMerge SyncMergeProofs.
Import ListNotations.

Lemma net_perm t cs cs' : Permutation cs cs' -> net t cs -> net t cs'.
Proof.
  intros P [[N1 N2] Ho Hn].
  assert (PS : forall f : change -> option (list value), Permutation (somes f cs) (somes f cs')).
  { intros f. unfold somes. now apply Permutation_flat_map. }
  split.
  - split; [apply (Permutation_NoDup (PS ch_old)); auto|apply (Permutation_NoDup (PS ch_new)); auto].
  - intros c k Hc. apply Ho. eapply Permutation_in; [apply Permutation_sym|]; eauto.
  - intros c k Hc E. destruct (Hn c k) as [F|(c' & Hc' & F)]; auto.
    + eapply Permutation_in; [apply Permutation_sym|]; eauto.
    + right. exists c'. split; auto. eapply Permutation_in; eauto.
Qed.
Lemma at_once_perm t t' cs cs' : Permutation cs cs' -> at_once cs t t' -> at_once cs' t t'.
Proof.
  intros P. apply at_once_ext. intros c _. split; apply Permutation_in; auto. now apply Permutation_sym.
Qed.

Section U.
Variables (bt : nat) (pks vals : list nat) (lower upper : list column).
Hypothesis GL : good_schema pks lower.
Hypothesis GU : good_schema pks upper.

Definition ul_item (ic : nat * column) : list uproj :=
    let i := fst ic in let c := snd ic in let n := c_name c in
    match c_role c with
    | OldPk | NewPk => [(c, cell i, fun u => ocell (find_col upper n (c_role c)) (Some u))]
    | Changed =>
        [(c, cell i, if has_col upper n Changed then fun u => ocell (find_col upper n Changed) (Some u)
                     else if has_col upper n Value then fun _ => VBool true else fun _ => VBool false)]
    | Value =>
        (if needs_extra n lower upper
         then [(changed_col bt n, (fun _ => VBool true), (fun _ => VBool false))] else []) ++
        [(c, cell i, if has_col upper n Value then fun u => ocell (find_col upper n Value) (Some u)
                     else fun _ => VNull)]
    end.
Lemma ul_eq : union_lower_cols bt lower upper = flat_map ul_item (with_idx lower).
Proof. reflexivity. Qed.
Definition uu_item (seen : list column) (ic : nat * column) : list uproj :=
    let i := fst ic in let c := snd ic in let n := c_name c in
    if existsb (desc_eqb c) seen then []
    else
      match c_role c with
      | Changed => [(c, (if has_col lower n Value then fun _ => VBool true else fun _ => VBool false), cell i)]
      | Value =>
          (if needs_extra n upper lower
           then [(changed_col bt n, (fun _ => VBool false), (fun _ => VBool true))] else []) ++
          [(c, (fun _ => VNull), cell i)]
      | _ => []
      end.

Ltac cases := repeat match goal with |- context [if ?b then _ else _] => destruct b eqn:? end.

Lemma ul_fst ic : map (fun p => fst (fst p)) (ul_item ic) = map fst (lower_item bt lower upper ic).
Proof. destruct ic as [i c]. unfold ul_item, lower_item. cbn [fst snd]. destruct (c_role c); cases; reflexivity. Qed.
Lemma ul_l ic l : map (fun p => snd (fst p) l) (ul_item ic) = map (fun p => snd p (Some l) None) (lower_item bt lower upper ic).
Proof. destruct ic as [i c]. unfold ul_item, lower_item. cbn [fst snd]. destruct (c_role c); cases; reflexivity. Qed.
Lemma ul_u ic u : map (fun p => snd p u) (ul_item ic) = map (fun p => snd p None (Some u)) (lower_item bt lower upper ic).
Proof.
  destruct ic as [i c]. unfold ul_item, lower_item. cbn [fst snd]. destruct (c_role c) eqn:R.
  - reflexivity.
  - reflexivity.
  - unfold join_value. cbn [missing]. destruct (needs_extra (c_name c) lower upper); cbn; destruct (has_col upper (c_name c) Value); reflexivity.
  - cbn. unfold join_changed. cbn [missing]. destruct (has_col upper (c_name c) Changed); auto.
    destruct (has_col upper (c_name c) Value); reflexivity.
Qed.
Lemma ul_seen : map (fun p => fst (fst p)) (union_lower_cols bt lower upper) = seen_lower bt lower upper.
Proof.
  unfold seen_lower. rewrite ul_eq, lower_cols_eq, !map_flat_map. apply flat_map_ext_in'. intros; apply ul_fst.
Qed.
Lemma uu_eq : union_upper_cols bt lower upper = flat_map (uu_item (seen_lower bt lower upper)) (with_idx upper).
Proof. unfold union_upper_cols. rewrite ul_seen. reflexivity. Qed.
Lemma uu_fst ic : map (fun p => fst (fst p)) (uu_item (seen_lower bt lower upper) ic) = map fst (upper_item bt lower upper ic).
Proof.
  destruct ic as [i c]. unfold uu_item, upper_item. cbn [fst snd]. destruct (existsb _ _); auto.
  destruct (c_role c); cases; reflexivity.
Qed.
Lemma uu_l ic l : map (fun p => snd (fst p) l) (uu_item (seen_lower bt lower upper) ic) = map (fun p => snd p (Some l) None) (upper_item bt lower upper ic).
Proof.
  destruct ic as [i c]. unfold uu_item, upper_item. cbn [fst snd].
  destruct (existsb (desc_eqb c) (seen_lower bt lower upper)) eqn:S; auto.
  assert (NS : has_col lower (c_name c) (c_role c) = false).
  { destruct (has_col lower (c_name c) (c_role c)) eqn:H; auto. exfalso.
    assert (existsb (desc_eqb c) (seen_lower bt lower upper) = true); [|congruence].
    eapply in_seen; eauto. }
  destruct (c_role c) eqn:R; auto.
  - unfold join_value. cbn [missing]. rewrite NS. destruct (needs_extra (c_name c) upper lower); reflexivity.
  - cbn. unfold join_changed. cbn [missing]. rewrite NS. destruct (has_col lower (c_name c) Value); reflexivity.
Qed.
Lemma uu_u ic u : map (fun p => snd p u) (uu_item (seen_lower bt lower upper) ic) = map (fun p => snd p None (Some u)) (upper_item bt lower upper ic).
Proof.
  destruct ic as [i c]. unfold uu_item, upper_item. cbn [fst snd].
  destruct (existsb (desc_eqb c) (seen_lower bt lower upper)) eqn:S; auto.
  destruct (c_role c) eqn:R; auto. destruct (needs_extra (c_name c) upper lower); reflexivity.
Qed.

Lemma union_as_proj ls us :
  union_syncs bt lower upper ls us =
  (map fst (merge_join_cols bt lower upper),
   map (fun l => proj_row bt lower upper (Some l, None)) ls ++ map (fun u => proj_row bt lower upper (None, Some u)) us).
Proof.
  unfold union_syncs, proj_row, merge_join_cols. rewrite ul_eq, uu_eq, lower_cols_eq, upper_cols_eq.
  f_equal; [|f_equal].
  - rewrite !map_app, !map_flat_map. f_equal; apply flat_map_ext_in'; intros; [apply ul_fst|apply uu_fst].
  - apply map_ext. intros l. rewrite !map_app, !map_flat_map. f_equal; apply flat_map_ext_in'; intros; [apply ul_l|apply uu_l].
  - apply map_ext. intros u. rewrite !map_app, !map_flat_map. f_equal; apply flat_map_ext_in'; intros; [apply ul_u|apply uu_u].
Qed.

Notation M := (map fst (merge_join_cols bt lower upper)).
Notation chL := (change_of pks vals lower).
Notation chU := (change_of pks vals upper).

Lemma merge_step t t1 t2 ls us out :
  wide (length vals) t ->
  (forall l, In l ls -> good_row pks lower l) ->
  (forall u, In u us -> good_row pks upper u) ->
  (forall l u, In l ls -> In u us -> amatch (chL l) (chU u) = true -> mergeable vals lower upper l u) ->
  net t (map chL ls) -> at_once (map chL ls) t t1 ->
  net t1 (map chU us) -> at_once (map chU us) t1 t2 ->
  merge_syncs bt lower upper ls us = (M, out) \/ snd (merge_syncs bt lower upper ls us) = out ->
  fst (merge_syncs bt lower upper ls us) = M /\
  good_schema pks M /\ (forall r, In r out -> good_row pks M r) /\
  net t (map (change_of pks vals M) out) /\ at_once (map (change_of pks vals M) out) t t2 /\
  (forall c, In c (map (change_of pks vals M) out) <-> In c (amerge (map chL ls) (map chU us))).
Proof.
  intros Hw Hl Hu Hm NL AL NU AU E.
  assert (E' : snd (merge_syncs bt lower upper ls us) = out) by (destruct E as [E|E]; auto; now rewrite E).
  clear E. 
  assert (EF : fst (merge_syncs bt lower upper ls us) = M).
  { unfold merge_syncs. destruct (append_only upper us); [|reflexivity]. rewrite union_as_proj. reflexivity. }
  split; auto. split; [now apply (merged_good bt pks lower upper)|].
  assert (SL : forall c, In c (map chL ls) -> length (ch_set c) = length vals).
  { intros c Hc. apply in_map_iff in Hc as (x & <- & _). cbn. apply map_length. }
  assert (SU : forall c, In c (map chU us) -> length (ch_set c) = length vals).
  { intros c Hc. apply in_map_iff in Hc as (x & <- & _). cbn. apply map_length. }
  assert (FJ : full_join (sync_match lower upper) ls us = full_join (fun l u => amatch (chL l) (chU u)) ls us).
  { apply full_join_ext. intros l u A B. apply sync_match_amatch; auto. }
  assert (Pair : forall lu, In lu (full_join (fun l u => amatch (chL l) (chU u)) ls us) ->
             good_row pks M (proj_row bt lower upper lu) /\
             change_of pks vals M (proj_row bt lower upper lu) = amk (option_map chL (fst lu), option_map chU (snd lu))).
  { intros lu H. apply in_full_join in H as [(l & u & -> & A & B & Ma)|[(u & -> & B & N)|(l & -> & A & N)]].
    - split; [apply merged_row_good; auto; try congruence; cbn; intros ? [= <-]; auto|].
      apply merged_change; auto; cbn; try congruence; intros ? ?; try (intros [= <- <-]; auto).
      + injection H as <-. now apply Hl.
      + injection H as <-. now apply Hu.
    - split; [apply merged_row_good; auto; try congruence; cbn; intros ? [= <-]; auto|].
      apply merged_change; auto; cbn; try congruence. intros ? [= <-]. now apply Hu.
    - split; [apply merged_row_good; auto; try congruence; cbn; intros ? [= <-]; auto|].
      apply merged_change; auto; cbn; try congruence. intros ? [= <-]. now apply Hl. }
  assert (Eout : Permutation (map (change_of pks vals M) out) (amerge (map chL ls) (map chU us)) /\
                 (forall r, In r out -> good_row pks M r)).
  { unfold amerge. rewrite full_join_map, map_map.
    unfold merge_syncs in E'. destruct (append_only upper us) eqn:AO.
    - rewrite union_as_proj in E'. cbn [snd] in E'. subst out.
      assert (NM : forall l u, In u us -> amatch (chL l) (chU u) = false).
      { intros l u B. unfold amatch. rewrite (append_only_old pks vals lower upper GL GU us u Hu AO B). destruct (ch_new (chL l)); auto. }
      assert (EJ : full_join (fun l u => amatch (chL l) (chU u)) ls us =
                   map (fun u => (None, Some u)) us ++ map (fun l => (Some l, None)) ls).
      { unfold full_join.
        assert (F1 : flat_map (fun u => map (fun l => (Some l, Some u)) (filter (fun l => amatch (chL l) (chU u)) ls)) us = []).
        { rewrite (flat_map_ext_in' _ (fun _ => [])); [clear; induction us; auto|].
          intros u B. assert (F0 : filter (fun l => amatch (chL l) (chU u)) ls = []); [|now rewrite F0].
          clear - NM B. induction ls; cbn; auto. rewrite NM; auto. }
        assert (F2 : filter (fun u => negb (existsb (fun l => amatch (chL l) (chU u)) ls)) us = us).
        { assert (G : forall us', (forall u, In u us' -> In u us) -> filter (fun u => negb (existsb (fun l => amatch (chL l) (chU u)) ls)) us' = us').
          { induction us' as [|u us' IH]; cbn; auto. intros S.
            assert (X : existsb (fun l => amatch (chL l) (chU u)) ls = false).
            { apply not_true_iff_false. intros X. apply existsb_exists in X as (l & _ & X). rewrite NM in X; [discriminate|]. apply S; auto. }
            rewrite X. cbn. f_equal. apply IH. intros; apply S; auto. }
          apply G; auto. }
        assert (F3 : filter (fun l => negb (existsb (fun u => amatch (chL l) (chU u)) us)) ls = ls).
        { assert (X : forall l, existsb (fun u => amatch (chL l) (chU u)) us = false).
          { intros l. apply not_true_iff_false. intros X. apply existsb_exists in X as (u & B & X). rewrite NM in X; auto. discriminate. }
          clear - X. induction ls as [|l0 ls0 IHl]; cbn; auto. rewrite X. cbn. now rewrite IHl. }
        rewrite F1, F2, F3. reflexivity. }
      assert (Ein : forall lu, In lu (map (fun u => (None, Some u)) us ++ map (fun l => (Some l, None)) ls) ->
                     In lu (full_join (fun l u => amatch (chL l) (chU u)) ls us)) by (rewrite EJ; auto).
      split.
      + rewrite EJ. rewrite map_app, !map_map, map_app, !map_map.
        eapply Permutation_trans; [apply Permutation_app_comm|]. apply Permutation_app.
        * erewrite map_ext_in; [apply Permutation_refl|]. intros u B. cbn beta.
          rewrite (proj2 (Pair (None, Some u) ltac:(apply Ein; apply in_or_app; left; apply in_map_iff; eauto))). reflexivity.
        * erewrite map_ext_in; [apply Permutation_refl|]. intros l A. cbn beta.
          rewrite (proj2 (Pair (Some l, None) ltac:(apply Ein; apply in_or_app; right; apply in_map_iff; eauto))). reflexivity.
      + intros r Hr. apply in_app_or in Hr as [Hr|Hr]; apply in_map_iff in Hr as (x & <- & Hx); apply Pair; apply Ein; apply in_or_app; [right|left]; apply in_map_iff; eauto.
    - unfold join_syncs in E'. cbn [snd] in E'. rewrite FJ in E'. subst out. split.
      + rewrite map_map. erewrite map_ext_in; [apply Permutation_refl|]. intros lu H. cbn beta.
        exact (proj2 (Pair lu H)).
      + intros r Hr. apply in_map_iff in Hr as (lu & <- & H). exact (proj1 (Pair lu H)). }
  destruct Eout as [P G]. split; auto. split.
  - eapply net_perm; [apply Permutation_sym; exact P|]. eapply amerge_net; eauto.
  - split; [eapply at_once_perm; [apply Permutation_sym; exact P|]; eapply amerge_at_once; eauto|].
    intros c. split; intros Hc; [eapply Permutation_in; eauto|]. eapply Permutation_in; [apply Permutation_sym; exact P|auto].
Qed.
End U.

(* ----- all items ----- *)
(* the items and the tables between them *)
Inductive run_items (pks vals : list nat) : (list value -> option (list value)) -> list (list column * list (list value)) ->
    (list value -> option (list value)) -> Prop :=
| ri_nil t : run_items pks vals t [] t
| ri_cons t t1 t2 sch rows rest :
    good_schema pks sch -> (forall r, In r rows -> good_row pks sch r) ->
    net t (map (change_of pks vals sch) rows) -> at_once (map (change_of pks vals sch) rows) t t1 ->
    run_items pks vals t1 rest t2 ->
    run_items pks vals t ((sch, rows) :: rest) t2.

(* the rows that meet in a merge are merged faithfully, at every step of the fold *)
Fixpoint merge_ok (bt : nat) (pks vals : list nat) (acc : list column * list (list value))
         (items : list (list column * list (list value))) : Prop :=
  match items with
  | [] => True
  | it :: rest =>
      (forall l u, In l (snd acc) -> In u (snd it) ->
                   amatch (change_of pks vals (fst acc) l) (change_of pks vals (fst it) u) = true ->
                   mergeable vals (fst acc) (fst it) l u) /\
      merge_ok bt pks vals (merge_syncs bt (fst acc) (fst it) (snd acc) (snd it)) rest
  end.
(* a property of changes that survives the combination of two changes of the same row *)
Definition closed (C : change -> Prop) : Prop :=
  forall l u, C l -> C u -> amatch l u = true -> C (amk (Some l, Some u)).

Lemma wide_at_once w cs t t' :
  wide w t -> (forall c, In c cs -> length (ch_set c) = w) -> at_once cs t t' -> wide w t'.
Proof.
  intros Hw Hs H k vs E.
  assert (P : t' k <> None) by congruence.
  destruct (at_once_present _ _ _ _ H P) as [(c & Hc & En)|[A B]].
  - rewrite (proj1 (H k) c Hc En) in E. injection E as <-. apply new_vals_length; auto. now apply wide_old.
  - rewrite (proj2 (proj2 (H k)) A) in E. eauto.
Qed.

Lemma amerge_closed C ls us :
  closed C -> (forall c, In c ls -> C c) -> (forall c, In c us -> C c) -> forall c, In c (amerge ls us) -> C c.
Proof.
  intros HC Hl Hu c Hc. apply in_amerge in Hc as [(l & u & -> & A & B & M)|[[A _]|[A _]]]; auto.
Qed.

Lemma fold_items bt pks vals C items : closed C -> forall t t1 t2 sch rows,
  wide (length vals) t ->
  good_schema pks sch -> (forall r, In r rows -> good_row pks sch r) ->
  net t (map (change_of pks vals sch) rows) -> at_once (map (change_of pks vals sch) rows) t t1 ->
  (forall c, In c (map (change_of pks vals sch) rows) -> C c) ->
  (forall it c, In it items -> In c (map (change_of pks vals (fst it)) (snd it)) -> C c) ->
  merge_ok bt pks vals (sch, rows) items ->
  run_items pks vals t1 items t2 ->
  let '(sch', rows') := fold_left (fun acc it => merge_syncs bt (fst acc) (fst it) (snd acc) (snd it)) items (sch, rows) in
  good_schema pks sch' /\ (forall r, In r rows' -> good_row pks sch' r) /\
  net t (map (change_of pks vals sch') rows') /\ at_once (map (change_of pks vals sch') rows') t t2 /\
  (forall c, In c (map (change_of pks vals sch') rows') -> C c).
Proof.
  intros HC.
  induction items as [|[usch us] items IH]; intros t t1 t2 sch rows Hw G Hr N A HP HQ MO R.
  - cbn. inversion R; subst. auto.
  - cbn [fold_left fst snd]. inversion R as [|? t1' ? ? ? ? GU HU NU AU R']; subst.
    cbn [merge_ok fst snd] in MO. destruct MO as [MO1 MO2].
    destruct (merge_syncs bt sch usch rows us) as [sch' rows'] eqn:E.
    destruct (merge_step bt pks vals sch usch G GU t t1 t1' rows us rows' Hw Hr HU) as (E1 & G' & Hr' & N' & A' & I'); auto.
    + right. rewrite E. reflexivity.
    + rewrite E in E1. cbn in E1. subst sch'.
      eapply IH; eauto.
      * intros c Hc. eapply amerge_closed; [exact HC|exact HP| |apply I'; exact Hc].
        intros c' Hc'. apply (HQ (usch, us)); cbn; auto.
      * intros it c Hi Hc. apply (HQ it); cbn; auto.
Qed.

(* when the later items assign every column, every merge is faithful *)
Lemma merge_ok_full bt pks vals items : forall acc,
  (forall it u, In it items -> In u (snd it) -> forall n, In n vals -> assigned (fst it) u n <> None) ->
  merge_ok bt pks vals acc items.
Proof.
  induction items as [|it items IH]; intros acc H; cbn; auto. split.
  - intros l u _ Hu _ n Hn. left. apply (H it); cbn; auto.
  - apply IH. intros it' u Hi. apply H. cbn; auto.
Qed.

(* if no change moves or deletes a row, no new key is lost *)
Lemma fold_new bt pks vals (C : change -> Prop) items : closed C -> (forall c k, C c -> ch_old c = Some k -> ch_new c = Some k) ->
  forall t t1 t2 sch rows k,
  wide (length vals) t ->
  good_schema pks sch -> (forall r, In r rows -> good_row pks sch r) ->
  net t (map (change_of pks vals sch) rows) -> at_once (map (change_of pks vals sch) rows) t t1 ->
  (forall c, In c (map (change_of pks vals sch) rows) -> C c) ->
  (forall it c, In it items -> In c (map (change_of pks vals (fst it)) (snd it)) -> C c) ->
  merge_ok bt pks vals (sch, rows) items ->
  run_items pks vals t1 items t2 ->
  (exists c, In c (map (change_of pks vals sch) rows) /\ ch_new c = Some k) \/
  (exists it c, In it items /\ In c (map (change_of pks vals (fst it)) (snd it)) /\ ch_new c = Some k) ->
  let '(sch', rows') := fold_left (fun acc it => merge_syncs bt (fst acc) (fst it) (snd acc) (snd it)) items (sch, rows) in
  exists c, In c (map (change_of pks vals sch') rows') /\ ch_new c = Some k.
Proof.
  intros HC HK.
  induction items as [|[usch us] items IH]; intros t t1 t2 sch rows k Hw G Hr N A HP HQ MO R HX.
  - cbn. destruct HX as [HX|(it & c & [] & _)]; auto.
  - cbn [fold_left fst snd]. inversion R as [|? t1' ? ? ? ? GU HU NU AU R']; subst.
    cbn [merge_ok fst snd] in MO. destruct MO as [MO1 MO2].
    destruct (merge_syncs bt sch usch rows us) as [sch' rows'] eqn:E.
    destruct (merge_step bt pks vals sch usch G GU t t1 t1' rows us rows' Hw Hr HU) as (E1 & G' & Hr' & N' & A' & I'); auto.
    + right. rewrite E. reflexivity.
    + rewrite E in E1. cbn in E1. subst sch'.
      eapply IH; eauto.
      * intros c Hc. eapply amerge_closed; [exact HC|exact HP| |apply I'; exact Hc].
        intros c' Hc'. apply (HQ (usch, us)); cbn; auto.
      * intros it c Hi Hc. apply (HQ it); cbn; auto.
      * destruct HX as [(c & Hc & En)|(it & c & [<-|Hi] & Hc & En)].
        -- left. 
           destruct (existsb (amatch c) (map (change_of pks vals usch) us)) eqn:EX.
           ++ apply existsb_exists in EX as (u & Hu & M). exists (amk (Some c, Some u)). split.
              { apply I'. apply in_amerge. left. exists c, u. auto. }
              cbn. apply amatch_true in M as (k' & M1 & M2). rewrite (HK u k'); [congruence| |auto].
              apply (HQ (usch, us)); cbn; auto.
           ++ exists c. split; auto. apply I'. apply in_amerge. right. right. split; auto.
              intros u Hu. apply not_true_iff_false. intros M. apply not_true_iff_false in EX. apply EX. apply existsb_exists. eauto.
        -- left. cbn [fst snd] in Hc.
           destruct (existsb (fun l => amatch l c) (map (change_of pks vals sch) rows)) eqn:EX.
           ++ apply existsb_exists in EX as (l & Hl & M). exists (amk (Some l, Some c)). split; [|exact En].
              apply I'. apply in_amerge. left. exists l, c. auto.
           ++ exists c. split; auto. apply I'. apply in_amerge. right. left. split; auto.
              intros l Hl. apply not_true_iff_false. intros M. apply not_true_iff_false in EX. apply EX. apply existsb_exists. eauto.
        -- right. exists it, c. auto.
Qed.
