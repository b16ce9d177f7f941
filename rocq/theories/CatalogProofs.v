(* Proofs for the catalog: the integrity of the tables of the database, and the effect of each operation on what is in the catalog. *)
From Coq Require Import String List Arith Bool Lia.
Import ListNotations.
From Verif Require Import CatalogModel CatalogSpec.
Open Scope list_scope.

Lemma NoDup_snoc {A} (l : list A) x : NoDup l -> ~ In x l -> NoDup (l ++ [x]).
Proof.
  induction l as [|y l IH]; intros H N; cbn; [constructor; [intros []|constructor]|].
  inversion H; subst. constructor; [|apply IH; [assumption|intros C; apply N; right; exact C]].
  intros C. apply in_app_or in C as [C|[<-|[]]]; [contradiction|]. apply N. left. reflexivity.
Qed.
Lemma NoDup_map_filter {A B} (f : A -> B) p l : NoDup (map f l) -> NoDup (map f (filter p l)).
Proof.
  induction l as [|x l IH]; intros H; cbn; [constructor|]. inversion H; subst. destruct (p x); cbn; [|apply IH; assumption].
  constructor; [|apply IH; assumption]. intros C. apply in_map_iff in C as (y & E & C). apply filter_In in C as [C _].
  apply H2. apply in_map_iff. exists y. split; assumption.
Qed.
Lemma NoDup_map_inj {A B} (f : A -> B) l x y : NoDup (map f l) -> In x l -> In y l -> f x = f y -> x = y.
Proof.
  induction l as [|z l IH]; intros H Hx Hy E; [destruct Hx|]. inversion H; subst.
  destruct Hx as [->|Hx], Hy as [->|Hy]; [reflexivity| | |apply IH; assumption]; exfalso; apply H2; apply in_map_iff.
  - exists y. split; [symmetry; exact E|exact Hy].
  - exists x. split; [exact E|exact Hx].
Qed.
Lemma fresh_notin l : ~ In (fresh l) l.
Proof.
  intros H. unfold fresh in H. assert (L : S (list_max l) <= list_max l); [|lia].
  pose proof (proj1 (list_max_le l (list_max l)) (le_n _)) as F. rewrite Forall_forall in F. exact (F _ H).
Qed.
Lemma fresh_gt l x : In x l -> x < fresh l.
Proof.
  intros H. unfold fresh. pose proof (proj1 (list_max_le l (list_max l)) (le_n _)) as F. rewrite Forall_forall in F. specialize (F _ H). lia.
Qed.
Lemma has_id_In {A} (f : A -> nat) i l : has_id f i l = true <-> In i (map f l).
Proof.
  unfold has_id. rewrite existsb_exists, in_map_iff. split; intros (x & H1 & H2); exists x.
  - apply Nat.eqb_eq in H2. split; [exact H2|exact H1].
  - split; [exact H2|apply Nat.eqb_eq, H1].
Qed.

(* Integrity: the PRIMARY KEY, UNIQUE and REFERENCES constraints *)
Record wf (c : catalog) : Prop := {
  wf_db_id : NoDup (map db_id (dbs c)); wf_db_name : NoDup (map db_name (dbs c));
  wf_co_id : NoDup (map co_id (colls c)); wf_co_name : NoDup (map (fun k => (co_db k, co_name k)) (colls c));
  wf_tb_id : NoDup (map tb_id (tbls c)); wf_tb_name : NoDup (map (fun r => (tb_coll r, tb_name r)) (tbls c));
  wf_ve_id : NoDup (map ve_id (vers c)); wf_fn_name : NoDup (map (fun r => (fn_db r, fn_name r)) (fns c));
  wf_co_fk : forall k, In k (colls c) -> In (co_db k) (map db_id (dbs c));
  wf_tb_fk : forall r, In r (tbls c) -> In (tb_coll r) (map co_id (colls c));
  wf_ve_fk : forall v, In v (vers c) -> In (ve_tbl v) (map tb_id (tbls c));
  wf_cl_fk : forall r, In r (cols c) -> In (cl_ver r) (map ve_id (vers c));
  wf_fn_fk : forall r, In r (fns c) -> In (fn_db r) (map db_id (dbs c)) }.

Ltac flds := cbn [set_dbs set_colls set_tbls set_vers set_cols set_fns dbs colls tbls vers cols fns fst snd] in *.

Lemma wf_empty : wf empty.
Proof. constructor; cbn; try constructor; intros ? []. Qed.
Lemma in_map_filter_sub {A} (f : A -> nat) p l i : In i (map f (filter p l)) -> In i (map f l).
Proof. rewrite !in_map_iff. intros (x & E & H). apply filter_In in H as [H _]. exists x. split; assumption. Qed.

(* cascading deletions restore the references *)
Lemma wf_keep_cols c : wf (set_cols [] c) -> wf (keep_cols c).
Proof.
  intros W. destruct W. flds. constructor; flds; try assumption. unfold keep_cols. flds.
  intros r H. apply filter_In in H as [_ H]. apply has_id_In, H.
Qed.
Lemma wf_keep_vers c : wf (set_vers [] (set_cols [] c)) -> NoDup (map ve_id (vers c)) -> wf (keep_vers c).
Proof.
  intros W N. unfold keep_vers. apply wf_keep_cols. destruct W. flds. constructor; flds; try assumption; try (intros ? []).
  - apply NoDup_map_filter, N.
  - intros v H. apply filter_In in H as [_ H]. apply has_id_In, H.
Qed.
Lemma wf_keep_tbls c : wf (set_tbls [] (set_vers [] (set_cols [] c))) -> NoDup (map ve_id (vers c)) -> NoDup (map tb_id (tbls c)) ->
  NoDup (map (fun r => (tb_coll r, tb_name r)) (tbls c)) -> wf (keep_tbls c).
Proof.
  intros W N1 N2 N3. unfold keep_tbls. apply wf_keep_vers; [|exact N1]. destruct W. flds.
  constructor; flds; try assumption; try (intros ? []); try (apply NoDup_map_filter; assumption).
  intros r H. apply filter_In in H as [_ H]. apply has_id_In, H.
Qed.
Lemma wf_delete_table i c : wf c -> wf (fst (delete_table i c)).
Proof.
  intros W. unfold delete_table. destruct (has_id tb_id i (tbls c)); [|exact W]. cbn [fst]. apply wf_keep_vers; [|exact (wf_ve_id c W)].
  destruct W. constructor; flds; try assumption; try (intros ? []); try constructor; try (apply NoDup_map_filter; assumption).
  intros r H. apply filter_In in H as [H _]. auto.
Qed.
Lemma wf_delete_collection i c : wf c -> wf (fst (delete_collection i c)).
Proof.
  intros W. unfold delete_collection. destruct (has_id co_id i (colls c)); [|exact W]. cbn [fst].
  apply wf_keep_tbls; try (destruct W; flds; assumption). destruct W.
  constructor; flds; try assumption; try (intros ? []); try constructor; try (apply NoDup_map_filter; assumption).
  intros r H. apply filter_In in H as [H _]. auto.
Qed.
Lemma wf_delete_database i c : wf c -> wf (fst (delete_database i c)).
Proof.
  intros W. unfold delete_database. destruct (has_id db_id i (dbs c)); [|exact W]. cbn [fst]. unfold keep_colls.
  apply wf_keep_tbls; try (destruct W; flds; assumption). destruct W.
  constructor; flds; try assumption; try (intros ? []); try constructor; try (apply NoDup_map_filter; assumption).
  - intros r H. apply filter_In in H as [_ H]. apply has_id_In, H.
  - intros r H. apply filter_In in H as [_ H]. apply has_id_In, H.
Qed.

Lemma existsb_false {A} (p : A -> bool) l x : existsb p l = false -> In x l -> p x = false.
Proof. intros H Hx. destruct (p x) eqn:E; [|reflexivity]. rewrite <- H. symmetry. apply existsb_exists. exists x. split; assumption. Qed.
Lemma in_map_app1 {A} (f : A -> nat) l x i : In i (map f l) -> In i (map f (l ++ [x])).
Proof. rewrite map_app. intros H. apply in_or_app. left. exact H. Qed.

Lemma wf_create_database d c : wf c -> wf (fst (create_database d c)).
Proof.
  intros W. unfold create_database. destruct (existsb _ (dbs c)) eqn:E; [exact W|]. cbn [fst]. destruct W.
  constructor; flds; try assumption.
  - rewrite map_app. apply NoDup_snoc; [assumption|apply fresh_notin].
  - rewrite map_app. apply NoDup_snoc; [assumption|]. intros C. apply in_map_iff in C as (r & Er & C).
    pose proof (existsb_false _ _ r E C) as E'. cbn in Er, E'. rewrite Er in E'. rewrite String.eqb_refl in E'. discriminate E'.
  - intros k H. apply in_map_app1. auto.
  - intros k H. apply in_map_app1. auto.
Qed.
Lemma wf_create_collection b s c : wf c -> wf (fst (create_collection b s c)).
Proof.
  intros W. unfold create_collection. destruct (existsb _ (colls c)) eqn:E; [exact W|].
  destruct (has_id db_id b (dbs c)) eqn:F; cbn [negb fst]; [|exact W]. destruct W. constructor; flds; try assumption.
  - rewrite map_app. apply NoDup_snoc; [assumption|apply fresh_notin].
  - rewrite map_app. apply NoDup_snoc; [assumption|]. intros C. apply in_map_iff in C as (r & Er & C).
    pose proof (existsb_false _ _ r E C) as E'. cbn in Er, E'. inversion Er as [[E1 E2]]. rewrite E1, E2 in E'.
    rewrite Nat.eqb_refl, String.eqb_refl in E'. discriminate E'.
  - intros k H. apply in_app_or in H as [H|[<-|[]]]; [auto|]. cbn. apply has_id_In, F.
  - intros k H. apply in_map_app1. auto.
Qed.
Lemma wf_create_table_tx k t u now c : wf c -> wf (fst (create_table_tx k t u now c)).
Proof.
  intros W. unfold create_table_tx. destruct (existsb _ (tbls c)) eqn:E; [exact W|].
  destruct (has_id co_id k (colls c)) eqn:F; cbn [negb fst]; [|exact W]. destruct W. constructor; flds; try assumption.
  - rewrite map_app. apply NoDup_snoc; [assumption|apply fresh_notin].
  - rewrite map_app. apply NoDup_snoc; [assumption|]. intros C. apply in_map_iff in C as (r & Er & C).
    pose proof (existsb_false _ _ r E C) as E'. cbn in Er, E'. inversion Er as [[E1 E2]]. rewrite E1, E2 in E'.
    rewrite Nat.eqb_refl, String.eqb_refl in E'. discriminate E'.
  - rewrite map_app. apply NoDup_snoc; [assumption|apply fresh_notin].
  - intros r H. apply in_app_or in H as [H|[<-|[]]]; [auto|]. cbn. apply has_id_In, F.
  - intros v H. apply in_app_or in H as [H|[<-|[]]]; [apply in_map_app1; auto|]. cbn. rewrite map_app. apply in_or_app. right. left. reflexivity.
  - intros r H. apply in_map_app1. auto.
Qed.
Lemma wf_insert_columns lim v fields c : wf c -> In v (map ve_id (vers c)) -> wf (fst (insert_columns lim v fields c)).
Proof.
  intros W Hv. unfold insert_columns. destruct (_ && _); [|exact W]. cbn [fst]. destruct W. constructor; flds; try assumption.
  intros r H. apply in_app_or in H as [H|H]; [auto|]. apply in_map_iff in H as (f & <- & _). exact Hv.
Qed.
Lemma create_table_tx_ok k t u now c c' i v : create_table_tx k t u now c = (c', Ok (i, v)) ->
  i = fresh (map tb_id (tbls c)) /\ v = fresh (map ve_id (vers c)) /\
  c' = set_vers (vers c ++ [{| ve_id := v; ve_tbl := i; ve_time := now; ve_version := 0 |}])
          (set_tbls (tbls c ++ [{| tb_id := i; tb_coll := k; tb_name := t; tb_uuid := u |}]) c) /\
  existsb (fun r => Nat.eqb (tb_coll r) k && String.eqb (tb_name r) t) (tbls c) = false /\ has_id co_id k (colls c) = true.
Proof.
  unfold create_table_tx. destruct (existsb _ (tbls c)) eqn:E; [discriminate|]. destruct (has_id co_id k (colls c)) eqn:F; cbn [negb]; [|discriminate].
  intros H; inversion H; subst. repeat (split; [reflexivity|]). split; reflexivity.
Qed.
Lemma create_table_tx_err k t u now c c' e : create_table_tx k t u now c = (c', Err e) -> c' = c.
Proof.
  unfold create_table_tx. destruct (existsb _ (tbls c)); [intros H; inversion H; reflexivity|].
  destruct (has_id co_id k (colls c)); cbn [negb]; intros H; inversion H; reflexivity.
Qed.
Lemma wf_create_table lim k t fields u now c : wf c -> wf (fst (create_table lim k t fields u now c)).
Proof.
  intros W. unfold create_table. pose proof (wf_create_table_tx k t u now c W) as W1.
  destruct (create_table_tx k t u now c) as [c1 [[i v]|e]] eqn:E; cbn [fst] in W1; [|exact W1].
  destruct (create_table_tx_ok _ _ _ _ _ _ _ _ E) as (-> & -> & -> & _).
  pose proof (wf_insert_columns lim (fresh (map ve_id (vers c))) fields _ W1) as W2.
  destruct (insert_columns _ _ _ _) as [c2 [[]|e]]; cbn [fst] in *; apply W2; flds; rewrite map_app; apply in_or_app; right; left; reflexivity.
Qed.
Lemma list_max_in l : l <> [] -> In (list_max l) l.
Proof.
  induction l as [|x l IH]; intros N; [contradiction|]. destruct l as [|y l]; [left; cbn; lia|].
  assert (N' : y :: l <> []) by discriminate. specialize (IH N'). change (list_max (x :: y :: l)) with (Nat.max x (list_max (y :: l))).
  destruct (Nat.max_dec x (list_max (y :: l))) as [->| ->]; [left; reflexivity|right; exact IH].
Qed.
Lemma last_version_in u c l : last_version_id u c = Some l -> In l (map ve_id (vers c)).
Proof.
  unfold last_version_id. intros H. destruct (map ve_id (filter _ (vers c))) as [|x m] eqn:E; [discriminate H|].
  injection H as <-. assert (S : In (list_max (x :: m)) (x :: m)) by (apply list_max_in; discriminate).
  rewrite <- E in S at 2. exact (in_map_filter_sub _ _ _ _ S).
Qed.
Lemma new_version_tx_ok u ver now c c' l n : new_version_tx u ver now c = (c', Ok (l, n)) ->
  exists v, last_version_id u c = Some l /\ In v (vers c) /\ ve_id v = l /\ n = fresh (map ve_id (vers c)) /\
    c' = set_vers (vers c ++ [{| ve_id := n; ve_tbl := ve_tbl v; ve_time := now; ve_version := ver |}]) c.
Proof.
  unfold new_version_tx. destruct (last_version_id u c) as [l'|]; [|discriminate].
  destruct (find _ (vers c)) as [v|] eqn:F; [|discriminate]. intros H; inversion H; subst. exists v.
  apply find_some in F as [F1 F2]. apply Nat.eqb_eq in F2. split; [reflexivity|]. split; [exact F1|]. split; [exact F2|]. split; reflexivity.
Qed.
Lemma new_version_tx_err u ver now c c' e : new_version_tx u ver now c = (c', Err e) -> c' = c.
Proof.
  unfold new_version_tx. destruct (last_version_id u c); [|intros H; inversion H; reflexivity].
  destruct (find _ (vers c)); intros H; inversion H; reflexivity.
Qed.
Lemma wf_new_version_tx u ver now c : wf c -> wf (fst (new_version_tx u ver now c)).
Proof.
  intros W. destruct (new_version_tx u ver now c) as [c1 [[l n]|e]] eqn:E; cbn [fst].
  - destruct (new_version_tx_ok _ _ _ _ _ _ _ E) as (v & _ & Hv & _ & -> & ->). destruct W. constructor; flds; try assumption.
    + rewrite map_app. apply NoDup_snoc; [assumption|apply fresh_notin].
    + intros w H. apply in_app_or in H as [H|[<-|[]]]; [auto|]. cbn. auto.
    + intros r H. apply in_map_app1. auto.
  - rewrite (new_version_tx_err _ _ _ _ _ _ E). exact W.
Qed.
Lemma wf_create_new_version u ver now c : wf c -> wf (fst (create_new_version u ver now c)).
Proof.
  intros W. unfold create_new_version. pose proof (wf_new_version_tx u ver now c W) as W1.
  destruct (new_version_tx u ver now c) as [c1 [[l n]|e]] eqn:E; cbn [fst] in *; [|exact W1].
  destruct (new_version_tx_ok _ _ _ _ _ _ _ E) as (v & _ & _ & _ & -> & ->). destruct W1. constructor; unfold copy_columns; flds; try assumption.
  intros r H. apply in_app_or in H as [H|H]; [auto|]. apply in_map_iff in H as (f & <- & _). cbn. rewrite map_app. apply in_or_app. right. left. reflexivity.
Qed.
Lemma wf_delete_old_versions i c : wf c -> wf (delete_old_versions i c).
Proof.
  intros W. unfold delete_old_versions. apply wf_keep_cols. destruct W. constructor; flds; try assumption; try (intros ? []).
  - apply NoDup_map_filter. assumption.
  - intros v H. apply filter_In in H as [H _]. auto.
Qed.
Lemma map_ext_in' {A B} (f g : A -> B) l : (forall x, In x l -> f x = g x) -> map f l = map g l.
Proof. intros H. apply map_ext_in, H. Qed.
Definition renamed (i k : nat) (t : string) (r : tbl_row) : tbl_row :=
  if Nat.eqb (tb_id r) i then {| tb_id := i; tb_coll := k; tb_name := t; tb_uuid := tb_uuid r |} else r.
Lemma renamed_id i k t r : tb_id (renamed i k t r) = tb_id r.
Proof. unfold renamed. destruct (Nat.eqb_spec (tb_id r) i) as [->|_]; reflexivity. Qed.
Lemma rename_table_ok i t nc c c' : rename_table i t nc c = (c', Ok tt) ->
  exists r0, In r0 (tbls c) /\ tb_id r0 = i /\ let k := match nc with Some k => k | None => tb_coll r0 end in
    c' = set_tbls (map (renamed i k t) (tbls c)) c /\ has_id co_id k (colls c) = true /\
    existsb (fun r => negb (Nat.eqb (tb_id r) i) && Nat.eqb (tb_coll r) k && String.eqb (tb_name r) t) (tbls c) = false.
Proof.
  unfold rename_table. destruct (find _ (tbls c)) as [r0|] eqn:F; [|discriminate]. apply find_some in F as [F1 F2]. apply Nat.eqb_eq in F2.
  destruct (existsb _ (tbls c)) eqn:E; [discriminate|]. destruct (has_id co_id _ (colls c)) eqn:G; cbn [negb]; [|discriminate].
  intros H; inversion H. exists r0. split; [exact F1|]. split; [exact F2|]. cbn zeta. split; [reflexivity|]. split; [exact G|exact E].
Qed.
Lemma rename_table_err i t nc c c' e : rename_table i t nc c = (c', Err e) -> c' = c.
Proof.
  unfold rename_table. destruct (find _ (tbls c)); [|intros H; inversion H; reflexivity].
  destruct (existsb _ (tbls c)); [intros H; inversion H; reflexivity|]. destruct (has_id co_id _ (colls c)); cbn [negb]; intros H; inversion H; reflexivity.
Qed.
Lemma renamed_ids i k t l : map tb_id (map (renamed i k t) l) = map tb_id l.
Proof. rewrite map_map. apply map_ext. intros r. apply renamed_id. Qed.
Lemma NoDup_map_in {A B} (f : A -> B) l : NoDup l -> (forall x y, In x l -> In y l -> f x = f y -> x = y) -> NoDup (map f l).
Proof.
  induction l as [|x l IH]; intros N H; cbn; [constructor|]. inversion N; subst. constructor.
  - intros C. apply in_map_iff in C as (y & E & C). assert (y = x) by (apply H; [right; exact C|left; reflexivity|exact E]). subst. contradiction.
  - apply IH; [assumption|]. intros a b Ha Hb. apply H; right; assumption.
Qed.
Lemma wf_rename_table i t nc c : wf c -> wf (fst (rename_table i t nc c)).
Proof.
  intros W. destruct (rename_table i t nc c) as [c1 [[]|e]] eqn:E; cbn [fst]; [|rewrite (rename_table_err _ _ _ _ _ _ E); exact W].
  destruct (rename_table_ok _ _ _ _ _ E) as (r0 & H0 & Hi & -> & Hk & Hu). set (k := match nc with Some k => k | None => tb_coll r0 end) in *.
  destruct W. constructor; flds; try assumption.
  - rewrite renamed_ids. assumption.
  - rewrite map_map. apply NoDup_map_in; [apply (NoDup_map_inv tb_id); assumption|]. intros x y Hx Hy Exy.
    apply (NoDup_map_inj tb_id (tbls c)); try assumption. unfold renamed in Exy.
    destruct (Nat.eqb_spec (tb_id x) i) as [Ex|Nx], (Nat.eqb_spec (tb_id y) i) as [Ey|Ny]; cbn in Exy.
    + congruence.
    + exfalso. pose proof (existsb_false _ _ y Hu Hy) as C. cbn in C. inversion Exy as [[E1 E2]].
      rewrite <- E1, <- E2, Nat.eqb_refl, String.eqb_refl in C. destruct (Nat.eqb_spec (tb_id y) i); [contradiction|discriminate C].
    + exfalso. pose proof (existsb_false _ _ x Hu Hx) as C. cbn in C. inversion Exy as [[E1 E2]].
      rewrite E1, E2, Nat.eqb_refl, String.eqb_refl in C. destruct (Nat.eqb_spec (tb_id x) i); [contradiction|discriminate C].
    + assert (x = y) as ->; [|reflexivity]. exact (NoDup_map_inj _ _ _ _ wf_tb_name0 Hx Hy Exy).
  - intros r H. apply in_map_iff in H as (r' & <- & H). unfold renamed. destruct (Nat.eqb (tb_id r') i); [apply has_id_In, Hk|auto].
  - intros v H. rewrite renamed_ids. auto.
Qed.
Lemma wf_create_function b f orr x c : wf c -> wf (fst (create_function b f orr x c)).
Proof.
  intros W. unfold create_function. destruct (has_id db_id b (dbs c)) eqn:F; cbn [negb]; [|exact W].
  destruct (existsb _ (fns c)) eqn:E.
  - destruct orr; [|exact W]. cbn [fst]. destruct W. constructor; flds; try assumption.
    + rewrite map_map. rewrite (map_ext_in _ (fun r => (fn_db r, fn_name r))); [exact wf_fn_name0|]. intros r _. cbn beta.
      destruct (Nat.eqb_spec (fn_db r) b) as [Eb|], (String.eqb_spec (fn_name r) f) as [Ef|]; cbn; try reflexivity. congruence.
    + intros r H. apply in_map_iff in H as (r' & <- & H). destruct (_ && _); [cbn; apply has_id_In, F|auto].
  - cbn [fst]. destruct W. constructor; flds; try assumption.
    + rewrite map_app. apply NoDup_snoc; [assumption|]. intros C. apply in_map_iff in C as (r & Er & C).
      pose proof (existsb_false _ _ r E C) as E'. cbn in Er, E'. inversion Er as [[E1 E2]]. rewrite E1, E2 in E'.
      rewrite Nat.eqb_refl, String.eqb_refl in E'. discriminate E'.
    + intros r H. apply in_app_or in H as [H|[<-|[]]]; [auto|]. cbn. apply has_id_In, F.
Qed.
Lemma wf_set_fns_filter p c : wf c -> wf (set_fns (filter p (fns c)) c).
Proof.
  intros W. destruct W. constructor; flds; try assumption.
  - apply NoDup_map_filter. assumption.
  - intros r H. apply filter_In in H as [H _]. auto.
Qed.
Lemma wf_drop_function be b ns c : wf c -> wf (fst (drop_function be b ns c)).
Proof.
  intros W. unfold drop_function. destruct be, ns as [|n [|n' ns]]; try exact W;
    (destruct (existsb _ (fns c)); [apply wf_set_fns_filter, W|exact W]).
Qed.
Lemma fst_done {A} (x : catalog * res A) : fst (done x) = fst x.
Proof. destruct x as [c [a|e]]; reflexivity. Qed.
Lemma fst_bind {A B} (x : res A) c (k : A -> catalog * res B) : wf c -> (forall a, wf (fst (k a))) -> wf (fst (bind x c k)).
Proof. intros W H. destruct x; cbn [bind]; [apply H|exact W]. Qed.
Lemma wf_cstep lim be o c : wf c -> wf (fst (cstep lim be o c)).
Proof.
  intros W. destruct o; cbn [cstep]; rewrite ?fst_done.
  - apply wf_create_database, W.
  - unfold schema_create. destruct (String.eqb s staging); [exact W|]. apply fst_bind; [exact W|]. intros b. apply wf_create_collection, W.
  - unfold table_create. apply fst_bind; [exact W|]. intros k. apply wf_create_table, W.
  - cbn [fst]. unfold table_create_crash. apply fst_bind; [exact W|]. intros k. apply wf_create_table_tx, W.
  - apply wf_create_new_version, W.
  - cbn [fst]. apply wf_new_version_tx, W.
  - unfold table_update. apply fst_bind; [exact W|]. intros i. destruct (String.eqb s' s); [apply wf_rename_table, W|].
    apply fst_bind; [exact W|]. intros k. apply wf_rename_table, W.
  - unfold table_delete. apply fst_bind; [exact W|]. intros i. apply wf_delete_table, W.
  - unfold schema_delete. apply fst_bind; [exact W|]. intros i. apply wf_delete_collection, W.
  - unfold catalog_delete. apply fst_bind; [exact W|]. intros i. apply wf_delete_database, W.
  - unfold table_delete_old_versions. apply fst_bind; [exact W|]. intros i. cbn [fst]. apply wf_delete_old_versions, W.
  - unfold function_create. apply fst_bind; [exact W|]. intros b. apply wf_create_function, W.
  - unfold function_delete. apply fst_bind; [exact W|]. intros b. pose proof (wf_drop_function be b names c W) as H.
    destruct (drop_function be b names c) as [c' [[]|[]]]; cbn [fst] in *; try exact H. destruct if_exists; exact H.
Qed.
Lemma wf_reachable c : reachable c -> wf c.
Proof.
  intros (lim & be & os & ->). unfold crun. generalize wf_empty. generalize empty. induction os as [|o os IH]; intros c W; [exact W|].
  cbn [fold_left]. apply IH, wf_cstep, W.
Qed.

(* Lookups *)
Section Lookup.
Context (c : catalog) (W : wf c).
Lemma has_db_fun d b b' : has_db c d b -> has_db c d b' -> b = b'.
Proof.
  intros (r & H1 & H2 & H3) (r' & H1' & H2' & H3'). assert (r = r') as ->; [|congruence].
  apply (NoDup_map_inj db_name (dbs c)); [exact (wf_db_name c W)|assumption|assumption|congruence].
Qed.
Lemma has_db_name d d' b : has_db c d b -> has_db c d' b -> d = d'.
Proof.
  intros (r & H1 & H2 & H3) (r' & H1' & H2' & H3'). assert (r = r') as ->; [|congruence].
  apply (NoDup_map_inj db_id (dbs c)); [exact (wf_db_id c W)|assumption|assumption|congruence].
Qed.
Lemma has_schema_fun d s k k' : has_schema c d s k -> has_schema c d s k' -> k = k'.
Proof.
  intros (b & r & B & H1 & H2 & H3 & H4) (b' & r' & B' & H1' & H2' & H3' & H4'). pose proof (has_db_fun _ _ _ B B') as Eb.
  assert (r = r') as ->; [|congruence].
  apply (NoDup_map_inj _ (colls c) r r' (wf_co_name c W)); [assumption|assumption|congruence].
Qed.
Lemma has_schema_name d s d' s' k : has_schema c d s k -> has_schema c d' s' k -> d = d' /\ s = s'.
Proof.
  intros (b & r & B & H1 & H2 & H3 & H4) (b' & r' & B' & H1' & H2' & H3' & H4').
  assert (r = r') by (apply (NoDup_map_inj co_id (colls c)); [exact (wf_co_id c W)|assumption|assumption|congruence]). subst r'.
  split; [|congruence]. rewrite <- H2' in B'. rewrite <- H2 in B. exact (has_db_name _ _ _ B B').
Qed.
Lemma has_table_fun d s t i u i' u' : has_table c d s t i u -> has_table c d s t i' u' -> i = i' /\ u = u'.
Proof.
  intros (k & r & B & H1 & H2 & H3 & H4 & H5) (k' & r' & B' & H1' & H2' & H3' & H4' & H5'). pose proof (has_schema_fun _ _ _ _ B B') as Eb.
  assert (r = r') as ->; [|split; congruence].
  apply (NoDup_map_inj _ (tbls c) r r' (wf_tb_name c W)); [assumption|assumption|congruence].
Qed.
Lemma has_table_name d s t i u d' s' t' u' : has_table c d s t i u -> has_table c d' s' t' i u' -> d = d' /\ s = s' /\ t = t' /\ u = u'.
Proof.
  intros (k & r & B & H1 & H2 & H3 & H4 & H5) (k' & r' & B' & H1' & H2' & H3' & H4' & H5').
  assert (r = r') by (apply (NoDup_map_inj tb_id (tbls c)); [exact (wf_tb_id c W)|assumption|assumption|congruence]). subst r'.
  assert (k = k') as <- by congruence. destruct (has_schema_name _ _ _ _ _ B B') as [-> ->]. repeat (split; [congruence|]). congruence.
Qed.
Lemma has_function_fun d f x x' : has_function c d f x -> has_function c d f x' -> x = x'.
Proof.
  intros (b & r & B & H1 & H2 & H3 & H4) (b' & r' & B' & H1' & H2' & H3' & H4'). pose proof (has_db_fun _ _ _ B B') as Eb.
  assert (r = r') as ->; [|congruence].
  apply (NoDup_map_inj _ (fns c) r r' (wf_fn_name c W)); [assumption|assumption|congruence].
Qed.
Lemma get_database_ok d b : get_database d c = Ok b <-> has_db c d b.
Proof.
  unfold get_database. split.
  - destruct (find _ (dbs c)) as [r|] eqn:F; [|discriminate]. intros H; inversion H; subst b. apply find_some in F as [F1 F2].
    apply String.eqb_eq in F2. exists r. split; [exact F1|]. split; [exact F2|reflexivity].
  - intros H. destruct (find _ (dbs c)) as [r|] eqn:F.
    + apply find_some in F as [F1 F2]. apply String.eqb_eq in F2. f_equal. apply (has_db_fun d); [|exact H]. exists r. split; [exact F1|]. split; [exact F2|reflexivity].
    + exfalso. destruct H as (r & H1 & H2 & _). pose proof (find_none _ _ F r H1) as N. cbn in N. rewrite H2, String.eqb_refl in N. discriminate N.
Qed.
Lemma in_db_ok d k : In k (colls c) -> in_db d k c = true <-> has_db c d (co_db k).
Proof.
  intros _. unfold in_db. rewrite existsb_exists. split.
  - intros (b & H1 & H2). apply andb_true_iff in H2 as [H2 H3]. apply Nat.eqb_eq in H2. apply String.eqb_eq in H3.
    exists b. split; [exact H1|]. split; assumption.
  - intros (b & H1 & H2 & H3). exists b. split; [exact H1|]. rewrite H2, H3, Nat.eqb_refl, String.eqb_refl. reflexivity.
Qed.
Lemma get_collection_ok d s k : get_collection d s c = Ok k <-> has_schema c d s k.
Proof.
  unfold get_collection. split.
  - destruct (find _ (colls c)) as [r|] eqn:F; [|discriminate]. intros H; inversion H; subst k. apply find_some in F as [F1 F2].
    apply andb_true_iff in F2 as [F2 F3]. apply String.eqb_eq in F3. apply (in_db_ok d r F1) in F2.
    exists (co_db r), r. repeat (split; [assumption || reflexivity|]). reflexivity.
  - intros H. destruct (find _ (colls c)) as [r|] eqn:F.
    + apply find_some in F as [F1 F2]. apply andb_true_iff in F2 as [F2 F3]. apply String.eqb_eq in F3. apply (in_db_ok d r F1) in F2.
      f_equal. apply (has_schema_fun d s); [|exact H]. exists (co_db r), r. repeat (split; [assumption || reflexivity|]). reflexivity.
    + exfalso. destruct H as (b & r & B & H1 & H2 & H3 & _). pose proof (find_none _ _ F r H1) as N. cbn in N.
      rewrite H3, String.eqb_refl, andb_true_r in N. rewrite <- H2 in B. apply (in_db_ok d r H1) in B. congruence.
Qed.
Lemma in_coll_ok d s r : in_coll d s r c = true <-> has_schema c d s (tb_coll r).
Proof.
  unfold in_coll. rewrite existsb_exists. split.
  - intros (k & H1 & H2). apply andb_true_iff in H2 as [H2 H3]. apply andb_true_iff in H2 as [H2 H4]. apply Nat.eqb_eq in H2. apply String.eqb_eq in H4.
    apply (in_db_ok d k H1) in H3. exists (co_db k), k. repeat (split; [assumption || reflexivity|]). exact H2.
  - intros (b & k & B & H1 & H2 & H3 & H4). exists k. split; [exact H1|]. rewrite H4, H3, Nat.eqb_refl, String.eqb_refl. cbn.
    apply (in_db_ok d k H1). rewrite H2. exact B.
Qed.
Lemma get_table_ok d s t i : get_table d s t c = Ok i <-> exists u, has_table c d s t i u.
Proof.
  unfold get_table. split.
  - destruct (find _ (tbls c)) as [r|] eqn:F; [|discriminate]. intros H; inversion H; subst i. apply find_some in F as [F1 F2].
    apply andb_true_iff in F2 as [F2 F3]. apply String.eqb_eq in F3. apply in_coll_ok in F2.
    exists (tb_uuid r), (tb_coll r), r. repeat (split; [assumption || reflexivity|]). reflexivity.
  - intros [u H]. destruct (find _ (tbls c)) as [r|] eqn:F.
    + apply find_some in F as [F1 F2]. apply andb_true_iff in F2 as [F2 F3]. apply String.eqb_eq in F3. apply in_coll_ok in F2.
      f_equal. refine (proj1 (has_table_fun d s t (tb_id r) (tb_uuid r) i u _ H)). exists (tb_coll r), r. repeat (split; [assumption || reflexivity|]). reflexivity.
    + exfalso. destruct H as (k & r & B & H1 & H2 & H3 & _). pose proof (find_none _ _ F r H1) as N. cbn in N.
      rewrite H3, String.eqb_refl, andb_true_r in N. rewrite <- H2 in B. apply in_coll_ok in B. congruence.
Qed.
End Lookup.
