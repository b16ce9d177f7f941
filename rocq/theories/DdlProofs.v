(* Proofs about DdlModel: every world of a history has a well-formed catalog, tables with different locations, and no version that its
   Delta table does not have. *)
From Coq Require Import Ascii String List Arith Bool Lia Permutation.
Import ListNotations.
From Verif Require Import CatalogModel CatalogSpec CatalogProofs CatalogEffects DdlModel DdlSpec.
Open Scope list_scope.

Lemma seq_in w x k w' : In w' (fst (seq w x k)) -> In w' (fst x) \/ (snd x = true /\ In w' (fst (k (last (fst x) w)))).
Proof.
  unfold seq. destruct x as [tr [|]]; cbn [fst snd].
  - destruct (k (last tr w)) as [tr2 ok2]. cbn [fst]. intros H. apply in_app_or in H as [H|H]; auto.
  - auto.
Qed.
Lemma last_app {A} (l m : list A) d : last (l ++ m) d = last m (last l d).
Proof.
  induction m as [|x m IH] using rev_ind; [rewrite app_nil_r; reflexivity|]. rewrite app_assoc, !last_last. reflexivity.
Qed.
Lemma seq_after w x k : after (seq w x k) w = if snd x then after (k (after x w)) (after x w) else after x w.
Proof.
  unfold seq, after. destruct x as [tr [|]]; cbn [fst snd]; [|reflexivity].
  destruct (k (last tr w)) as [tr2 ok2]. cbn [fst]. apply last_app.
Qed.
Lemma seq_ok w x k : snd (seq w x k) = snd x && snd (k (after x w)).
Proof. unfold seq, after. destruct x as [tr [|]]; cbn [fst snd andb]; [|reflexivity]. destruct (k (last tr w)); reflexivity. Qed.

Section Ddl.
Variable lim : nat.
Variable be : backend.
Variable order : list string -> list string.
Variable parse_other : string -> string * string * string.

(* 1. The catalog of a world is one that occurs *)
Definition creach (c : catalog) : Prop := exists os, c = crun lim be os.
Lemma creach_step o c : creach c -> creach (fst (cstep lim be o c)).
Proof. intros [os ->]. exists (os ++ [o]). unfold crun. rewrite fold_left_app. reflexivity. Qed.
Lemma creach_reachable c : creach c -> reachable c.
Proof. intros [os ->]. exists lim, be, os. reflexivity. Qed.
Lemma creach_wf c : creach c -> wf c.
Proof. intros H. apply wf_reachable, creach_reachable, H. Qed.

(* 2. What the operations of the catalog do to locations and versions *)
Definition shrinks (c c' : catalog) : Prop :=
  (forall r, In r (tbls c') -> exists r0, In r0 (tbls c) /\ tb_id r0 = tb_id r /\ tb_uuid r0 = tb_uuid r) /\
  (NoDup (map tb_uuid (tbls c)) -> NoDup (map tb_uuid (tbls c'))) /\
  (forall v, In v (vers c') -> In v (vers c)).
Lemma shrinks_refl c : shrinks c c.
Proof. split; [|split]; auto. intros r H. exists r. auto. Qed.
Lemma shrinks_same c c' : tbls c' = tbls c -> vers c' = vers c -> shrinks c c'.
Proof. intros E1 E2. split; [|split]; rewrite ?E1, ?E2; auto. intros r H. exists r. auto. Qed.
Lemma shrinks_trans a b c : shrinks a b -> shrinks b c -> shrinks a c.
Proof.
  intros (A1 & A2 & A3) (B1 & B2 & B3). split; [|split]; auto. intros r H. destruct (B1 r H) as (r1 & H1 & E1 & E2).
  destruct (A1 r1 H1) as (r0 & H0 & E3 & E4). exists r0. split; [exact H0|]. split; congruence.
Qed.
Lemma shrinks_keep_cols c : shrinks c (keep_cols c).
Proof. split; [|split]; auto. intros r H. exists r. auto. Qed.
Lemma shrinks_keep_vers c : shrinks c (keep_vers c).
Proof. split; [|split]; auto. - intros r H. exists r. auto. - intros v H. cbn in H. apply filter_In in H as [H _]. exact H. Qed.
Lemma shrinks_set_tbls p c : shrinks c (set_tbls (filter p (tbls c)) c).
Proof.
  split; [|split]; auto.
  - intros r H. cbn in H. apply filter_In in H as [H _]. exists r. auto.
  - cbn. apply NoDup_map_filter.
Qed.
Lemma shrinks_keep_tbls c : shrinks c (keep_tbls c).
Proof. unfold keep_tbls. eapply shrinks_trans; [apply (shrinks_set_tbls (fun r => has_id co_id (tb_coll r) (colls c)))|apply shrinks_keep_vers]. Qed.
Lemma shrinks_rename i t nc c : shrinks c (fst (rename_table i t nc c)).
Proof.
  destruct (rename_table i t nc c) as [c' [[]|e]] eqn:E; cbn [fst].
  - destruct (rename_table_ok _ _ _ _ _ E) as (r0 & _ & _ & Ec & _). cbn zeta in Ec. rewrite Ec. set (k := match nc with Some k => k | None => tb_coll r0 end).
    assert (U : forall r, tb_uuid (renamed i k t r) = tb_uuid r) by (intros r; unfold renamed; destruct (Nat.eqb _ _); reflexivity).
    split; [|split]; auto.
    + intros r H. cbn in H. apply in_map_iff in H as (r1 & <- & H). exists r1. split; [exact H|]. split; [symmetry; apply renamed_id|symmetry; apply U].
    + cbn. rewrite map_map. rewrite (map_ext _ _ U). auto.
  - rewrite (rename_table_err _ _ _ _ _ _ E). apply shrinks_refl.
Qed.
Definition shrinking (o : cop) : bool :=
  match o with CreateDb _ | CreateSchema _ _ | Rename _ _ _ _ _ | DropTable _ _ _ | DropSchema _ _ | Vacuum _ _ _ => true | _ => false end.
Lemma shrinks_bind {A B} (x : res A) c (k : A -> catalog * res B) : (forall a, shrinks c (fst (k a))) -> shrinks c (fst (bind x c k)).
Proof. intros H. destruct x; cbn [bind]; [apply H|apply shrinks_refl]. Qed.
Lemma shrinks_cstep o c : shrinking o = true -> shrinks c (fst (cstep lim be o c)).
Proof.
  destruct o; try discriminate; intros _; cbn [cstep]; rewrite ?fst_done.
  - unfold catalog_create, create_database. destruct (existsb _ _); apply shrinks_same; reflexivity.
  - unfold schema_create. destruct (String.eqb _ _); [apply shrinks_refl|]. apply shrinks_bind. intros b. unfold create_collection.
    destruct (existsb _ _); [apply shrinks_refl|]. destruct (negb _); apply shrinks_same; reflexivity.
  - unfold table_update. apply shrinks_bind. intros i. destruct (String.eqb _ _); [apply shrinks_rename|]. apply shrinks_bind. intros k. apply shrinks_rename.
  - unfold table_delete. apply shrinks_bind. intros i. unfold delete_table. destruct (has_id _ _ _); [|apply shrinks_refl].
    eapply shrinks_trans; [apply shrinks_set_tbls|apply shrinks_keep_vers].
  - unfold schema_delete. apply shrinks_bind. intros i. unfold delete_collection. destruct (has_id _ _ _); [|apply shrinks_refl].
    cbn [fst]. match goal with |- shrinks c (keep_tbls ?x) => eapply (shrinks_trans c x); [apply shrinks_same; reflexivity|apply shrinks_keep_tbls] end.
  - unfold table_delete_old_versions. apply shrinks_bind. intros i. cbn [fst]. unfold delete_old_versions.
    match goal with |- shrinks c (keep_cols ?x) => eapply (shrinks_trans c x); [|apply shrinks_keep_cols] end.
    split; [|split]; auto. + intros r H. exists r. auto. + intros v H. cbn in H. apply filter_In in H as [H _]. exact H.
Qed.
(* CREATE TABLE adds at most one row *)
Definition grows (u : nat) (c c' : catalog) : Prop :=
  (tbls c' = tbls c /\ vers c' = vers c) \/
  exists r v, tbls c' = tbls c ++ [r] /\ vers c' = vers c ++ [v] /\ tb_uuid r = u /\ ve_tbl v = tb_id r /\ ve_version v = 0 /\ ~ In (tb_id r) (map tb_id (tbls c)).
Lemma grows_tx k t u now c : grows u c (fst (create_table_tx k t u now c)).
Proof.
  destruct (create_table_tx k t u now c) as [c' [[i v]|e]] eqn:E; cbn [fst].
  - destruct (create_table_tx_ok _ _ _ _ _ _ _ _ E) as (Ei & _ & -> & _). right. do 2 eexists. cbn. repeat (split; [reflexivity|]). cbn.
    rewrite Ei. apply fresh_notin.
  - rewrite (create_table_tx_err _ _ _ _ _ _ _ E). left. auto.
Qed.
Lemma grows_crash d s t u now c : grows u c (fst (cstep lim be (CreateTableCrash d s t u now) c)).
Proof. cbn [cstep fst]. unfold table_create_crash. destruct (schema_get d s c); cbn [bind]; [apply grows_tx|left; auto]. Qed.
Lemma grows_create d s t fields u now c : grows u c (fst (cstep lim be (CreateTable d s t fields u now) c)).
Proof.
  cbn [cstep]. rewrite fst_done. unfold table_create. destruct (schema_get d s c) as [k|e]; cbn [bind]; [|left; auto].
  unfold create_table. pose proof (grows_tx k t u now c) as G. destruct (create_table_tx k t u now c) as [c1 [[i v]|e]]; cbn [fst] in *; [|exact G].
  unfold insert_columns. destruct (_ && _); exact G.
Qed.
(* recording a version adds at most one version of a table at u *)
Definition versions (u ver : nat) (c c' : catalog) : Prop :=
  tbls c' = tbls c /\
  (vers c' = vers c \/ exists v r, vers c' = vers c ++ [v] /\ In r (tbls c) /\ tb_id r = ve_tbl v /\ tb_uuid r = u /\ ve_version v = ver).
Lemma versions_tx u ver now c : wf c -> versions u ver c (fst (new_version_tx u ver now c)).
Proof.
  intros W. destruct (new_version_tx u ver now c) as [c' [[l n]|e]] eqn:E; cbn [fst].
  - destruct (new_version_tx_ok _ _ _ _ _ _ _ E) as (v & L & Hv & El & _ & ->). split; [reflexivity|]. right.
    unfold last_version_id in L. destruct (map ve_id (filter _ (vers c))) as [|x m] eqn:M; [discriminate L|]. injection L as L.
    assert (S : In l (x :: m)) by (rewrite <- L; apply (list_max_in (x :: m)); discriminate). rewrite <- M in S. apply in_map_iff in S as (v1 & S1 & S2).
    apply filter_In in S2 as [S2 S3]. assert (v1 = v) as -> by (apply (NoDup_map_inj ve_id (vers c)); [apply W|assumption|assumption|congruence]).
    apply existsb_exists in S3 as (r & R1 & R2). apply andb_true_iff in R2 as [R2 R3]. apply Nat.eqb_eq in R2. apply Nat.eqb_eq in R3.
    eexists _, r. cbn. split; [reflexivity|]. auto.
  - rewrite (new_version_tx_err _ _ _ _ _ _ E). split; auto.
Qed.
Lemma versions_crash u ver now c : wf c -> versions u ver c (fst (cstep lim be (NewVersionCrash u ver now) c)).
Proof. intros W. cbn [cstep fst]. apply versions_tx, W. Qed.
Lemma versions_new u ver now c : wf c -> versions u ver c (fst (cstep lim be (NewVersion u ver now) c)).
Proof.
  intros W. cbn [cstep]. rewrite fst_done. unfold create_new_version. pose proof (versions_tx u ver now c W) as V.
  destruct (new_version_tx u ver now c) as [c1 [[l n]|e]]; exact V.
Qed.

(* 3. The invariant *)
Record inv (w : world) : Prop := {
  inv_cat : creach (cat w);
  inv_loc : NoDup (map tb_uuid (tbls (cat w)));
  inv_raw : forall u r, data w u = Raw r -> ~ In u (map tb_uuid (tbls (cat w)));
  inv_ver : forall r v n ws, In r (tbls (cat w)) -> In v (vers (cat w)) -> ve_tbl v = tb_id r -> data w (tb_uuid r) = Delta n ws -> ve_version v <= n }.
Lemma inv_wf w : inv w -> wf (cat w). Proof. intros I. apply creach_wf, I. Qed.
Lemma inv_shrink o w : inv w -> shrinking o = true -> inv (set_cat (fst (cstep lim be o (cat w))) w).
Proof.
  intros I H. destruct (shrinks_cstep o (cat w) H) as (S1 & S2 & S3). constructor; cbn.
  - apply creach_step, I.
  - apply S2, I.
  - intros u r E C. apply (inv_raw w I u r E). apply in_map_iff in C as (r1 & <- & C). destruct (S1 r1 C) as (r0 & R0 & _ & E2). rewrite <- E2. apply in_map, R0.
  - intros r v n ws R V E D. destruct (S1 r R) as (r0 & R0 & E1 & E2). apply (inv_ver w I r0 v n ws R0 (S3 v V)); [congruence|]. rewrite E2. exact D.
Qed.
Lemma put_same u b w : data (put u b w) u = b. Proof. cbn. rewrite Nat.eqb_refl. reflexivity. Qed.
Lemma put_other u b w u' : u' <> u -> data (put u b w) u' = data w u'.
Proof. intros N. cbn. destruct (Nat.eqb_spec u' u) as [->|_]; [contradiction|reflexivity]. Qed.
Lemma inv_put u b w : inv w -> ((exists r, b = Raw r) -> ~ In u (map tb_uuid (tbls (cat w)))) ->
  (forall n ws r v, b = Delta n ws -> In r (tbls (cat w)) -> tb_uuid r = u -> In v (vers (cat w)) -> ve_tbl v = tb_id r -> ve_version v <= n) ->
  inv (put u b w).
Proof.
  intros I Hr Hv. constructor; cbn [put cat].
  - apply I.
  - apply I.
  - intros u' r E. destruct (Nat.eq_dec u' u) as [->|N]; [|rewrite put_other in E by exact N; exact (inv_raw w I u' r E)].
    rewrite put_same in E. apply Hr. exists r. exact E.
  - intros r v n ws R V E D. destruct (Nat.eq_dec (tb_uuid r) u) as [E2|N]; [|rewrite put_other in D by exact N; exact (inv_ver w I r v n ws R V E D)].
    rewrite E2, put_same in D. exact (Hv n ws r v D R E2 V E).
Qed.
Lemma inv_put_gone u b w : inv w -> b = Broken \/ b = Absent -> inv (put u b w).
Proof. intros I H. apply inv_put; [exact I| |]. - intros [r C]. destruct H; congruence. - intros n ws r v C. destruct H; congruence. Qed.
Lemma inv_grow w c' u : inv w -> creach c' -> grows u (cat w) c' -> ~ In u (map tb_uuid (tbls (cat w))) -> (exists n ws, data w u = Delta n ws) -> inv (set_cat c' w).
Proof.
  intros I R [[E1 E2]|(r & v & E1 & E2 & Er & Ev & E0 & Fr)] U (n & ws & D); constructor; cbn; try exact R; rewrite ?E1, ?E2; try apply I.
  - rewrite map_app. apply NoDup_snoc; [apply I|]. cbn. rewrite Er. exact U.
  - intros u' x Ex C. rewrite map_app in C. apply in_app_or in C as [C|[C|[]]]; [exact (inv_raw w I u' x Ex C)|]. congruence.
  - intros r' v' n' ws' R' V' E D'. apply in_app_or in R' as [R'|[<-|[]]]; apply in_app_or in V' as [V'|[<-|[]]].
    + exact (inv_ver w I r' v' n' ws' R' V' E D').
    + lia.
    + exfalso. apply Fr. rewrite <- E. apply (wf_ve_fk _ (inv_wf w I)), V'.
    + lia.
Qed.
Lemma inv_version w c' u ver ws : inv w -> creach c' -> versions u ver (cat w) c' -> data w u = Delta ver ws -> inv (set_cat c' w).
Proof.
  intros I R [Et H] D. constructor; cbn; try exact R; rewrite ?Et; try apply I.
  intros r v n ws' Hr Hv E D'. destruct H as [H|(v0 & r0 & H & H1 & H2 & H3 & H4)]; rewrite H in Hv.
  - exact (inv_ver w I r v n ws' Hr Hv E D').
  - apply in_app_or in Hv as [Hv|[<-|[]]]; [exact (inv_ver w I r v n ws' Hr Hv E D')|].
    assert (r = r0) as -> by (apply (NoDup_map_inj tb_id (tbls (cat w))); [apply (inv_wf w I)|assumption|assumption|congruence]).
    rewrite H3, D in D'. injection D' as <- _. lia.
Qed.

(* 4. Lookups *)
Lemma table_uuid_ok d s t c u : wf c -> table_uuid d s t c = Some u <-> exists i, has_table c d s t i u.
Proof.
  intros W. unfold table_uuid. destruct (find _ (tbls c)) as [r|] eqn:F.
  - apply find_some in F as [F1 F2]. apply andb_true_iff in F2 as [F2 F3]. apply (in_coll_ok c) in F2. apply String.eqb_eq in F3.
    assert (T : has_table c d s t (tb_id r) (tb_uuid r)) by (exists (tb_coll r), r; auto 8).
    split; [intros H; injection H as <-; exists (tb_id r); exact T|]. intros (i & T'). f_equal. exact (proj2 (has_table_fun c W _ _ _ _ _ _ _ T T')).
  - split; [discriminate|]. intros (i & k & r & K & H1 & H2 & H3 & H4 & H5). exfalso.
    pose proof (find_none _ _ F r H1) as N. cbn beta in N. rewrite H3, String.eqb_refl, andb_true_r in N.
    rewrite (proj2 (in_coll_ok c d s r)) in N; [discriminate N|]. rewrite H2. exact K.
Qed.
Lemma table_uuid_none d s t c : wf c -> table_uuid d s t c = None <-> ~ exists i u, has_table c d s t i u.
Proof.
  intros W. split.
  - intros E (i & u & T). assert (H : table_uuid d s t c = Some u) by (apply (table_uuid_ok d s t c u W); exists i; exact T). congruence.
  - intros N. destruct (table_uuid d s t c) as [u|] eqn:E; [|reflexivity]. apply (table_uuid_ok d s t c u W) in E as [i T]. exfalso. apply N. exists i, u. exact T.
Qed.
Lemma provider_delta D d s t w u v ws : inv w -> provider D d s t w = Some (PDelta u v ws) <-> d = D /\ ordinary s /\ located w d s t u /\ data w u = Delta v ws.
Proof.
  intros I. pose proof (inv_wf w I) as W. unfold provider, ordinary. destruct (String.eqb_spec d D) as [->|N]; cbn [negb]; [|split; [discriminate|intros (C & _); contradiction]].
  destruct (String.eqb_spec s staging) as [->|N1]; [split; [destruct (existsb _ _); discriminate|intros (_ & [C _] & _); exfalso; apply C; reflexivity]|].
  destruct (String.eqb_spec s system) as [->|N2]; [split; [destruct (existsb _ _); discriminate|intros (_ & [_ C] & _); exfalso; apply C; reflexivity]|].
  destruct (table_uuid D s t (cat w)) as [u0|] eqn:E.
  - pose proof E as E'. apply (table_uuid_ok D s t (cat w) u0 W) in E'. split.
    + destruct (data w u0) eqn:Dt; try discriminate. intros H. injection H as <- <- <-. auto 8.
    + intros (_ & _ & L & Dt). apply (table_uuid_ok D s t (cat w) u W) in L. assert (u0 = u) as -> by congruence. rewrite Dt. reflexivity.
  - split; [discriminate|]. intros (_ & _ & L & _). apply (table_uuid_ok D s t (cat w) u W) in L. congruence.
Qed.
Lemma is_delta_ok D d s t w : inv w -> is_delta (provider D d s t w) = true <-> d = D /\ ordinary s /\ exists v ws, holds w d s t v ws.
Proof.
  intros I. split.
  - destruct (provider D d s t w) as [[u v ws|]|] eqn:E; try discriminate. intros _. apply (provider_delta _ _ _ _ _ _ _ _ I) in E as (E1 & E2 & E3 & E4).
    split; [exact E1|]. split; [exact E2|]. exists v, ws, u. auto.
  - intros (E1 & E2 & v & ws & u & E3 & E4). rewrite (proj2 (provider_delta D d s t w u v ws I)); auto.
Qed.
Lemma located_in w d s t u : located w d s t u -> In u (map tb_uuid (tbls (cat w))).
Proof. intros (i & k & r & _ & H & _ & _ & _ & <-). apply in_map, H. Qed.
Lemma located_own w d s t d' s' t' u : inv w -> located w d s t u -> located w d' s' t' u -> d = d' /\ s = s' /\ t = t'.
Proof.
  intros I (i & k & r & K & H1 & H2 & H3 & H4 & H5) (i' & k' & r' & K' & H1' & H2' & H3' & H4' & H5').
  assert (r = r') as <- by (apply (NoDup_map_inj tb_uuid (tbls (cat w))); [apply I|assumption|assumption|congruence]).
  destruct (has_schema_name (cat w) (inv_wf w I) d s d' s' k K) as [-> ->]; [congruence|]. split; [reflexivity|]. split; congruence.
Qed.
Lemma located_fun w d s t u u' : inv w -> located w d s t u -> located w d s t u' -> u = u'.
Proof. intros I (i & H) (i' & H'). exact (proj2 (has_table_fun _ (inv_wf w I) _ _ _ _ _ _ _ H H')). Qed.

(* 5. Every world of every statement *)
Lemma inv_cat_step o w w' : inv w -> shrinking o = true -> In w' (fst (cat_step lim be o w)) -> inv w'.
Proof.
  intros I H. unfold cat_step. pose proof (inv_shrink o w I H) as P. destruct (cstep lim be o (cat w)) as [c ok]. cbn [fst] in *.
  intros [<-|[]]. exact P.
Qed.
Lemma inv_create_at D d s t fields u now b w w' : inv w -> ~ In u (map tb_uuid (tbls (cat w))) -> (exists ws, b = Delta 0 ws) ->
  In w' (fst (create_at lim be D d s t fields u now b w)) -> inv w'.
Proof.
  intros I U [ws ->] H.
  assert (I1 : inv (put u (Delta 0 ws) w)).
  { apply inv_put; [exact I|intros [r C]; discriminate C|]. intros n ws' r v _ R E. exfalso. apply U. rewrite <- E. apply in_map, R. }
  unfold create_at in H. apply seq_in in H as [[<-|[]]|[_ H]]; [exact I1|]. cbn [fst last] in H. apply seq_in in H as [H|[_ H]]; [|destruct H].
  assert (Dt : exists n ws', data (put u (Delta 0 ws) w) u = Delta n ws') by (exists 0, ws; apply put_same).
  pose proof (inv_grow (put u (Delta 0 ws) w) (fst (cstep lim be (CreateTable D s t fields u now) (cat w))) u I1) as G1.
  pose proof (inv_grow (put u (Delta 0 ws) w) (fst (cstep lim be (CreateTableCrash D s t u now) (cat w))) u I1) as G2.
  unfold register_catalog in H. cbn [put cat] in H. destruct (cstep lim be (CreateTable D s t fields u now) (cat w)) as [c ok] eqn:E. cbn [fst In] in H.
  destruct H as [<-|[<-|[]]].
  - apply G2; [apply creach_step, I|apply grows_crash|exact U|exact Dt].
  - apply G1; [change c with (fst (c, ok)); rewrite <- E; apply creach_step, I| |exact U|exact Dt].
    change c with (fst (c, ok)). rewrite <- E. apply grows_create.
Qed.
Lemma inv_create D d s t fields u now w w' : inv w -> unused w u -> In w' (fst (create_delta_table lim be D d s t fields u now w)) -> inv w'.
Proof.
  intros I [_ U]. unfold create_delta_table. destruct (schema_get _ _ _); [|intros []]. apply inv_create_at; [exact I|exact U|exists []; reflexivity].
Qed.
Lemma inv_convert D d s t fields u now w w' : inv w -> In w' (fst (convert_delta_table lim be D d s t fields u now w)) -> inv w'.
Proof.
  intros I. unfold convert_delta_table. destruct (schema_get _ _ _); [|intros []]. destruct (data w u) eqn:E; try (intros []).
  apply inv_create_at; [exact I|exact (inv_raw w I u r E)|exists [r]; reflexivity].
Qed.
Lemma inv_plan D d s t x now w w' : inv w -> In w' (fst (plan_to_delta_table lim be D d s t x now w)) -> inv w'.
Proof.
  intros I. unfold plan_to_delta_table. destruct (provider D d s t w) as [[u v ws|]|] eqn:E; try (intros []).
  apply (provider_delta _ _ _ _ _ _ _ _ I) in E as (_ & _ & L & Dt). intros H.
  assert (I1 : inv (put u (Delta (S v) (ws ++ [x])) w)).
  { apply inv_put; [exact I|intros [r C]; discriminate C|]. intros n ws' r v' E R Er V Ev. injection E as <- _. rewrite <- Er in Dt.
    pose proof (inv_ver w I r v' v ws R V Ev Dt). lia. }
  apply seq_in in H as [[<-|[]]|[_ H]]; [exact I1|]. cbn [fst last] in H. unfold record_version in H. cbn [put cat] in H.
  pose proof (inv_wf w I) as W.
  pose proof (versions_new u (S v) now (cat w) W) as V1. pose proof (versions_crash u (S v) now (cat w) W) as V2.
  pose proof (creach_step (NewVersion u (S v) now) (cat w) (inv_cat w I)) as R1. pose proof (creach_step (NewVersionCrash u (S v) now) (cat w) (inv_cat w I)) as R2.
  destruct (cstep lim be (NewVersion u (S v) now) (cat w)) as [c ok] eqn:Ec. cbn [fst In] in *.
  destruct H as [<-|[<-|[]]].
  - refine (inv_version _ _ u (S v) (ws ++ [x]) I1 _ _ (put_same _ _ _)); assumption.
  - refine (inv_version _ _ u (S v) (ws ++ [x]) I1 _ _ (put_same _ _ _)); assumption.
Qed.
Lemma inv_delete D d s t w w' : inv w -> In w' (fst (delete_delta_table D d s t w)) -> inv w'.
Proof.
  intros I. unfold delete_delta_table. destruct (provider D d s t w) as [[u v ws|]|]; [|intros []|intros []].
  intros [<-|[<-|[]]].
  - apply inv_put_gone; auto.
  - apply inv_put_gone; [apply inv_put_gone|]; auto.
Qed.
Lemma in_last {A} (l : list A) d : In (last l d) (d :: l).
Proof. induction l as [|x l IH] using rev_ind; [left; reflexivity|]. rewrite last_last. right. apply in_or_app. right. left. reflexivity. Qed.
Lemma inv_after (x : result) w : inv w -> (forall w', In w' (fst x) -> inv w') -> inv (after x w).
Proof. intros I H. unfold after. destruct (in_last (fst x) w) as [<-|C]; [exact I|exact (H _ C)]. Qed.
Lemma inv_seq w x k : inv w -> (forall w', In w' (fst x) -> inv w') -> (forall w0 w', inv w0 -> In w' (fst (k w0)) -> inv w') ->
  forall w', In w' (fst (seq w x k)) -> inv w'.
Proof. intros I Hx Hk w' H. apply seq_in in H as [H|[_ H]]; [exact (Hx _ H)|]. refine (Hk _ _ _ H). exact (inv_after x w I Hx). Qed.
Lemma inv_drop_each D s ts : forall w w', inv w -> In w' (fst (drop_each lim be D s ts w)) -> inv w'.
Proof.
  induction ts as [|t ts IH]; intros w w' I H; [destruct H|]. cbn [drop_each] in H. revert w' H. apply inv_seq; [exact I| |intros w0 w' I0 H; exact (IH w0 w' I0 H)].
  apply inv_seq; [exact I|intros w' H; exact (inv_delete _ _ _ _ _ _ I H)|]. intros w0 w' I0. apply inv_cat_step; [exact I0|reflexivity].
Qed.
Lemma inv_append D s t fields x u now ex w w' : inv w -> unused w u -> In w' (fst (as_append lim be D s t fields x u now ex w)) -> inv w'.
Proof.
  intros I U. unfold as_append. destruct ex; [apply inv_plan, I|]. revert w'. apply inv_seq; [exact I|intros w'; apply inv_create; assumption|].
  intros w0 w' I0. apply inv_plan, I0.
Qed.
Lemma unused_schema D s w u : unused w u -> unused (after (cat_step lim be (CreateSchema D s) w) w) u.
Proof.
  intros [U1 U2]. unfold cat_step, after. destruct (cstep lim be (CreateSchema D s) (cat w)) as [c ok] eqn:E. cbn [fst last]. split; cbn; [exact U1|].
  intros C. apply U2. apply in_map_iff in C as (r & <- & C). destruct (shrinks_cstep (CreateSchema D s) (cat w) eq_refl) as (S1 & _). rewrite E in S1.
  destruct (S1 r C) as (r0 & R0 & _ & <-). apply in_map, R0.
Qed.
Lemma inv_exec D u now st w : inv w -> unused w u -> forall w', In w' (points (exec lim be order parse_other D u now st w) w) -> inv w'.
Proof.
  intros I U w' [<-|H]; [exact I|]. revert w' H. destruct st; cbn [exec].
  - intros w'. apply inv_cat_step; [exact I|reflexivity].
  - destruct (get_database d (cat w)); [intros w' []|]. apply inv_seq; [exact I|intros w'; apply inv_cat_step; [exact I|reflexivity]|].
    intros w0 w' I0. apply inv_cat_step; [exact I0|reflexivity].
  - intros w'. apply inv_create; assumption.
  - destruct (_ && _); [intros w' []|]. apply inv_seq; [exact I|intros w'; apply inv_create; assumption|]. intros w0 w' I0. apply inv_plan, I0.
  - intros w'. apply inv_plan, I.
  - destruct (provider D d s t w) as [[u0 v ws|]|] eqn:E; [|intros w' []|intros w' []].
    + intros w' [<-|[]]. apply (provider_delta _ _ _ _ _ _ _ _ I) in E as (_ & _ & L & Dt).
      apply inv_put; [exact I|intros [r C]; discriminate C|]. intros n ws' r v' E R Er V Ev. injection E as <- _. rewrite <- Er in Dt.
      pose proof (inv_ver w I r v' v ws R V Ev Dt). lia.
  - intros w'. apply inv_cat_step; [exact I|reflexivity].
  - intros w'. apply inv_convert, I.
  - destruct (_ && _); [intros w' []|]. destruct (String.eqb s staging).
    + destruct (negb (String.eqb d D)); [intros w' []|]. intros w' [<-|[]]. destruct I. constructor; assumption.
    + apply inv_seq; [exact I|intros w'; cbn [fst]; apply inv_delete, I|]. intros w0 w' I0. apply inv_cat_step; [exact I0|reflexivity].
  - destruct (negb (String.eqb d D)); [intros w' []|]. destruct (negb (session_schema D s w)); [intros w' []|].
    apply inv_seq; [exact I|intros w'; apply inv_drop_each, I|]. intros w0 w' I0. apply inv_cat_step; [exact I0|reflexivity].
  - destruct (provider D d s t w); [|intros w' []]. destruct (provider D d' s' t' w); [intros w' []|].
    destruct (negb (String.eqb d' D)); [intros w' []|]. intros w'. apply inv_cat_step; [exact I|reflexivity].
  - unfold upload. destruct (session_schema D s w).
    + destruct (parse_name parse_other D t) as [[d' s'] t']. intros w'. apply inv_append; assumption.
    + intros w' H. apply seq_in in H as [H|[_ H]]; [revert H; apply inv_cat_step; [exact I|reflexivity]|]. revert H. apply inv_append.
      * apply (inv_after (cat_step lim be (CreateSchema D s) w) w I). intros w0. apply inv_cat_step; [exact I|reflexivity].
      * apply unused_schema, U.
Qed.
Lemma inv_reach w : reach lim be order parse_other w -> inv w.
Proof.
  induction 1 as [|D u now st w w' R IH U H|u r w R IH U|t w R IH].
  - constructor; cbn; [exists []; reflexivity|constructor|discriminate|intros r v n ws []].
  - exact (inv_exec D u now st w IH U w' H).
  - apply inv_put; [exact IH|intros _; apply U|discriminate].
  - destruct IH. constructor; assumption.
Qed.
End Ddl.

(* Names *)
Lemma word_ascii_spec a : word_ascii a = true <-> capital a \/ small a \/ a = "_"%char.
Proof.
  unfold word_ascii, capital, small. rewrite !orb_true_iff, !andb_true_iff, !Nat.leb_le, Nat.eqb_eq.
  assert (E : nat_of_ascii a = 95 <-> a = "_"%char) by (split; [intros E; rewrite <- (ascii_nat_embedding a), E; reflexivity|intros ->; reflexivity]). tauto.
Qed.
Lemma simple_spec t : simple t = true <-> plain t.
Proof.
  unfold simple, plain. rewrite andb_true_iff, negb_true_iff, String.eqb_neq.
  assert (E : all_word t = true <-> Forall (fun a => capital a \/ small a \/ a = "_"%char) (list_ascii_of_string t)).
  { induction t as [|a t IH]; cbn; [split; [constructor|reflexivity]|]. rewrite andb_true_iff, word_ascii_spec, IH. split; [intros []; constructor; assumption|intros F; inversion F; auto]. }
  rewrite E. reflexivity.
Qed.
Lemma lower_spec t : lower_case t (lower t).
Proof.
  unfold lower_case. induction t as [|a t IH]; cbn; [constructor|]. constructor; [|exact IH]. unfold lower_ascii, capital.
  destruct (Nat.leb 65 (nat_of_ascii a) && Nat.leb (nat_of_ascii a) 90) eqn:E.
  - apply andb_true_iff in E as [E1 E2]. apply Nat.leb_le in E1. apply Nat.leb_le in E2. left. split; [lia|]. apply nat_ascii_embedding. lia.
  - right. split; [|reflexivity]. intros [C1 C2]. apply Nat.leb_le in C1. apply Nat.leb_le in C2. rewrite C1, C2 in E. discriminate.
Qed.
Lemma lower_case_fun t t1 t2 : lower_case t t1 -> lower_case t t2 -> t1 = t2.
Proof.
  unfold lower_case. intros H1 H2. rewrite <- (string_of_list_ascii_of_string t1), <- (string_of_list_ascii_of_string t2). f_equal.
  revert H2. generalize (list_ascii_of_string t2). induction H1 as [|a b l l' H H1 IH]; intros l2 H2; inversion H2 as [|? b' ? ? H' H2']; subst; [reflexivity|].
  f_equal; [|exact (IH _ H2')]. destruct H as [[C E]|[C ->]], H' as [[C' E']|[C' ->]]; try contradiction; [|reflexivity].
  rewrite <- (ascii_nat_embedding b), <- (ascii_nat_embedding b'). congruence.
Qed.
Lemma lower_case_lower t t' : lower_case t t' -> lower t = t'.
Proof. intros H. exact (lower_case_fun t _ _ (lower_spec t) H). Qed.
