(* C43, C45-C47, C50-C52, C73-C78: statements that change the catalog and the object store. Model: DdlModel.v; what the statements mean:
   DdlSpec.v (and CatalogSpec.v). [points x w] are the worlds in which a statement can stop, [after x w] the one it ends in. *)
From Coq Require Import String List Arith Bool Lia Permutation.
Import ListNotations.
From Verif Require Import CatalogModel CatalogSpec CatalogProofs CatalogEffects DdlModel DdlSpec DdlProofs DdlEffects.
Open Scope list_scope.

Section Ddl.
Variable lim : nat.
Variable be : backend.
Variable order : list string -> list string.
Variable parse_other : string -> string * string * string.
Notation exec := (exec lim be order parse_other).
Notation reach := (reach lim be order parse_other).
Notation inv_of := (inv_reach lim be order parse_other).

(* C45: CREATE TABLE succeeds exactly under these conditions, and then the table is there, empty, with its columns. Wherever it stops, no
   other table is touched; if the name is taken or the schema is missing, the catalog stays as it is at every point. *)
Theorem c45_create_table_partial D d s t ine fields u now w : reach w -> unused w u ->
  let x := exec D u now (SCreateTable d s t ine fields) w in
  (snd x = true <-> d = D /\ ordinary s /\ exists_schema w D s /\ ~ exists_table w D s t /\ fields_ok lim fields) /\
  (snd x = true -> holds (after x w) d s t 0 [] /\ recorded (after x w) d s t 0 /\
     forall name type, column_of (after x w) d s t name type <-> In (name, type) fields) /\
  (forall w', In w' (points x w) -> other_tables D s t w w') /\
  (~ exists_schema w D s \/ exists_table w D s t -> forall w', In w' (points x w) -> cat w' = cat w).
Proof.
  intros R U x. pose proof (inv_of w R) as I. pose proof (inv_wf lim be w I) as W. subst x. cbn [DdlModel.exec].
  destruct (create_effect lim be D d s t fields u now w I U) as (H1 & H2 & H3 & H4 & H5). set (x := create_delta_table lim be D d s t fields u now w) in *.
  split; [|split; [|split]].
  - rewrite H1. unfold free, ordinary. change "staging"%string with staging. change "system"%string with system. tauto.
  - intros Ok. apply H1 in Ok as (F & Fo & -> & N). destruct (H3 F) as (_ & _ & _ & _ & _ & i & v & (_ & A2 & A3 & A4) & _ & _ & _ & C & Cv).
    assert (T : has_table (cat (after x w)) D s t i u) by (apply A3; auto 8).
    assert (V : has_version (cat (after x w)) i v now 0) by (apply A4; auto 8).
    split; [exists u; split; [exists i; exact T|apply H4; apply F]|]. split; [exists i, u, v, now; auto|].
    intros name type. split.
    + intros (i' & u' & v' & time & n & T' & V' & C'). apply C in C' as [C'|(_ & _ & C')]; [|exact C']. exfalso.
      apply A3 in T' as [T'|(_ & _ & _ & -> & _)]; [destruct F as (_ & _ & F); apply F; exists i', u'; exact T'|].
      apply A4 in V' as [V'|(_ & -> & _)].
      * apply (wf_ve_fk _ W) in V'. cbn in V'. apply in_map_iff in V' as (r & Er & Hr). pose proof (wf_tb_fk _ W r Hr) as K. apply in_map_iff in K as (k & Ek & Hk).
        pose proof (wf_co_fk _ W k Hk) as B. apply in_map_iff in B as (b & Eb & Hb).
        destruct (H3 F) as (_ & _ & _ & _ & _ & i2 & v2 & (A1' & _ & A3' & _) & _). 
        assert (i2 = i). { pose proof (proj2 (A3' D s t i2 u) (or_intror (conj eq_refl (conj eq_refl (conj eq_refl (conj eq_refl eq_refl)))))) as T2.
          apply A3 in T2 as [T2|(_ & _ & _ & E & _)]; [|exact E]. destruct F as (_ & _ & F). exfalso. apply F. exists i2, u. exact T2. }
        subst i2. apply (A1' (db_name b) (co_name k) (tb_name r) (tb_uuid r)). exists (tb_coll r), r. split; [|auto]. exists (co_db k), k. split; [exists b; auto|auto].
      * exact (Cv name type C').
    + intros Hin. exists i, u, v, now, 0. split; [exact T|]. split; [exact V|]. apply C. right. auto.
  - intros w' [<-|H]; [intros ? ? ? _; apply all_same_intro; [apply same_tables_refl|intros ?; reflexivity]|]. exact (create_points lim be D d s t fields u now w w' I U H).
  - intros N w' [<-|H]; [reflexivity|]. apply (H2); [|exact H]. intros (_ & F1 & F2). tauto.
Qed.
(* ... but a crash can leave the table without columns, and the statement cannot be repeated then ... *)
Theorem c45_crash_refuted D d s t ine fields u now w : reach w -> unused w u -> s <> "staging"%string -> exists_schema w D s -> ~ exists_table w D s t ->
  exists w', In w' (points (exec D u now (SCreateTable d s t ine fields) w) w) /\ located w' D s t u /\
    (forall name type, ~ column_of w' D s t name type) /\
    (forall u' now' ine' fields', unused w' u' -> snd (exec D u' now' (SCreateTable d s t ine' fields') w') = false).
Proof.
  intros R U N S F. pose proof (inv_of w R) as I. pose proof (inv_wf lim be w I) as W. assert (Fr : free w D s t) by (split; [exact N|auto]).
  destruct (create_effect lim be D d s t fields u now w I U) as (_ & _ & H3 & _). destruct (H3 Fr) as (w1 & w2 & E & _ & (i & v & (A1 & A2 & A3 & A4) & Cv & Ss) & _).
  exists w2. cbn [DdlModel.exec]. unfold points. rewrite E. assert (T : has_table (cat w2) D s t i u) by (apply A3; auto 8).
  assert (R2 : reach w2). { apply (reach_exec lim be order parse_other D u now (SCreateTable d s t ine fields) w w2 R U). cbn [DdlModel.exec]. unfold points. rewrite E. right. right. left. reflexivity. }
  split; [right; right; left; reflexivity|]. split; [exists i; exact T|]. split.
  - intros name type (i' & u' & v' & time & n & T' & V' & C'). apply A3 in T' as [T'|(_ & _ & _ & -> & _)]; [apply F; exists i', u'; exact T'|].
    apply A4 in V' as [V'|(_ & -> & _)]; [|exact (Cv name type C')].
    apply (wf_ve_fk _ W) in V'. cbn in V'. apply in_map_iff in V' as (r & Er & Hr). pose proof (wf_tb_fk _ W r Hr) as K. apply in_map_iff in K as (k & Ek & Hk).
    pose proof (wf_co_fk _ W k Hk) as B. apply in_map_iff in B as (b & Eb & Hb).
    apply (A1 (db_name b) (co_name k) (tb_name r) (tb_uuid r)). exists (tb_coll r), r. split; [|auto]. exists (co_db k), k. split; [exists b; auto|auto].
  - intros u' now' ine' fields' U'. destruct (create_effect lim be D d s t fields' u' now' w2 (inv_of w2 R2) U') as (G & _). cbn [DdlModel.exec].
    destruct (snd (create_delta_table lim be D d s t fields' u' now' w2)); [|reflexivity]. exfalso. destruct (proj1 G eq_refl) as ((_ & _ & C) & _). apply C. exists i, u. exact T.
Qed.
(* ... and so can a statement that fails: for another database, the system schema, or columns that cannot be stored *)
Theorem c45_failed_refuted D d s t ine fields u now w : reach w -> unused w u -> s <> "staging"%string -> exists_schema w D s -> ~ exists_table w D s t ->
  d <> D \/ s = "system"%string \/ ~ fields_ok lim fields ->
  let x := exec D u now (SCreateTable d s t ine fields) w in snd x = false /\ located (after x w) D s t u.
Proof.
  intros R U N S F C x. pose proof (inv_of w R) as I. assert (Fr : free w D s t) by (split; [exact N|auto]).
  destruct (create_effect lim be D d s t fields u now w I U) as (H1 & _ & H3 & _). subst x. cbn [DdlModel.exec].
  destruct (H3 Fr) as (_ & _ & _ & _ & _ & i & v & (_ & _ & A3 & _) & _). split; [|exists i; apply A3; auto 8].
  destruct (snd (create_delta_table lim be D d s t fields u now w)); [|reflexivity]. exfalso. destruct (proj1 H1 eq_refl) as (_ & C2 & C3 & C4). tauto.
Qed.

(* C50 *)
Theorem c50_created_where_it_says_partial D d s t ine fields u now w : reach w -> unused w u ->
  let x := exec D u now (SCreateTable d s t ine fields) w in snd x = true -> located (after x w) d s t u /\ other_tables d s t w (after x w).
Proof.
  intros R U x Ok. destruct (c45_create_table_partial D d s t ine fields u now w R U) as (H1 & H2 & H3 & _). fold x in H1, H2, H3.
  pose proof (proj1 H1 Ok) as (-> & O & S & F & Fo). pose proof (inv_of w R) as I.
  split; [|apply H3; apply in_last].
  destruct (create_effect lim be D D s t fields u now w I U) as (_ & _ & G & _). destruct (G (conj (proj1 O) (conj S F))) as (_ & _ & _ & _ & _ & i & v & (_ & _ & A & _) & _).
  exists i. apply A. auto 8.
Qed.
Theorem c50_other_database_refuted D d s t ine fields u now w : reach w -> unused w u -> d <> D -> s <> "staging"%string -> exists_schema w D s -> ~ exists_table w D s t ->
  let x := exec D u now (SCreateTable d s t ine fields) w in
  snd x = false /\ located (after x w) D s t u /\ forall s' t', exists_table (after x w) d s' t' <-> exists_table w d s' t'.
Proof.
  intros R U Nd N S F x. destruct (c45_failed_refuted D d s t ine fields u now w R U N S F (or_introl Nd)) as [H1 H2]. split; [exact H1|]. split; [exact H2|].
  intros s' t'. destruct (c45_create_table_partial D d s t ine fields u now w R U) as (_ & _ & H3 & _). apply (H3 (after x w)); [apply in_last|]. congruence.
Qed.

(* C46 *)
Lemma create_db_trace w d ine D u now : reach w -> ~ exists_db w d ->
  exists c1 c2, exec D u now (SCreateDatabase d ine) w = ([set_cat c1 w; set_cat c2 (set_cat c1 w)], true) /\
    (exists b, (forall d' b', has_db c1 d' b' <-> has_db (cat w) d' b' \/ (d' = d /\ b' = b))) /\ same_schemas (cat w) c1 /\ same_tables (cat w) c1 /\
    (exists k, forall d' s' k', has_schema c2 d' s' k' <-> has_schema (cat w) d' s' k' \/ (d' = d /\ s' = default_schema /\ k' = k)) /\
    same_dbs c1 c2 /\ same_tables (cat w) c2.
Proof.
  intros R N. pose proof (inv_of w R) as I. pose proof (inv_wf lim be w I) as W. cbn [DdlModel.exec].
  destruct (get_database d (cat w)) as [b|e] eqn:G; [exfalso; apply N; exists b; apply (get_database_ok _ W), G|].
  destruct (cstep lim be (CreateDb d) (cat w)) as [c1 ok1] eqn:E1. destruct (create_db_effect lim be d (cat w) c1 ok1 W E1) as (A1 & _ & A3).
  assert (ok1 = true) as -> by (apply A1, N). destruct (A3 eq_refl) as (b & Fb & B & Ss & St & _).
  rewrite (cat_step_eq lim be _ _ _ _ E1). unfold seq. cbn [last].
  assert (W1 : wf c1). { pose proof (wf_cstep lim be (CreateDb d) (cat w) W) as P. rewrite E1 in P. exact P. }
  destruct (cstep lim be (CreateSchema d default_schema) c1) as [c2 ok2] eqn:E2.
  destruct (create_schema_effect lim be d default_schema c1 c2 ok2 W1 E2) as (B1 & _ & B3).
  assert (ok2 = true) as ->.
  { apply B1. split; [discriminate|]. split; [exists b; apply B; auto|]. intros [k K]. apply Ss in K. destruct K as (b' & r & K & _). apply N. exists b'. exact K. }
  destruct (B3 eq_refl) as (k & Fk & K & Sd & St2 & _). rewrite (cat_step_eq lim be _ (set_cat c1 w) _ _ E2). exists c1, c2. split; [reflexivity|].
  split; [exists b; exact B|]. split; [exact Ss|]. split; [exact St|]. split; [|split; [exact Sd|]].
  - exists k. intros d' s' k'. rewrite K, (Ss d' s' k'). reflexivity.
  - intros d' s' t i u'. rewrite (St2 d' s' t i u'). apply St.
Qed.
Theorem c46_create_database_partial D u now d ine w : reach w ->
  let x := exec D u now (SCreateDatabase d ine) w in
  (exists_db w d -> x = ([], ine)) /\
  (~ exists_db w d -> snd x = true /\ (forall d', exists_db (after x w) d' <-> exists_db w d' \/ d' = d) /\
     (forall d' s', exists_schema (after x w) d' s' <-> exists_schema w d' s' \/ (d' = d /\ s' = "public"%string)) /\
     forall w', In w' (points x w) -> all_tables_same w w').
Proof.
  intros R x. pose proof (inv_of w R) as I. pose proof (inv_wf lim be w I) as W. split.
  - intros [b B]. subst x. cbn [DdlModel.exec]. rewrite (proj2 (get_database_ok _ W d b) B). reflexivity.
  - intros N. destruct (create_db_trace w d ine D u now R N) as (c1 & c2 & E & (b & B) & S1 & T1 & (k & K) & Sd & T2). subst x. rewrite E. unfold after. cbn [fst snd last].
    split; [reflexivity|]. split; [|split].
    + intros d'. split.
      * intros [b' H]. apply Sd in H. apply B in H as [H|[-> _]]; [left; exists b'; exact H|right; reflexivity].
      * intros [[b' H]| ->]; [exists b'|exists b]; apply Sd, B; auto.
    + intros d' s'. split.
      * intros [k' H]. apply K in H as [H|(-> & -> & _)]; [left; exists k'; exact H|right; auto].
      * intros [[k' H]|[-> ->]]; [exists k'|exists k]; apply K; auto.
    + intros w' [<-|[<-|[<-|[]]]]; (apply all_same_intro; [|intros ?; reflexivity]); [apply same_tables_refl|exact T1|exact T2].
Qed.
(* a crash leaves the database without a schema, and CREATE DATABASE IF NOT EXISTS is then content with it *)
Theorem c46_refuted D u now d ine w : reach w -> unused w u -> ~ exists_db w d ->
  exists w', In w' (points (exec D u now (SCreateDatabase d ine) w) w) /\ exists_db w' d /\ (forall s, ~ exists_schema w' d s) /\
    forall D' u' now', exec D' u' now' (SCreateDatabase d true) w' = ([], true).
Proof.
  intros R U N. destruct (create_db_trace w d ine D u now R N) as (c1 & c2 & E & (b & B) & S1 & _). exists (set_cat c1 w).
  assert (Hin : In (set_cat c1 w) (points (exec D u now (SCreateDatabase d ine) w) w)) by (unfold points; rewrite E; right; left; reflexivity).
  split; [exact Hin|]. split; [exists b; apply B; auto|]. split.
  - intros s [k K]. apply S1 in K. destruct K as (b' & r & K & _). apply N. exists b'. exact K.
  - intros D' u' now'. destruct (c46_create_database_partial D' u' now' d true (set_cat c1 w)) as [H _].
    + exact (reach_exec lim be order parse_other D u now (SCreateDatabase d ine) w _ R U Hin).
    + apply H. exists b. apply B. auto.
Qed.

(* C47: CREATE TABLE AS with IF NOT EXISTS leaves an existing table alone ... *)
Theorem c47_create_as_partial D u now s t fields y w v ws : reach w -> ordinary s -> holds w D s t v ws -> exec D u now (SCreateTableAs D s t true fields y) w = ([], true).
Proof.
  intros R O H. pose proof (inv_of w R) as I. cbn [DdlModel.exec andb]. rewrite (proj2 (is_delta_ok lim be D D s t w I)); [reflexivity|]. split; [reflexivity|]. split; [exact O|exists v, ws; exact H].
Qed.
(* ... CREATE TABLE with IF NOT EXISTS fails, and leaves a Delta table behind that nothing refers to; CREATE SCHEMA fails too *)
Theorem c47_create_table_refuted D u now s t fields w : reach w -> unused w u -> s <> "staging"%string -> exists_schema w D s -> exists_table w D s t ->
  let x := exec D u now (SCreateTable D s t true fields) w in
  snd x = false /\ data (after x w) u = Delta 0 [] /\ forall d' s' t', ~ located (after x w) d' s' t' u.
Proof.
  intros R U N S T x. pose proof (inv_of w R) as I. destruct (c45_create_table_partial D D s t true fields u now w R U) as (H1 & _ & _ & H4).
  destruct (create_effect lim be D D s t fields u now w I U) as (_ & _ & _ & G & _). split; [|split].
  - destruct (snd x) eqn:E; [|reflexivity]. exfalso. apply H1 in E as (_ & _ & _ & C & _). contradiction.
  - apply G; assumption.
  - intros d' s' t' L. apply (located_in (after x w)) in L. rewrite (H4 (or_intror T) (after x w)) in L; [|apply in_last]. destruct U as [_ U]. contradiction.
Qed.
Theorem c47_create_schema_refuted D u now s w : reach w -> exists_schema w D s -> snd (exec D u now (SCreateSchema s true) w) = false.
Proof.
  intros R S. pose proof (inv_of w R) as I. cbn [DdlModel.exec]. unfold cat_step. destruct (cstep lim be (CreateSchema D s) (cat w)) as [c ok] eqn:E. cbn [snd].
  destruct (create_schema_effect lim be D s (cat w) c ok (inv_wf lim be w I) E) as (H & _). destruct ok; [|reflexivity]. exfalso. apply (proj1 H eq_refl). exact S.
Qed.

(* C51: an upload to the default schema under a plain lower-case name appends, or creates the table; and so does one to a new schema *)
Theorem c51_upload_partial D u now t fields y w : reach w -> unused w u -> plain t -> lower_case t t -> exists_schema w D "public" ->
  let x := exec D u now (SUpload "public" t fields y) w in
  (forall v ws, holds w D "public" t v ws -> snd x = true /\ holds (after x w) D "public" t (S v) (ws ++ [y]) /\ recorded (after x w) D "public" t (S v)) /\
  (~ exists_table w D "public" t -> fields_ok lim fields -> snd x = true /\ holds (after x w) D "public" t 1 [y]) /\
  (forall w', In w' (points x w) -> other_tables D "public" t w w').
Proof.
  intros R U Si%simple_spec Lo%lower_case_lower S. pose proof (inv_of w R) as I. cbn zeta. cbn [DdlModel.exec]. unfold upload.
  assert (O : ordinary "public") by (split; discriminate). rewrite (proj2 (session_schema_ok lim be D "public" w I O) S). unfold parse_name. rewrite Si, Lo. unfold default_schema.
  assert (Refl : other_tables D "public" t w w) by (intros ? ? ? _; apply all_same_intro; [apply same_tables_refl|intros ?; reflexivity]).
  destruct (provider D D "public" t w) as [p|] eqn:P; cbn [as_append].
  - destruct (provider_ordinary lim be D D "public" t w p I O P) as (_ & u0 & v0 & ws0 & _ & L0 & D0).
    assert (H0 : holds w D "public" t v0 ws0) by (exists u0; auto). destruct (plan_effect lim be D D "public" t y now w v0 ws0 I eq_refl O H0) as (P1 & P2 & P3 & P4 & _).
    split; [|split].
    + intros v ws (u1 & L1 & D1). rewrite (located_fun lim be w D "public"%string t u1 u0 I L1 L0), D0 in D1. injection D1 as <- <-. auto.
    + intros C. exfalso. apply C. destruct L0 as [i T]. exists i, u0. exact T.
    + intros w' [<-|H]; [exact Refl|]. apply P4, H.
  - split; [|split].
    + intros v ws (u0 & L0 & D0). assert (C : provider D D "public" t w = Some (PDelta u0 v ws)) by (apply (provider_delta lim be); auto). congruence.
    + intros C Fo. assert (F : free w D "public" t) by (split; [discriminate|auto]).
      destruct (create_plan_effect lim be D "public" t fields y u now w I U F) as (A1 & A2 & _ & _); [discriminate|exact Fo|]. auto.
    + intros w' [<-|H]; [exact Refl|]. apply seq_in in H as [H|[Ok H]]; [exact (create_points lim be D D "public" t fields u now w w' I U H)|].
      destruct (create_effect lim be D D "public" t fields u now w I U) as (H1 & _). apply H1 in Ok as (F & Fo & _ & N).
      destruct (create_plan_effect lim be D "public" t fields y u now w I U F N Fo) as (A1 & A2 & A3 & A4). apply A4.
      unfold seq. destruct (create_delta_table lim be D D "public" t fields u now w) as [tr ok] eqn:E. cbn [fst] in H.
      assert (ok = true) as -> by (apply H1; auto). destruct (plan_to_delta_table lim be D D "public" t y now (last tr w)) as [tr2 ok2]. cbn [fst] in *. apply in_or_app. right. exact H.
Qed.
Theorem c51_new_schema_partial D u now s t fields y w : reach w -> unused w u -> ordinary s -> exists_db w D -> ~ exists_schema w D s -> fields_ok lim fields ->
  let x := exec D u now (SUpload s t fields y) w in
  snd x = true /\ holds (after x w) D s t 1 [y] /\ exists_schema (after x w) D s /\ (forall w', In w' (points x w) -> other_tables D s t w w').
Proof.
  intros R U O B N Fo. pose proof (inv_of w R) as I. pose proof (inv_wf lim be w I) as W. cbn zeta. cbn [DdlModel.exec]. unfold upload. rewrite (not_session_schema lim be D s w I O N).
  destruct (cstep lim be (CreateSchema D s) (cat w)) as [c ok] eqn:E. destruct (create_schema_effect lim be D s (cat w) c ok W E) as (H1 & _ & H3).
  assert (ok = true) as -> by (apply H1; split; [apply O|auto]). destruct (H3 eq_refl) as (k & _ & K & Sd & St & _).
  pose proof (unused_schema lim be D s w u U) as U1. 
  assert (I1 : inv lim be (set_cat c w)). { apply (inv_cat_step lim be (CreateSchema D s) w _ I eq_refl). rewrite (cat_step_eq lim be _ _ _ _ E). left. reflexivity. }
  rewrite (cat_step_eq lim be _ _ _ _ E) in *. unfold after in U1. cbn [fst last] in U1. rewrite seq_ok, seq_after. cbn [snd andb]. unfold after at 1 3 5. cbn [fst last].
  assert (F : free (set_cat c w) D s t).
  { split; [apply O|]. split; [exists k; apply K; auto|]. intros (i & u' & T). apply St in T. destruct T as (k' & r & T & _). apply N. exists k'. exact T. }
  unfold as_append.
  destruct (create_plan_effect lim be D s t fields y u now (set_cat c w) I1 U1 F (proj2 O) Fo) as (A1 & A2 & _ & A4).
  assert (O1 : other_tables D s t w (set_cat c w)) by (intros ? ? ? _; apply all_same_intro; [exact St|intros ?; reflexivity]).
  split; [exact A1|]. split; [exact A2|]. split.
  - destruct A2 as (u' & (i & k' & r & T & _) & _). exists k'. exact T.
  - intros w' [<-|H]; [intros ? ? ? _; apply all_same_intro; [apply same_tables_refl|intros ?; reflexivity]|].
    apply seq_in in H as [[<-|[]]|[_ H]]; [exact O1|]. apply (other_tables_trans D s t w (set_cat c w) w' O1). apply A4, H.
Qed.
(* for another schema, or a name with upper-case letters, the table is looked for under a wrong name: if nothing is there, a second upload
   fails and nothing is appended ... *)
Theorem c51_upload_refuted D u now s t t' fields y w : reach w -> unused w u -> plain t -> lower_case t t' -> ordinary s ->
  s <> "public"%string \/ t' <> t -> exists_table w D s t -> ~ exists_table w D "public" t' ->
  let x := exec D u now (SUpload s t fields y) w in snd x = false /\ all_tables_same w (after x w).
Proof.
  intros R U Si%simple_spec <-%lower_case_lower O N T F. pose proof (inv_of w R) as I. cbn zeta. cbn [DdlModel.exec]. unfold upload.
  assert (S : exists_schema w D s) by (destruct T as (i & u' & k & r & K & _); exists k; exact K).
  rewrite (proj2 (session_schema_ok lim be D s w I O) S). unfold parse_name. rewrite Si. unfold default_schema.
  assert (Op : ordinary "public") by (split; discriminate). rewrite (provider_none lim be D "public" (lower t) w I Op F). cbn [as_append]. unfold as_append.
  destruct (create_effect lim be D D s t fields u now w I U) as (H1 & H2 & _ & _ & H5). rewrite seq_ok, seq_after.
  assert (NF : ~ free w D s t) by (intros (_ & _ & C); contradiction).
  destruct (snd (create_delta_table lim be D D s t fields u now w)) eqn:Ok; [exfalso; apply NF, (proj1 H1 eq_refl)|]. cbn [andb]. split; [reflexivity|].
  set (x := create_delta_table lim be D D s t fields u now w) in *. unfold after. destruct (in_last (fst x) w) as [E|E].
  - rewrite <- E. apply all_same_intro; [apply same_tables_refl|intros ?; reflexivity].
  - apply (all_same_unused w _ u); [rewrite (H2 NF _ E); apply same_tables_refl|apply U|exact (H5 _ E)].
Qed.
(* ... and if there is a table under that name, the table that the upload names is not created *)
Theorem c51_wrong_table_refuted D u now s t t' fields y w v ws : reach w -> plain t -> lower_case t t' -> ordinary s -> exists_schema w D s ->
  ~ exists_table w D s t -> holds w D "public" t' v ws -> exec D u now (SUpload s t fields y) w = ([], false).
Proof.
  intros R Si%simple_spec <-%lower_case_lower O S F (u0 & L & Dt). pose proof (inv_of w R) as I. cbn [DdlModel.exec]. unfold upload. rewrite (proj2 (session_schema_ok lim be D s w I O) S). unfold parse_name. rewrite Si. unfold default_schema.
  assert (Op : ordinary "public") by (split; discriminate). rewrite (proj2 (provider_delta lim be D D "public" (lower t) w u0 v ws I)) by auto. cbn [as_append]. unfold as_append.
  apply (plan_fails lim be); [exact I|]. intros (_ & _ & v' & ws' & u' & (i & T) & _). apply F. exists i, u'. exact T.
Qed.

(* C73: converting Parquet files registers them as the table ... *)
Theorem c73_convert_partial D u now l s t fields r w : reach w -> ordinary s -> exists_schema w D s -> ~ exists_table w D s t -> fields_ok lim fields -> data w l = Raw r ->
  let x := exec D u now (SConvert l D s t fields) w in
  snd x = true /\ located (after x w) D s t l /\ holds (after x w) D s t 0 [r] /\ other_tables D s t w (after x w).
Proof.
  intros R O [k K] F Fo Dt. pose proof (inv_of w R) as I. pose proof (inv_wf lim be w I) as W. cbn zeta. cbn [DdlModel.exec]. unfold convert_delta_table.
  rewrite (proj2 (schema_get_ok _ D s k W) (conj (proj1 O) K)), Dt, create_at_eq. unfold after. cbn [fst snd last].
  destruct (cstep lim be (CreateTable D s t fields l now) (cat w)) as [c ok] eqn:E. cbn [fst snd].
  destruct (create_table_effect lim be D s t fields l now (cat w) c ok W E) as (H1 & _ & H3).
  assert (Fr : s <> staging /\ (exists k, has_schema (cat w) D s k) /\ ~ exists i u', has_table (cat w) D s t i u') by (split; [apply O|]; split; [exists k; exact K|exact F]).
  destruct (H3 Fr) as (i & v & A & _). pose proof A as (_ & _ & A3 & _).
  split; [rewrite (proj2 H1 (conj Fr Fo)), String.eqb_refl; cbn; destruct (String.eqb_spec s system); [destruct O; contradiction|reflexivity]|].
  assert (L : located (set_cat c (put l (Delta 0 [r]) w)) D s t l) by (exists i; apply A3; auto 8).
  split; [exact L|]. split; [exists l; split; [exact L|apply put_same]|].
  apply (other_of_added w (set_cat c (put l (Delta 0 [r]) w)) D s t i l v now (inv_raw lim be w I l r Dt) A). apply put_other_data.
Qed.
(* ... but a location that is a Delta table already is accepted without being registered *)
Theorem c73_convert_refuted D u now l d s t fields v ws w : reach w -> s <> "staging"%string -> exists_schema w D s -> data w l = Delta v ws ->
  exec D u now (SConvert l d s t fields) w = ([], true).
Proof.
  intros R N [k K] Dt. pose proof (inv_of w R) as I. cbn [DdlModel.exec]. unfold convert_delta_table. rewrite (proj2 (schema_get_ok _ D s k (inv_wf lim be w I)) (conj N K)), Dt. reflexivity.
Qed.

(* C74: DROP TABLE of a readable table of the database of the session removes the table and its data, and nothing else ... *)
Theorem c74_drop_table_partial D u now s t ie w l v ws : reach w -> ordinary s -> located w D s t l -> data w l = Delta v ws ->
  let x := exec D u now (SDropTable D s t ie) w in
  snd x = true /\ ~ exists_table (after x w) D s t /\ data (after x w) l = Absent /\ (forall w', In w' (points x w) -> other_tables D s t w w' /\ other_data l w w').
Proof.
  intros R O L Dt. pose proof (inv_of w R) as I. cbn zeta. cbn [DdlModel.exec].
  rewrite (proj2 (is_delta_ok lim be D D s t w I)); [|split; [reflexivity|]; split; [exact O|exists v, ws, l; auto]]. cbn [negb]. rewrite andb_false_r.
  destruct (String.eqb_spec s staging); [destruct O; contradiction|].
  assert (E0 : fst (delete_delta_table D D s t w) = [put l Broken w; put l Absent (put l Broken w)] /\ snd (delete_delta_table D D s t w) = true).
  { unfold delete_delta_table. rewrite (proj2 (provider_delta lim be D D s t w l v ws I)) by auto. split; reflexivity. }
  pose proof (drop_points lim be D s t w l v ws) as DP. destruct (drop_one lim be D s t w l v ws I O L Dt) as (c & E & T & _ & _).
  destruct (delete_delta_table D D s t w) as [tr ok]. cbn [fst snd] in E0. destruct E0 as [-> ->]. cbn [fst] in *. rewrite E in *. unfold after. cbn [fst snd last].
  split; [reflexivity|]. split; [intros (i & u' & C); apply T in C as [_ C]; apply C; reflexivity|]. split; [apply drop_data|].
  intros w' [<-|H]; [split; [intros ? ? ? _; apply all_same_intro; [apply same_tables_refl|intros ?; reflexivity]|intros ? ?; reflexivity]|].
  split; [apply DP; assumption|]. destruct H as [<-|[<-|[<-|[]]]]; [intros u' N; apply put_other, N|intros u' N; rewrite !put_other by exact N; reflexivity|apply drop_data].
Qed.
(* ... for a table of another database the data stays, and with IF EXISTS the table does, too, although the statement succeeds ... *)
Theorem c74_other_database_refuted D u now d s t w l : reach w -> d <> D -> s <> "staging"%string -> located w d s t l ->
  (let x := exec D u now (SDropTable d s t false) w in snd x = true /\ ~ exists_table (after x w) d s t /\ same_data w (after x w)) /\
  exec D u now (SDropTable d s t true) w = ([], true).
Proof.
  intros R N Ns L. pose proof (inv_of w R) as I. pose proof (inv_wf lim be w I) as W. cbn zeta. cbn [DdlModel.exec].
  assert (P : provider D d s t w = None) by (unfold provider; destruct (String.eqb_spec d D); [contradiction|reflexivity]).
  rewrite P. cbn [is_delta negb andb]. split; [|reflexivity]. destruct (String.eqb_spec s staging) as [->|_]; [exfalso; apply Ns; reflexivity|].
  unfold delete_delta_table. rewrite P. cbn [fst]. unfold seq. cbn [last]. destruct (cstep lim be (DropTable d s t) (cat w)) as [c ok] eqn:E.
  rewrite (cat_step_eq lim be _ _ _ _ E). cbn [app]. unfold after. cbn [fst snd last]. destruct (drop_table_effect lim be d s t (cat w) c ok W E) as (H1 & _ & H3).
  assert (ok = true) as -> by (apply H1; destruct L as [i T]; exists i, l; exact T). split; [reflexivity|]. split; [|intros ?; reflexivity].
  intros (i & u' & C). destruct (H3 eq_refl) as (Rm & _). apply (located_removed _ c d s t W Rm) in C as [_ C]. apply C. reflexivity.
Qed.
(* ... and a crash leaves a table without data, which DROP TABLE IF EXISTS takes for missing *)
Theorem c74_crash_refuted D u now s t ie w l v ws : reach w -> unused w u -> ordinary s -> located w D s t l -> data w l = Delta v ws ->
  exists w', In w' (points (exec D u now (SDropTable D s t ie) w) w) /\ located w' D s t l /\ data w' l = Absent /\
    forall u' now', exec D u' now' (SDropTable D s t true) w' = ([], true).
Proof.
  intros R U O L Dt. pose proof (inv_of w R) as I. exists (put l Absent (put l Broken w)).
  assert (Hin : In (put l Absent (put l Broken w)) (points (exec D u now (SDropTable D s t ie) w) w)).
  { unfold points. cbn [DdlModel.exec].
    rewrite (proj2 (is_delta_ok lim be D D s t w I)); [|split; [reflexivity|]; split; [exact O|exists v, ws, l; auto]]. cbn [negb]. rewrite andb_false_r.
    destruct (String.eqb_spec s staging); [destruct O; contradiction|]. unfold delete_delta_table. rewrite (proj2 (provider_delta lim be D D s t w l v ws I)) by auto.
    cbn [fst]. unfold seq. cbn [last]. destruct (cat_step lim be (DropTable D s t) (put l Absent (put l Broken w))) as [tr2 ok2]. cbn [fst]. right. right. left. reflexivity. }
  split; [exact Hin|]. split; [exact L|]. split; [apply put_same|]. intros u' now'. cbn [DdlModel.exec].
  assert (Nd : is_delta (provider D D s t (put l Absent (put l Broken w))) = false).
  { pose proof (inv_exec lim be order parse_other D u now (SDropTable D s t ie) w I U _ Hin) as I'.
    destruct (is_delta _) eqn:E; [|reflexivity]. apply (is_delta_ok lim be) in E as (_ & _ & v' & ws' & l' & L' & D'); [|exact I'].
    assert (l' = l) as -> by exact (located_fun lim be _ D s t l' l I' L' L). rewrite put_same in D'. discriminate D'. }
  rewrite Nd. reflexivity.
Qed.

(* C75: the catalog never lists a version that the table does not have ... *)
Theorem c75_no_future_version D s t w n v ws : reach w -> recorded w D s t n -> holds w D s t v ws -> n <= v.
Proof.
  intros R (i & u & vi & time & T & V) (u' & (i' & T') & Dt). pose proof (inv_of w R) as I.
  destruct (has_table_fun _ (inv_wf lim be w I) _ _ _ _ _ _ _ T T') as [-> ->]. destruct T' as (k & r & _ & H1 & _ & _ & H2 & H3).
  subst. exact (inv_ver lim be w I r _ v ws H1 V eq_refl Dt).
Qed.
(* ... a write records the version it makes ... *)
Theorem c75_insert_partial D u now s t y w v ws : reach w -> ordinary s -> holds w D s t v ws ->
  let x := exec D u now (SInsert D s t y) w in
  snd x = true /\ holds (after x w) D s t (S v) (ws ++ [y]) /\ recorded (after x w) D s t (S v) /\ forall w', In w' (points x w) -> other_tables D s t w w'.
Proof.
  intros R O H. destruct (plan_effect lim be D D s t y now w v ws (inv_of w R) eq_refl O H) as (P1 & P2 & P3 & P4 & _). cbn zeta. cbn [DdlModel.exec].
  split; [exact P1|]. split; [exact P2|]. split; [exact P3|]. intros w' [<-|Hw]; [intros ? ? ? _; apply all_same_intro; [apply same_tables_refl|intros ?; reflexivity]|apply P4, Hw].
Qed.
(* ... unless it crashes after the commit; and TRUNCATE never does *)
Theorem c75_crash_refuted D u now s t y w v ws : reach w -> ordinary s -> holds w D s t v ws ->
  exists w', In w' (points (exec D u now (SInsert D s t y) w) w) /\ holds w' D s t (S v) (ws ++ [y]) /\ ~ recorded w' D s t (S v).
Proof.
  intros R O H. destruct (plan_effect lim be D D s t y now w v ws (inv_of w R) eq_refl O H) as (_ & _ & _ & P4 & w1 & Hin & E). exists w1.
  split; [right; exact Hin|]. split; [apply P4, Hin|]. intros (i & u' & vi & time & T & V). rewrite E in T, V.
  assert (C : S v <= v) by (apply (c75_no_future_version D s t w (S v) v ws R); [exists i, u', vi, time; auto|exact H]). lia.
Qed.
Theorem c75_truncate_refuted D u now s t w v ws : reach w -> ordinary s -> holds w D s t v ws ->
  let x := exec D u now (STruncate D s t) w in snd x = true /\ holds (after x w) D s t (S v) [] /\ ~ recorded (after x w) D s t (S v).
Proof.
  intros R O H. pose proof (inv_of w R) as I. pose proof H as (l & L & Dt). cbn zeta. cbn [DdlModel.exec].
  rewrite (proj2 (provider_delta lim be D D s t w l v ws I)) by auto. unfold after. cbn [fst snd last]. split; [reflexivity|].
  split; [exists l; split; [exact L|apply put_same]|]. intros (i & u' & vi & time & T & V).
  assert (C : S v <= v) by (apply (c75_no_future_version D s t w (S v) v ws R); [exists i, u', vi, time; auto|exact H]). lia.
Qed.
Theorem c75_truncate_empties D u now s t w v ws : reach w -> ordinary s -> holds w D s t v ws ->
  let x := exec D u now (STruncate D s t) w in forall w', In w' (points x w) -> other_tables D s t w w'.
Proof.
  intros R O H. pose proof (inv_of w R) as I. pose proof H as (l & L & Dt). cbn zeta. cbn [DdlModel.exec].
  rewrite (proj2 (provider_delta lim be D D s t w l v ws I)) by auto. intros w' [<-|[<-|[]]].
  - intros ? ? ? _; apply all_same_intro; [apply same_tables_refl|intros ?; reflexivity].
  - apply (other_of_located lim be w _ D s t l I L); [apply same_tables_refl|intros u' N; apply put_other, N].
Qed.

(* C76: no two tables share a location *)
Theorem c76_own_location w d s t d' s' t' u : reach w -> located w d s t u -> located w d' s' t' u -> d = d' /\ s = s' /\ t = t'.
Proof. intros R. exact (located_own lim be w d s t d' s' t' u (inv_of w R)). Qed.

(* C77: DROP SCHEMA of a schema whose tables can all be read removes the schema, its tables and their data, and nothing else ... *)
Theorem c77_drop_schema_partial D u now s ie w : reach w -> (forall l, Permutation (order l) l) -> ordinary s -> exists_schema w D s ->
  (forall t, exists_table w D s t -> exists v ws, holds w D s t v ws) ->
  let x := exec D u now (SDropSchema D s ie) w in
  snd x = true /\ (forall d' s', exists_schema (after x w) d' s' <-> exists_schema w d' s' /\ ~ (d' = D /\ s' = s)) /\
  (forall t l, located w D s t l -> data (after x w) l = Absent) /\
  (forall d' s' t' l, located (after x w) d' s' t' l <-> located w d' s' t' l /\ ~ (d' = D /\ s' = s)) /\
  (forall l, (forall t, ~ located w D s t l) -> data (after x w) l = data w l).
Proof.
  intros R Po O S Rd. pose proof (inv_of w R) as I. cbn zeta. cbn [DdlModel.exec]. rewrite String.eqb_refl. cbn [negb]. rewrite (proj2 (session_schema_ok lim be D s w I O) S). cbn [negb].
  set (ts := order (schema_tables D s w)). assert (Hts : forall t, In t ts <-> exists_table w D s t).
  { intros t. rewrite <- (schema_tables_in lim be D s w t I O). split; apply Permutation_in; [|apply Permutation_sym]; apply Po. }
  assert (ND : NoDup ts) by (apply (Permutation_NoDup (Permutation_sym (Po _))), (schema_tables_nodup lim be); assumption).
  assert (Rd' : forall t, In t ts -> exists v ws, holds w D s t v ws) by (intros t Ht; apply Rd, Hts, Ht).
  destruct (drop_each_ok lim be D s ts O w I ND Rd') as (A1 & A2 & A3 & A4 & A5 & A6 & A7). rewrite seq_ok, seq_after, A1. cbn [andb].
  set (w1 := after (drop_each lim be D s ts w) w) in *. pose proof (inv_wf lim be w1 A2) as W1.
  destruct (cstep lim be (DropSchema D s) (cat w1)) as [c ok] eqn:E. rewrite (cat_step_eq lim be _ _ _ _ E). unfold after. cbn [fst snd last].
  destruct (drop_schema_effect lim be D s (cat w1) c ok W1 E) as (H1 & _ & H3).
  assert (ok = true) as -> by (apply H1; split; [apply O|]; destruct S as [k K]; exists k; apply A6, K). destruct (H3 eq_refl) as ((T & _) & Sc & _ & _).
  split; [reflexivity|]. split; [|split; [|split]].
  - intros d' s'. split.
    + intros [k K]. apply Sc in K as [K N]. split; [exists k; apply A6, K|exact N].
    + intros [[k K] N]. exists k. apply Sc. split; [apply A6, K|exact N].
  - intros t l L. cbn [set_cat data]. apply (A4 t l); [|exact L]. apply Hts. destruct L as [i Ti]. exists i, l. exact Ti.
  - intros d' s' t' l. split.
    + intros [i Ti]. apply T in Ti as [Ti N]. destruct (proj1 (A3 d' s' t' l)) as [L N']; [exists i; exact Ti|]. split; [exact L|]. intros [-> ->]. apply N'. split; [reflexivity|]. split; [reflexivity|].
      apply Hts. destruct L as [i' Ti']. exists i', l. exact Ti'.
    + intros [L N]. destruct (proj2 (A3 d' s' t' l)) as [i Ti]; [split; [exact L|tauto]|]. exists i. apply T. split; [exact Ti|].
      intros (t2 & u2 & C). destruct (has_table_name _ W1 _ _ _ _ _ _ _ _ _ Ti C) as (-> & -> & _). apply N. auto.
  - intros l N. cbn [set_cat data]. apply A5. intros t _. apply N.
Qed.
(* ... and with a table that cannot be read, it fails: that table and the schema stay *)
Theorem c77_unreadable_refuted D u now s ie w t l : reach w -> (forall l, Permutation (order l) l) -> ordinary s -> located w D s t l -> (forall v ws, data w l <> Delta v ws) ->
  let x := exec D u now (SDropSchema D s ie) w in snd x = false /\ exists_schema (after x w) D s /\ located (after x w) D s t l.
Proof.
  intros R Po O L Un. pose proof (inv_of w R) as I. assert (S : exists_schema w D s) by (destruct L as (i & k & r & K & _); exists k; exact K).
  cbn zeta. cbn [DdlModel.exec]. rewrite String.eqb_refl. cbn [negb]. rewrite (proj2 (session_schema_ok lim be D s w I O) S). cbn [negb].
  set (ts := order (schema_tables D s w)).
  assert (Ht : In t ts). { apply (Permutation_in t (Permutation_sym (Po _))). apply (schema_tables_in lim be D s w t I O). destruct L as [i Ti]. exists i, l. exact Ti. }
  assert (ND : NoDup ts) by (apply (Permutation_NoDup (Permutation_sym (Po _))), (schema_tables_nodup lim be); assumption).
  destruct (drop_each_stops lim be D s ts t l O Ht w I ND L Un) as (A1 & A2 & A3). rewrite seq_ok, seq_after, A1. cbn [andb]. split; [reflexivity|]. split; [apply A3, S|exact A2].
Qed.

(* C43 for the statement ALTER TABLE ... RENAME TO: it succeeds exactly if the table can be read, the new schema exists and the new name
   is free, all in the database of the session; then the table has the new name, and its location and contents are as before *)
Theorem c43_rename_statement D u now d s t d' s' t' w : reach w -> ordinary s -> ordinary s' ->
  let x := exec D u now (SRename d s t d' s' t') w in
  (snd x = true <-> d = D /\ d' = D /\ (exists v ws, holds w D s t v ws) /\ exists_schema w D s' /\ ~ exists_table w D s' t') /\
  same_data w (after x w) /\
  (snd x = false -> forall d1 s1 t1 l, located (after x w) d1 s1 t1 l <-> located w d1 s1 t1 l) /\
  (snd x = true -> forall d1 s1 t1 l, located (after x w) d1 s1 t1 l <->
     (located w d1 s1 t1 l /\ (d1, s1, t1) <> (D, s, t)) \/ ((d1, s1, t1) = (D, s', t') /\ located w D s t l)).
Proof.
  intros R O O'. pose proof (inv_of w R) as I. pose proof (inv_wf lim be w I) as W. cbn zeta. cbn [DdlModel.exec].
  assert (Trivial : forall P : Prop, ~ P -> (snd (@nil world, false) = true <-> P) /\ same_data w (after ([], false) w) /\
     (snd (@nil world, false) = false -> forall d1 s1 t1 l, located (after ([], false) w) d1 s1 t1 l <-> located w d1 s1 t1 l) /\
     (snd (@nil world, false) = true -> forall d1 s1 t1 l, located (after ([], false) w) d1 s1 t1 l <->
       (located w d1 s1 t1 l /\ (d1, s1, t1) <> (D, s, t)) \/ ((d1, s1, t1) = (D, s', t') /\ located w D s t l))).
  { intros P N. cbn. split; [split; [discriminate|contradiction]|]. split; [intros ?; reflexivity|]. split; [reflexivity|discriminate]. }
  destruct (provider D d s t w) as [p|] eqn:P.
  - destruct (provider_ordinary lim be D d s t w p I O P) as (-> & u0 & v0 & ws0 & _ & L0 & D0).
    destruct (provider D d' s' t' w) as [p'|] eqn:P'.
    + destruct (provider_ordinary lim be D d' s' t' w p' I O' P') as (-> & u1 & v1 & ws1 & _ & [i1 L1] & D1). apply Trivial. intros (_ & _ & _ & _ & C). apply C. exists i1, u1. exact L1.
    + destruct (String.eqb_spec d' D) as [->|N]; cbn [negb]; [|apply Trivial; tauto].
      destruct (cstep lim be (Rename D s t s' t') (cat w)) as [c ok] eqn:E. rewrite (cat_step_eq lim be _ _ _ _ E). unfold after. cbn [fst snd last].
      destruct (rename_effect lim be D s t s' t' (cat w) c ok W E) as (H1 & H2 & H3).
      split; [|split; [intros ?; reflexivity|split]].
      * rewrite H1. split.
        -- intros (_ & K & i & u1 & T & F). split; [reflexivity|]. split; [reflexivity|]. split; [exists v0, ws0, u0; auto|]. split; [exact K|].
           intros (i2 & u2 & T2). pose proof (F i2 u2 T2) as ->. destruct (has_table_name _ W _ _ _ _ _ _ _ _ _ T T2) as (_ & <- & <- & <-). rewrite P in P'. discriminate P'.
        -- intros (_ & _ & _ & K & F). split; [right; apply O'|]. split; [exact K|]. destruct L0 as [i0 T0]. exists i0, u0. split; [exact T0|]. intros i2 u2 T2. exfalso. apply F. exists i2, u2. exact T2.
      * intros Ef d1 s1 t1 l. rewrite (H2 Ef). reflexivity.
      * intros Et d1 s1 t1 l. destruct (H3 Et) as (i & u1 & T & A & _). split.
        -- intros [i1 T1]. apply A in T1 as [[T1 N]|(-> & -> & -> & -> & ->)].
           ++ left. split; [exists i1; exact T1|]. intros Eq. injection Eq as -> -> ->. apply N. exact (proj1 (has_table_fun _ W _ _ _ _ _ _ _ T1 T)).
           ++ right. split; [reflexivity|]. exists i. exact T.
        -- intros [[[i1 T1] N]|[Eq [i1 T1]]].
           ++ exists i1. apply A. left. split; [exact T1|]. intros ->. apply N. destruct (has_table_name _ W _ _ _ _ _ _ _ _ _ T1 T) as (-> & -> & -> & _). reflexivity.
           ++ injection Eq as -> -> ->. destruct (has_table_fun _ W _ _ _ _ _ _ _ T1 T) as [-> ->]. exists i. apply A. right. auto 8.
  - apply Trivial. intros (-> & _ & (v & ws & u0 & L0 & D0) & _). assert (C : provider D D s t w = Some (PDelta u0 v ws)) by (apply (provider_delta lim be); auto). congruence.
Qed.
End Ddl.

(* C78: a dropped function is gone for a new session ... *)
Theorem c78_dropped_partial lim be D ie f c r c' r' ok : reachable c -> drop_function_stmt lim be D ie [f] (c, r) = ((c', r'), ok) -> ok = true ->
  callable D f (c', fun _ => None) = None /\ (forall x, ~ has_function c' D f x) /\ forall g x, g <> f -> has_function c D g x -> callable D g (c', fun _ => None) = Some x.
Proof.
  intros R E Ok. pose proof (wf_reachable c R) as W. unfold drop_function_stmt in E. cbn [fst snd] in E. destruct (cstep lim be (DropFn D ie [f]) c) as [c1 ok1] eqn:Ec.
  injection E as <- _ <-. subst. destruct (drop_one_effect lim be D ie f c c1 true W Ec) as (_ & _ & H3). destruct (H3 eq_refl) as (F & _).
  assert (W1 : wf c1) by (pose proof (wf_cstep lim be (DropFn D ie [f]) c W) as P; rewrite Ec in P; exact P).
  assert (N : forall x, ~ has_function c1 D f x) by (intros x C; apply F in C as [_ C]; apply C; auto).
  split; [exact (proj2 (reload_effect c1 D (fun _ => None) f W1) N)|]. split; [exact N|]. intros g x Ng H. apply (proj1 (reload_effect c1 D (fun _ => None) g W1)). apply F. split; [exact H|]. intros [_ C]. contradiction.
Qed.
(* ... but can still be called in the session *)
Theorem c78_dropped_refuted lim be D ie f x c r c' r' ok : reachable c -> has_function c D f x -> drop_function_stmt lim be D ie [f] (c, r) = ((c', r'), ok) ->
  ok = true /\ callable D f (c', r') = Some x.
Proof.
  intros R H E. pose proof (wf_reachable c R) as W. unfold drop_function_stmt in E. cbn [fst snd] in E. destruct (cstep lim be (DropFn D ie [f]) c) as [c1 ok1] eqn:Ec.
  injection E as <- <- <-. destruct (drop_one_effect lim be D ie f c c1 ok1 W Ec) as (H1 & _ & H3).
  assert (ok1 = true) as -> by (apply H1; split; [destruct H as (b & fr & B & _); exists b; exact B|right; exists x; exact H]). split; [reflexivity|].
  assert (W1 : wf c1) by (pose proof (wf_cstep lim be (DropFn D ie [f]) c W) as P; rewrite Ec in P; exact P). destruct (H3 eq_refl) as (F & _).
  unfold callable. cbn [fst snd]. rewrite (proj2 (reload_effect c1 D (reload D c r) f W1)); [|intros y C; apply F in C as [_ C]; apply C; auto].
  exact (proj1 (reload_effect c D r f W) x H).
Qed.
(* a function that is created can be called, in every session *)
Theorem c78_created lim be D f orr x c r c' r' ok r2 : reachable c -> create_function_stmt lim be D f orr x (c, r) = ((c', r'), ok) -> ok = true -> callable D f (c', r2) = Some x.
Proof.
  intros R E ->. pose proof (wf_reachable c R) as W. unfold create_function_stmt in E. cbn [fst snd] in E. destruct (cstep lim be (CreateFn D f orr x) c) as [c1 ok1] eqn:Ec.
  injection E as <- _ ->. destruct (create_fn_effect lim be D f orr x c c1 true W Ec) as (_ & _ & H3). destruct (H3 eq_refl) as (F & _).
  assert (W1 : wf c1) by (pose proof (wf_cstep lim be (CreateFn D f orr x) c W) as P; rewrite Ec in P; exact P).
  apply (proj1 (reload_effect c1 D r2 f W1)). apply F. right. auto.
Qed.

(* C52: what can be deleted is, and is forgotten ... *)
Theorem c52_gc_partial f rows u : In u (gc_deleted f rows) <-> exists s, In (u, s) rows /\ s <> Failed /\ f u = false.
Proof.
  unfold gc_deleted. rewrite in_flat_map. split.
  - intros ([u' s] & H & H'). cbn in H'. destruct s; [destruct (f u') eqn:E|destruct (f u') eqn:E|]; try destruct H' as [<-|[]]; try destruct H'.
    + exists Pending. repeat split; auto; discriminate.
    + exists Retry. repeat split; auto; discriminate.
  - intros (s & H & N & E). exists (u, s). split; [exact H|]. cbn. destruct s; [rewrite E; left; reflexivity|rewrite E; left; reflexivity|contradiction].
Qed.
Theorem c52_forgotten_partial f rows u : f u = false -> (forall s, In (u, s) rows -> s <> Failed) -> forall s, ~ In (u, s) (gc f rows).
Proof.
  intros E N s H. unfold gc in H. apply in_flat_map in H as ([u' s'] & H1 & H2). unfold gc_row in H2. cbn [fst snd] in H2.
  destruct s'; [destruct (f u') eqn:E'|destruct (f u') eqn:E'|]; try (destruct H2 as [H2|[]]; injection H2 as <- <-); try destruct H2; try congruence. exact (N Failed H1 eq_refl).
Qed.
(* ... but if the outcome is recorded (it is not: SysProps.v, C144), after a single failure a table is never tried again *)
Theorem c52_recorded_partial f rows u fs : In (u, Pending) rows -> f u = true ->
  In (u, Failed) (gcs fs (gc f rows)) /\ (NoDup (map fst rows) -> forall f', ~ In u (gc_deleted f' (gcs fs (gc f rows)))).
Proof.
  intros H E. assert (F : In (u, Failed) (gc f rows)). { unfold gc. apply in_flat_map. exists (u, Pending). split; [exact H|]. unfold gc_row. cbn. rewrite E. left. reflexivity. }
  split; [apply gc_failed_stays, F|]. intros ND f' C. apply c52_gc_partial in C as (s & C1 & C2 & _).
  assert (K : forall fs rows, NoDup (map fst rows) -> NoDup (map fst (gcs fs rows))).
  { clear. induction fs as [|f fs IH]; intros rows ND; [exact ND|]. cbn. apply IH. clear IH. induction rows as [|[u s] rows IH]; [constructor|].
    inversion ND as [|? ? N ND']; subst. cbn [gc flat_map]. fold (gc f rows). unfold gc_row. cbn [fst snd].
    assert (N' : ~ In u (map fst (gc f rows))). { intros C. apply in_map_iff in C as ([u' s'] & Eu & C). cbn in Eu. subst u'. destruct (gc_keeps_ids f rows u s' C) as (s2 & C2 & _). apply N. apply in_map_iff. exists (u, s2). auto. }
    destruct s; [destruct (f u)|destruct (f u)|]; cbn; try (constructor; [exact N'|]); apply IH, ND'. }
  pose proof (K (f :: fs) rows ND) as ND2. cbn in ND2. pose proof (gc_failed_stays fs _ u F) as Fl.
  assert (Eq : (u, s) = (u, Failed)) by (apply (NoDup_map_inj fst (gcs fs (gc f rows))); [exact ND2|exact C1|exact Fl|reflexivity]). injection Eq as ->. contradiction.
Qed.
(* and the state RETRY never occurs *)
Theorem c52_never_retried fs rows : (forall u s, In (u, s) rows -> s = Pending) -> forall u, ~ In (u, Retry) (gcs fs rows).
Proof.
  intros H. assert (H' : forall u, ~ In (u, Retry) rows) by (intros u C; specialize (H u Retry C); discriminate H). clear H. revert rows H'.
  induction fs as [|f fs IH]; intros rows H; [exact H|]. cbn. apply IH. intros u C. destruct (gc_keeps_ids f rows u Retry C) as (s & C1 & _ & C2). rewrite (C2 eq_refl) in C1. exact (H u C1).
Qed.

(* Examples *)
Open Scope string_scope.
Definition ex_parse (t : string) : string * string * string := ("default", "public", t).
Definition ex_exec := exec 20 Sqlite (fun l => l) ex_parse.
Definition ex_init : world := {| cat := empty; data := fun _ => Absent; staged := [] |}.
Definition ex_run (u : nat) (st : stmt) (w : world) : world := after (ex_exec "default" u 5 st w) w.
(* two databases; default.public.t with two writes, default.other.s, second.public.t; Parquet files at 90 *)
Definition ex_w1 := ex_run 0 (SCreateDatabase "default" false) ex_init.
Definition ex_w2 := ex_run 0 (SCreateDatabase "second" false) ex_w1.
Definition ex_w3 := ex_run 0 (SCreateSchema "other" false) ex_w2.
Definition ex_w4 := ex_run 1 (SCreateTableAs "default" "public" "t" true [("a", 1); ("b", 2)] 7) ex_w3.
Definition ex_w5 := ex_run 2 (SInsert "default" "public" "t" 8) ex_w4.
Definition ex_w6 := ex_run 2 (SUpload "other" "s" [("c", 3)] 9) ex_w5.
Definition ex_w7 := put 90 (Raw 6) ex_w6.
Definition ex_w := after (exec 20 Sqlite (fun l => l) ex_parse "second" 3 5 (SCreateTable "second" "public" "t" false [("a", 1)]) ex_w7) ex_w7.
Lemma ex_in u st w : reach 20 Sqlite (fun l => l) ex_parse w -> unused w u -> reach 20 Sqlite (fun l => l) ex_parse (ex_run u st w).
Proof. intros R U. exact (reach_exec _ _ _ _ "default" u 5 st w _ R U (in_last _ _)). Qed.
Ltac unus := split; [reflexivity|vm_compute; intuition discriminate].
Example ex_reach : reach 20 Sqlite (fun l => l) ex_parse ex_w.
Proof.
  refine (reach_exec _ _ _ _ "second" 3 5 _ ex_w7 _ _ _ (in_last _ _)); [|unus]. apply reach_raw; [|unus].
  apply ex_in; [|unus]. apply ex_in; [|unus]. apply ex_in; [|unus]. apply ex_in; [|unus]. apply ex_in; [|unus]. apply ex_in; [|unus]. apply reach_init.
Qed.
Example ex_tables :
  map (fun n => provider "default" "default" (fst n) (snd n) ex_w) [("public", "t"); ("other", "s"); ("other", "t"); ("system", "table_versions")]
    = [Some (PDelta 1 2 [7; 8]); Some (PDelta 2 1 [9]); None; Some POther] /\
  provider "second" "second" "public" "t" ex_w = Some (PDelta 3 0 []) /\ unused ex_w 4 /\ unused ex_w 5.
Proof. split; [vm_compute; reflexivity|]. split; [vm_compute; reflexivity|]. split; unus. Qed.
(* every statement on it: the effects that the theorems describe *)
Example ex_statements :
  snd (ex_exec "default" 4 6 (SCreateTable "default" "public" "n" false [("a", 1)]) ex_w) = true /\
  snd (ex_exec "default" 4 6 (SCreateTable "second" "public" "n" false [("a", 1)]) ex_w) = false /\
  table_uuid "default" "public" "n" (cat (after (ex_exec "default" 4 6 (SCreateTable "second" "public" "n" false [("a", 1)]) ex_w) ex_w)) = Some 4 /\
  snd (ex_exec "default" 4 6 (SCreateTable "default" "public" "t" true [("a", 1)]) ex_w) = false /\
  snd (ex_exec "default" 4 6 (SCreateSchema "other" true) ex_w) = false /\
  snd (ex_exec "default" 4 6 (SUpload "public" "t" [] 10) ex_w) = true /\
  snd (ex_exec "default" 4 6 (SUpload "other" "s" [] 10) ex_w) = false /\
  snd (ex_exec "default" 4 6 (SUpload "other" "t" [] 10) ex_w) = false /\
  data (after (ex_exec "default" 4 6 (SConvert 90 "default" "public" "n" [("a", 1)]) ex_w) ex_w) 90 = Delta 0 [6] /\
  snd (ex_exec "default" 4 6 (SConvert 1 "default" "public" "n" [("a", 1)]) ex_w) = true /\
  snd (ex_exec "default" 4 6 (SDropTable "second" "public" "t" false) ex_w) = true /\
  data (after (ex_exec "default" 4 6 (SDropTable "default" "public" "t" false) ex_w) ex_w) 1 = Absent /\
  snd (ex_exec "default" 4 6 (SDropSchema "default" "public" false) ex_w) = true /\
  snd (ex_exec "default" 4 6 (SRename "default" "public" "t" "default" "other" "t") ex_w) = true /\
  snd (ex_exec "default" 4 6 (SRename "default" "public" "t" "default" "other" "s") ex_w) = false.
Proof. vm_compute. repeat (split; [reflexivity|]). reflexivity. Qed.
Example ex_names_lower : simple "my_table" = true /\ lower "my_table" = "my_table" /\ simple "MyTable" = true /\ lower "MyTable" = "mytable" /\ simple "my-table" = false.
Proof. vm_compute. auto. Qed.
Example ex_gc : gcs [(fun u => Nat.eqb u 1); (fun _ => false)] [(1, Pending); (2, Pending); (3, Retry)] = [(1, Failed)].
Proof. reflexivity. Qed.

Print Assumptions c45_create_table_partial.
Print Assumptions c45_crash_refuted.
Print Assumptions c45_failed_refuted.
Print Assumptions c50_created_where_it_says_partial.
Print Assumptions c50_other_database_refuted.
Print Assumptions c46_create_database_partial.
Print Assumptions c46_refuted.
Print Assumptions c47_create_as_partial.
Print Assumptions c47_create_table_refuted.
Print Assumptions c47_create_schema_refuted.
Print Assumptions c51_upload_partial.
Print Assumptions c51_new_schema_partial.
Print Assumptions c51_upload_refuted.
Print Assumptions c51_wrong_table_refuted.
Print Assumptions c73_convert_partial.
Print Assumptions c73_convert_refuted.
Print Assumptions c74_drop_table_partial.
Print Assumptions c74_other_database_refuted.
Print Assumptions c74_crash_refuted.
Print Assumptions c75_no_future_version.
Print Assumptions c75_insert_partial.
Print Assumptions c75_crash_refuted.
Print Assumptions c75_truncate_refuted.
Print Assumptions c75_truncate_empties.
Print Assumptions c76_own_location.
Print Assumptions c77_drop_schema_partial.
Print Assumptions c77_unreadable_refuted.
Print Assumptions c43_rename_statement.
Print Assumptions c78_dropped_partial.
Print Assumptions c78_dropped_refuted.
Print Assumptions c78_created.
Print Assumptions c52_gc_partial.
Print Assumptions c52_forgotten_partial.
Print Assumptions c52_recorded_partial.
Print Assumptions c52_never_retried.
