(* Proofs for the catalog, continued: the effect of each operation by name. *)
From Coq Require Import String List Arith Bool Lia Permutation.
Import ListNotations.
From Verif Require Import CatalogModel CatalogSpec CatalogProofs.
Open Scope list_scope.

Ltac rows := cbn [set_dbs set_colls set_tbls set_vers set_cols set_fns dbs colls tbls vers cols fns
  db_id db_name co_id co_db co_name tb_id tb_coll tb_name tb_uuid ve_id ve_tbl ve_time ve_version cl_ver cl_name cl_type
  fn_id fn_db fn_name fn_details fst snd] in *.

(* frames *)
Lemma frame_dbs c c' : dbs c' = dbs c -> same_dbs c c'.
Proof. intros E d b. unfold has_db. rewrite E. reflexivity. Qed.
Lemma frame_schemas c c' : same_dbs c c' -> colls c' = colls c -> same_schemas c c'.
Proof.
  intros E F d s k. unfold has_schema. rewrite F. split; intros (b & r & B & H); exists b, r; (split; [apply E, B|exact H]).
Qed.
Lemma frame_tables c c' : same_schemas c c' -> tbls c' = tbls c -> same_tables c c'.
Proof.
  intros E F d s t i u. unfold has_table. rewrite F. split; intros (k & r & B & H); exists k, r; (split; [apply E, B|exact H]).
Qed.
Lemma frame_functions c c' : same_dbs c c' -> fns c' = fns c -> same_functions c c'.
Proof.
  intros E F d f x. unfold has_function. rewrite F. split; intros (b & r & B & H); exists b, r; (split; [apply E, B|exact H]).
Qed.
Lemma frame_versions c c' : vers c' = vers c -> same_versions c c'.
Proof. intros E i v time n. unfold has_version. rewrite E. reflexivity. Qed.
Lemma frame_columns c c' : cols c' = cols c -> same_columns c c'.
Proof. intros E v n t. unfold has_column. rewrite E. reflexivity. Qed.

Lemma bind_ok_iff {A B} (x : res A) c (k : A -> catalog * res B) c' b : bind x c k = (c', Ok b) <-> exists a, x = Ok a /\ k a = (c', Ok b).
Proof.
  destruct x as [a|e]; cbn [bind]; split.
  - intros H. exists a. split; [reflexivity|exact H].
  - intros (a' & E & H). inversion E; subst a'. exact H.
  - discriminate.
  - intros (a & E & _). discriminate E.
Qed.
Lemma done_eq {A} (x : catalog * res A) c' ok : done x = (c', ok) -> exists r, x = (c', r) /\ (ok = true <-> exists a, r = Ok a).
Proof.
  destruct x as [c0 [a|e]]; cbn [done]; intros H; injection H as <- <-.
  - exists (Ok a). split; [reflexivity|]. split; [intros _; exists a; reflexivity|reflexivity].
  - exists (Err e). split; [reflexivity|]. split; [discriminate|intros (a & E); discriminate E].
Qed.

(* CREATE DATABASE in the catalog *)
Lemma create_db_effect lim be d c c' ok : wf c -> cstep lim be (CreateDb d) c = (c', ok) ->
  (ok = true <-> ~ exists b, has_db c d b) /\ (ok = false -> c' = c) /\
  (ok = true -> exists b, (forall d', ~ has_db c d' b) /\
     (forall d' b', has_db c' d' b' <-> has_db c d' b' \/ (d' = d /\ b' = b)) /\
     same_schemas c c' /\ same_tables c c' /\ same_functions c c' /\ same_versions c c' /\ same_columns c c').
Proof.
  intros W. cbn [cstep]. unfold catalog_create, create_database. destruct (existsb _ (dbs c)) eqn:E; cbn [done]; intros H; injection H as <- <-.
  - split; [|split; [reflexivity|discriminate]]. split; [discriminate|]. intros N. exfalso. apply existsb_exists in E as (r & H1 & H2).
    apply String.eqb_eq in H2. apply N. exists (db_id r), r. split; [exact H1|]. split; [exact H2|reflexivity].
  - split; [|split; [discriminate|]].
    + split; [|reflexivity]. intros _ (b & r & H1 & H2 & _). pose proof (existsb_false _ _ r E H1) as N. cbn in N.
      rewrite H2, String.eqb_refl in N. discriminate N.
    + intros _. exists (fresh (map db_id (dbs c))).
      assert (D : forall d' b', has_db (set_dbs (dbs c ++ [{| db_id := fresh (map db_id (dbs c)); db_name := d |}]) c) d' b' <->
                    has_db c d' b' \/ (d' = d /\ b' = fresh (map db_id (dbs c)))).
      { intros d' b'. unfold has_db. rows. split.
        - intros (r & H & H1 & H2). apply in_app_or in H as [H|[<-|[]]]; [left; exists r; auto|right]. rows. split; congruence.
        - intros [(r & H & H1 & H2)|[-> ->]]; eexists; (split; [apply in_or_app|]); [left; exact H|auto|right; left; reflexivity|]. rows. auto. }
      assert (Nw : forall d' b', b' <> fresh (map db_id (dbs c)) -> has_db (set_dbs (dbs c ++ [{| db_id := fresh (map db_id (dbs c)); db_name := d |}]) c) d' b' <-> has_db c d' b').
      { intros d' b' N. rewrite D. split; [intros [H|[_ H]]; [exact H|contradiction]|left; assumption]. }
      split. { intros d' (r & H & _ & H2). apply (fresh_notin (map db_id (dbs c))). rewrite <- H2. apply in_map, H. }
      split; [exact D|].
      assert (S1 : same_schemas c (set_dbs (dbs c ++ [{| db_id := fresh (map db_id (dbs c)); db_name := d |}]) c)).
      { intros d' s k. unfold has_schema. split; intros (b & r & B & H & Hb & Hr); exists b, r; rows.
        - split; [|split; [exact H|split; [exact Hb|exact Hr]]]. apply Nw in B; [exact B|]. intros ->.
          apply (fresh_notin (map db_id (dbs c))). rewrite <- Hb. apply (wf_co_fk c W), H.
        - split; [|split; [exact H|split; [exact Hb|exact Hr]]]. apply D. left. exact B. }
      split; [exact S1|]. split; [apply frame_tables; [exact S1|reflexivity]|].
      split; [|split; [apply frame_versions; reflexivity|apply frame_columns; reflexivity]].
      intros d' f x. unfold has_function. split; intros (b & r & B & H & Hb & Hr); exists b, r; rows.
      * split; [|split; [exact H|split; [exact Hb|exact Hr]]]. apply Nw in B; [exact B|]. intros ->.
        apply (fresh_notin (map db_id (dbs c))). rewrite <- Hb. apply (wf_fn_fk c W), H.
      * split; [|split; [exact H|split; [exact Hb|exact Hr]]]. apply D. left. exact B.
Qed.

(* CREATE SCHEMA in the catalog *)
Lemma create_schema_effect lim be d s c c' ok : wf c -> cstep lim be (CreateSchema d s) c = (c', ok) ->
  (ok = true <-> s <> staging /\ (exists b, has_db c d b) /\ ~ exists k, has_schema c d s k) /\ (ok = false -> c' = c) /\
  (ok = true -> exists k, (forall d' s', ~ has_schema c d' s' k) /\
     (forall d' s' k', has_schema c' d' s' k' <-> has_schema c d' s' k' \/ (d' = d /\ s' = s /\ k' = k)) /\
     same_dbs c c' /\ same_tables c c' /\ same_functions c c' /\ same_versions c c' /\ same_columns c c').
Proof.
  intros W. cbn [cstep]. unfold schema_create. destruct (String.eqb_spec s staging) as [->|Ns]; cbn [done].
  { intros H; injection H as <- <-. split; [|split; [reflexivity|discriminate]]. split; [discriminate|]. intros [N _]. contradiction. }
  destruct (get_database d c) as [b|e] eqn:G; cbn [bind done].
  2:{ intros H; injection H as <- <-. split; [|split; [reflexivity|discriminate]]. split; [discriminate|]. intros (_ & (b & B) & _).
      apply (get_database_ok c W) in B. congruence. }
  apply (get_database_ok c W) in G. unfold create_collection. destruct (existsb _ (colls c)) eqn:E; cbn [done].
  { intros H; injection H as <- <-. split; [|split; [reflexivity|discriminate]]. split; [discriminate|]. intros (_ & _ & N). exfalso.
    apply existsb_exists in E as (r & H1 & H2). apply andb_true_iff in H2 as [H2 H3]. apply Nat.eqb_eq in H2. apply String.eqb_eq in H3.
    apply N. exists (co_id r), b, r. auto. }
  assert (F : has_id db_id b (dbs c) = true). { apply has_id_In. destruct G as (r & H1 & _ & <-). apply in_map, H1. }
  rewrite F. cbn [negb done]. intros H; injection H as <- <-. split; [|split; [discriminate|]].
  - split; [|reflexivity]. intros _. split; [exact Ns|]. split; [exists b; exact G|]. intros (k & b' & r & B & H1 & H2 & H3 & _).
    pose proof (existsb_false _ _ r E H1) as N. cbn in N. rewrite H3, String.eqb_refl, H2, (has_db_fun c W _ _ _ B G), Nat.eqb_refl in N. discriminate N.
  - intros _. exists (fresh (map co_id (colls c))).
    set (c' := set_colls _ c). assert (Sd : same_dbs c c') by (apply frame_dbs; reflexivity).
    assert (D : forall d' s' k', has_schema c' d' s' k' <-> has_schema c d' s' k' \/ (d' = d /\ s' = s /\ k' = fresh (map co_id (colls c)))).
    { intros d' s' k'. split.
      - intros (b' & r & B & H & H1 & H2 & H3). apply Sd in B. subst c'. rows. apply in_app_or in H as [H|[<-|[]]].
        + left. exists b', r. auto.
        + right. rows. subst b'. split; [exact (has_db_name c W _ _ _ B G)|]. split; congruence.
      - intros [(b' & r & B & H & H1)|(-> & -> & ->)].
        + exists b', r. split; [apply Sd, B|]. split; [subst c'; rows; apply in_or_app; left; exact H|exact H1].
        + eexists b, _. split; [apply Sd, G|]. split; [subst c'; rows; apply in_or_app; right; left; reflexivity|]. rows. auto. }
    split. { intros d' s' (b' & r & _ & H & _ & _ & H2). apply (fresh_notin (map co_id (colls c))). rewrite <- H2. apply in_map, H. }
    split; [exact D|]. split; [exact Sd|]. split; [|split; [apply frame_functions; [exact Sd|reflexivity]|split; [apply frame_versions|apply frame_columns]; reflexivity]].
    intros d' s' t i u. unfold has_table. split; intros (k & r & B & H & Hb & Hr); exists k, r.
    + split; [|split; [exact H|split; [exact Hb|exact Hr]]]. apply D in B as [B|(_ & _ & ->)]; [exact B|]. exfalso.
      apply (fresh_notin (map co_id (colls c))). rewrite <- Hb. apply (wf_tb_fk c W), H.
    + split; [apply D; left; exact B|]. split; [exact H|split; [exact Hb|exact Hr]].
Qed.

Lemma nodup_names_spec l : nodup_names l = true <-> NoDup (map fst l).
Proof.
  induction l as [|[n t] l IH]; cbn; [split; [constructor|reflexivity]|]. rewrite andb_true_iff, IH, negb_true_iff. split.
  - intros [H1 H2]. constructor; [|exact H2]. intros C. apply in_map_iff in C as (x & E & C). pose proof (existsb_false _ _ x H1 C) as N. cbn in N.
    rewrite E, String.eqb_refl in N. discriminate N.
  - intros H. inversion H; subst. split; [|assumption]. destruct (existsb _ l) eqn:E; [|reflexivity]. exfalso.
    apply existsb_exists in E as (x & Hx & Ex). apply String.eqb_eq in Ex. apply H2. rewrite <- Ex. apply in_map, Hx.
Qed.

(* the transaction of CREATE TABLE *)
Lemma create_table_tx_effect k d s t u now c c' r : wf c -> has_schema c d s k -> create_table_tx k t u now c = (c', r) ->
  ((exists a, r = Ok a) <-> ~ exists i u', has_table c d s t i u') /\ ((exists e, r = Err e) -> c' = c) /\
  (forall i v, r = Ok (i, v) -> adds_table c c' d s t i u v now /\
     same_dbs c c' /\ same_schemas c c' /\ same_functions c c' /\ cols c' = cols c /\ (forall x, In x (vers c) -> ve_tbl x <> i) /\ v = fresh (map ve_id (vers c))).
Proof.
  intros W K H. destruct r as [[i v]|e].
  - destruct (create_table_tx_ok _ _ _ _ _ _ _ _ H) as (Ei & Ev & -> & E & F). split; [|split; [intros [e C]; discriminate C|]].
    + split; [|intros _; exists (i, v); reflexivity]. intros _ (i' & u' & k' & r & B & H1 & H2 & H3 & _).
      pose proof (existsb_false _ _ r E H1) as N. cbn in N. rewrite H3, String.eqb_refl, H2, (has_schema_fun c W _ _ _ _ B K), Nat.eqb_refl in N. discriminate N.
    + intros i0 v0 E0; injection E0 as <- <-. set (c' := set_vers _ _). assert (Sd : same_dbs c c') by (apply frame_dbs; reflexivity).
      assert (Ss : same_schemas c c') by (apply frame_schemas; [exact Sd|reflexivity]).
      split; [|split; [exact Sd|split; [exact Ss|split; [apply frame_functions; [exact Sd|reflexivity]|split; [reflexivity|split]]]]]; [|intros x Hx Ex; apply (fresh_notin (map tb_id (tbls c))); rewrite <- Ei, <- Ex; apply (wf_ve_fk c W), Hx|exact Ev].
      split; [|split; [|split]].
      * intros d' s' t' u' (k' & r & _ & H1 & _ & _ & H2 & _). apply (fresh_notin (map tb_id (tbls c))). rewrite <- Ei, <- H2. apply in_map, H1.
      * intros i' time n H1. apply (fresh_notin (map ve_id (vers c))). rewrite <- Ev. exact (in_map ve_id _ _ H1).
      * intros d' s' t' i' u'. split.
        -- intros (k' & r & B & H1 & H2 & H3 & H4 & H5). apply Ss in B. subst c'. rows. apply in_app_or in H1 as [H1|[<-|[]]].
           ++ left. exists k', r. repeat (split; [assumption|]). assumption.
           ++ right. rows. subst k'. destruct (has_schema_name c W _ _ _ _ _ B K) as [-> ->]. repeat (split; [congruence|]). congruence.
        -- intros [(k' & r & B & H1 & H2)|(-> & -> & -> & -> & ->)].
           ++ exists k', r. split; [apply Ss, B|]. split; [subst c'; rows; apply in_or_app; left; exact H1|exact H2].
           ++ eexists k, _. split; [apply Ss, K|]. split; [subst c'; rows; apply in_or_app; right; left; reflexivity|]. rows. auto 8.
      * intros i' v' time n. unfold has_version. subst c'. rows. split.
        -- intros H1. apply in_app_or in H1 as [H1|[H1|[]]]; [left; exact H1|right]. injection H1. intros -> -> -> ->. auto.
        -- intros [H1|(-> & -> & -> & ->)]; apply in_or_app; [left; exact H1|right; left; reflexivity].
  - pose proof (create_table_tx_err _ _ _ _ _ _ _ H) as ->. split; [|split; [reflexivity|discriminate]]. split; [intros [a C]; discriminate C|]. intros N. exfalso.
    unfold create_table_tx in H. destruct (existsb _ (tbls c)) eqn:E.
    + apply existsb_exists in E as (r & H1 & H2). apply andb_true_iff in H2 as [H2 H3]. apply Nat.eqb_eq in H2. apply String.eqb_eq in H3.
      apply N. exists (tb_id r), (tb_uuid r), k, r. auto 8.
    + assert (F : has_id co_id k (colls c) = true). { apply has_id_In. destruct K as (b & r & _ & H1 & _ & _ & <-). apply in_map, H1. }
      rewrite F in H. discriminate H.
Qed.
Lemma schema_get_ok c d s k : wf c -> schema_get d s c = Ok k <-> s <> staging /\ has_schema c d s k.
Proof.
  intros W. unfold schema_get. destruct (String.eqb_spec s staging) as [->|N].
  - split; [discriminate|intros [C _]; contradiction].
  - rewrite (get_collection_ok c W). split; [intros H; split; assumption|intros [_ H]; exact H].
Qed.

(* CREATE TABLE in the catalog *)
Lemma create_table_effect lim be d s t fields u now c c' ok : wf c -> cstep lim be (CreateTable d s t fields u now) c = (c', ok) ->
  let free := s <> staging /\ (exists k, has_schema c d s k) /\ ~ exists i u', has_table c d s t i u' in
  (ok = true <-> free /\ fields_ok lim fields) /\ (~ free -> c' = c) /\
  (free -> exists i v, adds_table c c' d s t i u v now /\ same_dbs c c' /\ same_schemas c c' /\ same_functions c c' /\
     (forall v' name type, has_column c' v' name type <-> has_column c v' name type \/ (ok = true /\ v' = v /\ In (name, type) fields)) /\
     (forall name type, ~ has_column c v name type)).
Proof.
  intros W. cbn [cstep]. unfold table_create. destruct (schema_get d s c) as [k|e] eqn:G; cbn [bind done].
  2:{ intros H; injection H as <- <-. cbn zeta. assert (N : ~ (s <> staging /\ (exists k, has_schema c d s k) /\ ~ exists i u', has_table c d s t i u')).
      { intros (Ns & (k & K) & _). pose proof (proj2 (schema_get_ok c d s k W) (conj Ns K)). congruence. }
      split; [split; [discriminate|intros [C _]; contradiction]|]. split; [reflexivity|intros C; contradiction]. }
  apply (schema_get_ok c d s k W) in G as [Ns K]. unfold create_table. destruct (create_table_tx k t u now c) as [c1 r] eqn:E.
  destruct (create_table_tx_effect k d s t u now c c1 r W K E) as (H1 & H2 & H3). cbn zeta.
  destruct r as [[i v]|e]; cbn [done].
  - assert (Fr : ~ exists i u', has_table c d s t i u') by (apply H1; exists (i, v); reflexivity).
    destruct (H3 i v eq_refl) as (A & Sd & Ss & Sf & Ec & Nv & Ev). unfold insert_columns.
    assert (Nc : forall name type, ~ has_column c v name type).
    { intros name type C. apply (fresh_notin (map ve_id (vers c))). rewrite <- Ev. exact (wf_cl_fk c W _ C). }
    assert (Fo : nodup_names fields && Nat.leb (length fields) lim = true <-> fields_ok lim fields).
    { unfold fields_ok. rewrite andb_true_iff, nodup_names_spec, Nat.leb_le. reflexivity. }
    destruct (nodup_names fields && Nat.leb (length fields) lim) eqn:Ef; cbn [done]; intros H; injection H as <- <-.
    + split; [split; [|reflexivity]|]. { intros _. split; [|apply Fo; reflexivity]. split; [exact Ns|]. split; [exists k; exact K|exact Fr]. }
      split; [intros N; exfalso; apply N; split; [exact Ns|]; split; [exists k; exact K|exact Fr]|]. intros _. exists i, v.
      split; [exact A|]. split; [exact Sd|]. split; [exact Ss|]. split; [exact Sf|]. split; [|exact Nc].
      intros v' name type. unfold has_column. rows. rewrite Ec. split.
      * intros H. apply in_app_or in H as [H|H]; [left; exact H|right]. apply in_map_iff in H as ([n ty] & E' & H). injection E' as <- <- <-. auto.
      * intros [H|(_ & -> & H)]; apply in_or_app; [left; exact H|right]. apply in_map_iff. exists (name, type). auto.
    + split; [split; [discriminate|intros [_ C]; apply Fo in C; discriminate C]|].
      split; [intros N; exfalso; apply N; split; [exact Ns|]; split; [exists k; exact K|exact Fr]|]. intros _. exists i, v.
      split; [exact A|]. split; [exact Sd|]. split; [exact Ss|]. split; [exact Sf|]. split; [|exact Nc].
      intros v' name type. unfold has_column. rewrite Ec. split; [left; assumption|intros [H|[C _]]; [exact H|discriminate C]].
  - intros H; injection H as <- <-. assert (Fr : ~ ~ exists i u', has_table c d s t i u'). { intros C. apply H1 in C as [a C]. discriminate C. }
    split; [split; [discriminate|intros [(_ & _ & C) _]; contradiction]|]. split; [intros _; apply H2; exists e; reflexivity|]. intros (_ & _ & C). contradiction.
Qed.

(* Drops *)
Lemma cascade c c' (q : nat -> Prop) (p : tbl_row -> Prop) (gone : nat -> Prop) : wf c ->
  (forall r, (q (tb_coll r) /\ p r) \/ ~ (q (tb_coll r) /\ p r)) ->
  (forall d s k, has_schema c' d s k <-> has_schema c d s k /\ q k) ->
  (forall r, In r (tbls c') <-> In r (tbls c) /\ q (tb_coll r) /\ p r) ->
  (forall v, In v (vers c') <-> In v (vers c) /\ In (ve_tbl v) (map tb_id (tbls c'))) ->
  (forall r, In r (cols c') <-> In r (cols c) /\ In (cl_ver r) (map ve_id (vers c'))) ->
  (forall i, gone i <-> exists r, In r (tbls c) /\ tb_id r = i /\ ~ (q (tb_coll r) /\ p r)) -> removes_tables c c' gone.
Proof.
  intros W Dec Hs Ht Hv Hc Hg.
  assert (Kept : forall r, In r (tbls c) -> (q (tb_coll r) /\ p r) <-> ~ gone (tb_id r)).
  { intros r H. split.
    - intros K G. apply Hg in G as (r' & H1 & H2 & H3). assert (r' = r) by (apply (NoDup_map_inj tb_id (tbls c)); [exact (wf_tb_id c W)|assumption|assumption|exact H2]).
      subst r'. contradiction.
    - intros N. destruct (Dec r) as [K|K]; [exact K|]. exfalso. apply N, Hg. exists r. auto. }
  assert (Vers : forall i v time n, has_version c' i v time n <-> has_version c i v time n /\ ~ gone i).
  { intros i v time n. unfold has_version. rewrite Hv. rows. split.
    - intros [H1 H2]. split; [exact H1|]. apply in_map_iff in H2 as (r & <- & H2). apply Ht in H2 as [H2 H3]. apply Kept; assumption.
    - intros [H1 H2]. split; [exact H1|]. pose proof (wf_ve_fk c W _ H1) as H3. rows. apply in_map_iff in H3 as (r & <- & H3).
      apply in_map. apply Ht. split; [exact H3|]. apply Kept; assumption. }
  split; [|split; [exact Vers|]].
  - intros d s t i u. split.
    + intros (k & r & B & H1 & H2 & H3 & H4 & H5). apply Hs in B as [B Q]. apply Ht in H1 as [H1 P]. split; [|rewrite <- H4; apply Kept; assumption].
      exists k, r. repeat (split; [assumption|]). assumption.
    + intros [(k & r & B & H1 & H2 & H3 & H4 & H5) N]. rewrite <- H4 in N. apply Kept in N; [|exact H1]. exists k, r. split; [apply Hs; split; [exact B|rewrite <- H2; exact (proj1 N)]|].
      split; [apply Ht; split; assumption|]. auto.
  - intros v name type. unfold has_column. rewrite Hc. rows. split.
    + intros [H1 H2]. split; [exact H1|]. intros (i & time & n & G & V). apply in_map_iff in H2 as ([v' i' time' n'] & E & H2). rows. subst v'.
      pose proof (proj1 (Vers i' v time' n') H2) as [V' N]. assert (E : {| ve_id := v; ve_tbl := i'; ve_time := time'; ve_version := n' |} = {| ve_id := v; ve_tbl := i; ve_time := time; ve_version := n |}).
      { apply (NoDup_map_inj ve_id (vers c)); [exact (wf_ve_id c W)|exact V'|exact V|reflexivity]. }
      injection E as -> _ _. contradiction.
    + intros [H1 H2]. split; [exact H1|]. pose proof (wf_cl_fk c W _ H1) as H3. rows. apply in_map_iff in H3 as ([v' i time n] & E & H3). rows. subst v'.
      assert (V : has_version c' i v time n).
      { apply Vers. split; [exact H3|]. intros G. apply H2. exists i, time, n. split; [exact G|exact H3]. }
      exact (in_map ve_id _ _ V).
Qed.
Lemma has_id_false {A} (f : A -> nat) i l : has_id f i l = false -> ~ In i (map f l).
Proof. intros H C. apply has_id_In in C. congruence. Qed.
Lemma in_keep {A} (f : A -> nat) {B} (g : B -> nat) r l m : In r (filter (fun r => has_id g (f r) m) l) <-> In r l /\ In (f r) (map g m).
Proof. rewrite filter_In, has_id_In. reflexivity. Qed.
Lemma in_remove {A} (f : A -> nat) r l i : In r (filter (fun r => negb (Nat.eqb (f r) i)) l) <-> In r l /\ f r <> i.
Proof. rewrite filter_In, negb_true_iff, Nat.eqb_neq. reflexivity. Qed.

Lemma drop_table_effect lim be d s t c c' ok : wf c -> cstep lim be (DropTable d s t) c = (c', ok) ->
  (ok = true <-> exists i u, has_table c d s t i u) /\ (ok = false -> c' = c) /\
  (ok = true -> removes_tables c c' (fun i => exists u, has_table c d s t i u) /\ same_dbs c c' /\ same_schemas c c' /\ same_functions c c').
Proof.
  intros W. cbn [cstep]. unfold table_delete. destruct (get_table d s t c) as [i|e] eqn:G; cbn [bind done].
  2:{ intros H; injection H as <- <-. split; [|split; [reflexivity|discriminate]]. split; [discriminate|]. intros (i & C).
      apply (get_table_ok c W) in C. congruence. }
  apply (get_table_ok c W) in G. destruct G as [u G]. unfold delete_table.
  destruct (has_id tb_id i (tbls c)) eqn:F; cbn [done].
  2:{ exfalso. apply has_id_false in F. apply F. destruct G as (k & r & _ & H1 & _ & _ & <- & _). apply in_map, H1. }
  intros H; injection H as <- <-. split; [split; [intros _; exists i, u; exact G|reflexivity]|]. split; [discriminate|]. intros _.
  set (c' := keep_vers _). assert (Sd : same_dbs c c') by (apply frame_dbs; reflexivity).
  assert (Ss : same_schemas c c') by (apply frame_schemas; [exact Sd|reflexivity]).
  split; [|split; [exact Sd|split; [exact Ss|apply frame_functions; [exact Sd|reflexivity]]]].
  apply (cascade c c' (fun _ => True) (fun r => tb_id r <> i)); [exact W| | | | | |].
  - intros r. destruct (Nat.eq_dec (tb_id r) i); [right|left]; intuition.
  - intros d' s' k. rewrite (Ss d' s' k). intuition.
  - intros r. unfold c', keep_vers, keep_cols. rows. rewrite in_remove. intuition.
  - intros v. unfold c', keep_vers, keep_cols. rows. apply in_keep.
  - intros r. unfold c', keep_vers, keep_cols. rows. apply in_keep.
  - intros i'. split.
    + intros (u' & G'). destruct (has_table_fun c W _ _ _ _ _ _ _ G G') as [<- <-]. destruct G as (k & r & _ & H1 & _ & _ & H2 & _).
      exists r. split; [exact H1|]. split; [exact H2|]. intros [_ N]. contradiction.
    + intros (r & H1 & H2 & N). destruct (Nat.eq_dec (tb_id r) i) as [E|E]; [|exfalso; apply N; split; [exact Logic.I|exact E]].
      exists u. rewrite <- H2, E. exact G.
Qed.
Lemma drop_schema_effect lim be d s c c' ok : wf c -> cstep lim be (DropSchema d s) c = (c', ok) ->
  (ok = true <-> s <> staging /\ exists k, has_schema c d s k) /\ (ok = false -> c' = c) /\
  (ok = true -> removes_tables c c' (fun i => exists t u, has_table c d s t i u) /\
     (forall d' s' k, has_schema c' d' s' k <-> has_schema c d' s' k /\ ~ (d' = d /\ s' = s)) /\ same_dbs c c' /\ same_functions c c').
Proof.
  intros W. cbn [cstep]. unfold schema_delete. destruct (schema_get d s c) as [k|e] eqn:G; cbn [bind done].
  2:{ intros H; injection H as <- <-. split; [|split; [reflexivity|discriminate]]. split; [discriminate|]. intros (N & k & C).
      pose proof (proj2 (schema_get_ok c d s k W) (conj N C)). congruence. }
  apply (schema_get_ok c d s k W) in G as [Ns G]. unfold delete_collection.
  destruct (has_id co_id k (colls c)) eqn:F; cbn [done].
  2:{ exfalso. apply has_id_false in F. apply F. destruct G as (b & r & _ & H1 & _ & _ & <-). apply in_map, H1. }
  intros H; injection H as <- <-. split; [split; [intros _; split; [exact Ns|exists k; exact G]|reflexivity]|]. split; [discriminate|]. intros _.
  set (c' := keep_tbls _). assert (Sd : same_dbs c c') by (apply frame_dbs; reflexivity).
  assert (Hc : forall r, In r (colls c') <-> In r (colls c) /\ co_id r <> k). { intros r. unfold c', keep_tbls, keep_vers, keep_cols. rows. apply in_remove. }
  assert (Hs : forall d' s' k', has_schema c' d' s' k' <-> has_schema c d' s' k' /\ k' <> k).
  { intros d' s' k'. split.
    - intros (b & r & B & H1 & H2). apply Sd in B. apply Hc in H1 as [H1 N]. split; [exists b, r; auto|]. destruct H2 as (_ & _ & <-). exact N.
    - intros [(b & r & B & H1 & H2 & H3 & H4) N]. exists b, r. split; [apply Sd, B|]. split; [apply Hc; split; [exact H1|congruence]|auto]. }
  assert (Hn : forall d' s' k', has_schema c d' s' k' -> k' <> k <-> ~ (d' = d /\ s' = s)).
  { intros d' s' k' K. split; intros N C; apply N.
    - destruct C as [-> ->]. exact (has_schema_fun c W _ _ _ _ K G).
    - subst k'. exact (has_schema_name c W _ _ _ _ _ K G). }
  split; [|split; [|split; [exact Sd|apply frame_functions; [exact Sd|reflexivity]]]].
  2:{ intros d' s' k'. rewrite Hs. split; intros [K N]; (split; [exact K|]); apply (Hn d' s' k' K), N. }
  apply (cascade c c' (fun k' => k' <> k) (fun _ => True)); [exact W| |exact Hs| | | |].
  - intros r. destruct (Nat.eq_dec (tb_coll r) k); [right|left]; intuition.
  - intros r. unfold c', keep_tbls, keep_vers, keep_cols. rows. rewrite in_keep. split.
    + intros [H1 H2]. split; [exact H1|]. split; [|exact Logic.I]. intros E. apply in_map_iff in H2 as (kr & E2 & H2). apply in_remove in H2 as [_ H2]. congruence.
    + intros (H1 & H2 & _). split; [exact H1|]. pose proof (wf_tb_fk c W _ H1) as H3. apply in_map_iff in H3 as (kr & E & H3). rewrite <- E. apply in_map, in_remove.
      split; [exact H3|congruence].
  - intros v. unfold c', keep_tbls, keep_vers, keep_cols. rows. apply in_keep.
  - intros r. unfold c', keep_tbls, keep_vers, keep_cols. rows. apply in_keep.
  - intros i'. split.
    + intros (t & u' & k' & r & B & H1 & H2 & _ & H3 & _). exists r. split; [exact H1|]. split; [exact H3|]. intros [N _]. apply N. rewrite H2. exact (has_schema_fun c W _ _ _ _ B G).
    + intros (r & H1 & H2 & N). destruct (Nat.eq_dec (tb_coll r) k) as [E|E]; [|exfalso; apply N; split; [exact E|exact Logic.I]].
      exists (tb_name r), (tb_uuid r), k, r. auto 8.
Qed.
Lemma drop_db_effect lim be d c c' ok : wf c -> cstep lim be (DropDb d) c = (c', ok) ->
  (ok = true <-> exists b, has_db c d b) /\ (ok = false -> c' = c) /\
  (ok = true -> removes_tables c c' (fun i => exists s t u, has_table c d s t i u) /\
     (forall d' b, has_db c' d' b <-> has_db c d' b /\ d' <> d) /\
     (forall d' s k, has_schema c' d' s k <-> has_schema c d' s k /\ d' <> d) /\
     (forall d' f x, has_function c' d' f x <-> has_function c d' f x /\ d' <> d)).
Proof.
  intros W. cbn [cstep]. unfold catalog_delete. destruct (get_database d c) as [b|e] eqn:G; cbn [bind done].
  2:{ intros H; injection H as <- <-. split; [|split; [reflexivity|discriminate]]. split; [discriminate|]. intros (b & C).
      apply (get_database_ok c W) in C. congruence. }
  apply (get_database_ok c W) in G. unfold delete_database.
  destruct (has_id db_id b (dbs c)) eqn:F; cbn [done].
  2:{ exfalso. apply has_id_false in F. apply F. destruct G as (r & H1 & _ & <-). apply in_map, H1. }
  intros H; injection H as <- <-. split; [split; [intros _; exists b; exact G|reflexivity]|]. split; [discriminate|]. intros _.
  set (c' := keep_colls _).
  assert (Hd : forall d' b', has_db c' d' b' <-> has_db c d' b' /\ b' <> b).
  { intros d' b'. unfold has_db. assert (D : forall r, In r (dbs c') <-> In r (dbs c) /\ db_id r <> b). { intros r. unfold c', keep_colls, keep_tbls, keep_vers, keep_cols. rows. apply in_remove. }
    split.
    - intros (r & H1 & H2 & H3). apply D in H1 as [H1 N]. split; [exists r; auto|congruence].
    - intros [(r & H1 & H2 & H3) N]. exists r. split; [apply D; split; [exact H1|congruence]|auto]. }
  assert (Hn : forall d' b', has_db c d' b' -> b' <> b <-> d' <> d).
  { intros d' b' K. split; intros N C; apply N; subst.
    - exact (has_db_fun c W _ _ _ K G).
    - exact (has_db_name c W _ _ _ K G). }
  assert (Hid : forall b', In b' (map db_id (dbs c')) <-> In b' (map db_id (dbs c)) /\ b' <> b).
  { intros b'. unfold c', keep_colls, keep_tbls, keep_vers, keep_cols. rows. rewrite !in_map_iff. split.
    - intros (r & <- & H1). apply in_remove in H1 as [H1 N]. split; [exists r; auto|exact N].
    - intros [(r & <- & H1) N]. exists r. split; [reflexivity|]. apply in_remove. auto. }
  assert (Hc : forall r, In r (colls c') <-> In r (colls c) /\ co_db r <> b).
  { intros r. assert (E : In r (colls c') <-> In r (colls c) /\ In (co_db r) (map db_id (dbs c'))). { unfold c', keep_colls, keep_tbls, keep_vers, keep_cols. rows. apply in_keep. }
    rewrite E, Hid. split; [intros (H1 & _ & H2); auto|]. intros [H1 H2]. split; [exact H1|]. split; [apply (wf_co_fk c W), H1|exact H2]. }
  assert (Hf : forall r, In r (fns c') <-> In r (fns c) /\ fn_db r <> b).
  { intros r. assert (E : In r (fns c') <-> In r (fns c) /\ In (fn_db r) (map db_id (dbs c'))). { unfold c', keep_colls, keep_tbls, keep_vers, keep_cols. rows. apply in_keep. }
    rewrite E, Hid. split; [intros (H1 & _ & H2); auto|]. intros [H1 H2]. split; [exact H1|]. split; [apply (wf_fn_fk c W), H1|exact H2]. }
  set (q := fun k => forall r, In r (colls c) -> co_id r = k -> co_db r <> b).
  assert (Hs : forall d' s' k', has_schema c' d' s' k' <-> has_schema c d' s' k' /\ q k').
  { intros d' s' k'. split.
    - intros (b' & r & B & H1 & H2 & H3 & H4). apply Hd in B as [B N]. apply Hc in H1 as [H1 _]. split; [exists b', r; auto|].
      intros r' H5 H6. assert (r' = r) by (apply (NoDup_map_inj co_id (colls c)); [exact (wf_co_id c W)|assumption|assumption|congruence]). subst. exact N.
    - intros [(b' & r & B & H1 & H2 & H3 & H4) Q]. exists b', r. pose proof (Q r H1 H4) as N. split; [apply Hd; split; [exact B|congruence]|].
      split; [apply Hc; split; assumption|auto]. }
  assert (Qd : forall k, q k \/ ~ q k).
  { intros k. unfold q. destruct (existsb (fun r => Nat.eqb (co_id r) k && Nat.eqb (co_db r) b) (colls c)) eqn:E; [right|left].
    - intros N. apply existsb_exists in E as (r & H1 & H2). apply andb_true_iff in H2 as [H2 H3]. apply Nat.eqb_eq in H2. apply Nat.eqb_eq in H3. exact (N r H1 H2 H3).
    - intros r H1 H2 H3. pose proof (existsb_false _ _ r E H1) as N. cbn in N. rewrite H2, H3, !Nat.eqb_refl in N. discriminate N. }
  split; [|split; [|split]].
  - apply (cascade c c' q (fun _ => True)); [exact W| |exact Hs| | | |].
    + intros r. destruct (Qd (tb_coll r)); [left|right]; intuition.
    + intros r. assert (E : In r (tbls c') <-> In r (tbls c) /\ In (tb_coll r) (map co_id (colls c'))). { unfold c', keep_colls, keep_tbls, keep_vers, keep_cols. rows. apply in_keep. }
      rewrite E. split.
      * intros [H1 H2]. split; [exact H1|]. split; [|exact Logic.I]. apply in_map_iff in H2 as (kr & E2 & H2). apply Hc in H2 as [H2 N].
        intros r' H3 H4. assert (r' = kr) by (apply (NoDup_map_inj co_id (colls c)); [exact (wf_co_id c W)|assumption|assumption|congruence]). subst. exact N.
      * intros (H1 & Q & _). split; [exact H1|]. pose proof (wf_tb_fk c W _ H1) as H3. apply in_map_iff in H3 as (kr & E2 & H3). rewrite <- E2. apply in_map, Hc.
        split; [exact H3|exact (Q kr H3 E2)].
    + intros v. unfold c', keep_colls, keep_tbls, keep_vers, keep_cols. rows. apply in_keep.
    + intros r. unfold c', keep_colls, keep_tbls, keep_vers, keep_cols. rows. apply in_keep.
    + intros i'. split.
      * intros (s & t & u' & k' & r & (b' & kr & B & K1 & K2 & K3 & K4) & H1 & H2 & _ & H3 & _). exists r. split; [exact H1|]. split; [exact H3|]. intros [Q _].
        apply (Q kr K1); [congruence|]. rewrite K2. exact (has_db_fun c W _ _ _ B G).
      * intros (r & H1 & H2 & N). pose proof (wf_tb_fk c W _ H1) as H3. apply in_map_iff in H3 as (kr & E2 & H3).
        destruct (Nat.eq_dec (co_db kr) b) as [E|E].
        -- exists (co_name kr), (tb_name r), (tb_uuid r), (co_id kr), r. split; [exists b, kr; auto|auto].
        -- exfalso. apply N. split; [|exact Logic.I]. intros r' H4 H5. assert (r' = kr) by (apply (NoDup_map_inj co_id (colls c)); [exact (wf_co_id c W)|assumption|assumption|congruence]). subst. exact E.
  - intros d' b'. rewrite Hd. split; intros [K N]; (split; [exact K|]); apply (Hn d' b' K), N.
  - intros d' s' k'. split.
    + intros (b' & r & B & H1 & H2). apply Hd in B as [B N]. apply Hc in H1 as [H1 _]. split; [exists b', r; auto|]. apply (Hn d' b' B), N.
    + intros [(b' & r & B & H1 & H2 & H3) N]. apply (Hn d' b' B) in N. exists b', r. split; [apply Hd; split; assumption|]. split; [apply Hc; split; [exact H1|congruence]|auto].
  - intros d' s' k'. split.
    + intros (b' & r & B & H1 & H2). apply Hd in B as [B N]. apply Hf in H1 as [H1 _]. split; [exists b', r; auto|]. apply (Hn d' b' B), N.
    + intros [(b' & r & B & H1 & H2 & H3) N]. apply (Hn d' b' B) in N. exists b', r. split; [apply Hd; split; assumption|]. split; [apply Hf; split; [exact H1|congruence]|auto].
Qed.

(* ALTER TABLE ... RENAME in the catalog *)
Lemma has_table_row c d s t i u : wf c -> has_table c d s t i u -> forall r, In r (tbls c) -> tb_id r = i ->
  has_schema c d s (tb_coll r) /\ tb_name r = t /\ tb_uuid r = u.
Proof.
  intros W (k & r0 & B & H1 & H2 & H3 & H4 & H5) r H E.
  assert (r = r0) by (apply (NoDup_map_inj tb_id (tbls c)); [exact (wf_tb_id c W)|assumption|assumption|congruence]). subst. auto.
Qed.
Lemma rename_core i t' nc k d s t u s' c c' r : wf c -> has_table c d s t i u -> has_schema c d s' k ->
  (nc = Some k \/ (nc = None /\ s' = s)) -> rename_table i t' nc c = (c', r) ->
  (r = Ok tt <-> forall i' u', has_table c d s' t' i' u' -> i' = i) /\ (forall e, r = Err e -> c' = c) /\
  (r = Ok tt -> (forall d1 s1 t1 i1 u1, has_table c' d1 s1 t1 i1 u1 <->
        (has_table c d1 s1 t1 i1 u1 /\ i1 <> i) \/ (d1 = d /\ s1 = s' /\ t1 = t' /\ i1 = i /\ u1 = u)) /\
      same_dbs c c' /\ same_schemas c c' /\ same_functions c c' /\ same_versions c c' /\ same_columns c c').
Proof.
  intros W T K Hnc H.
  assert (Ek : forall r0, In r0 (tbls c) -> tb_id r0 = i -> match nc with Some k => k | None => tb_coll r0 end = k).
  { intros r0 H0 E0. destruct Hnc as [->|[-> ->]]; [reflexivity|]. destruct (has_table_row c d s t i u W T r0 H0 E0) as (B & _).
    exact (has_schema_fun c W _ _ _ _ B K). }
  destruct r as [[]|e].
  - split; [|split; [discriminate|]].
    + split; [|reflexivity]. intros _. destruct (rename_table_ok _ _ _ _ _ H) as (r0 & H0 & Ei & Rc). cbv zeta in Rc. rewrite (Ek r0 H0 Ei) in Rc.
      destruct Rc as (_ & _ & Hu). intros i' u' (k' & r & B & H1 & H2 & H3 & H4 & _). pose proof (existsb_false _ _ r Hu H1) as N. cbn in N.
      rewrite H3, String.eqb_refl, H2, (has_schema_fun c W _ _ _ _ B K), Nat.eqb_refl, !andb_true_r in N. apply negb_false_iff, Nat.eqb_eq in N. congruence.
    + intros _. destruct (rename_table_ok _ _ _ _ _ H) as (r0 & H0 & Ei & Rc). cbv zeta in Rc. rewrite (Ek r0 H0 Ei) in Rc. destruct Rc as (-> & _ & _).
      set (c' := set_tbls _ c). assert (Sd : same_dbs c c') by (apply frame_dbs; reflexivity).
      assert (Ss : same_schemas c c') by (apply frame_schemas; [exact Sd|reflexivity]).
      split; [|split; [exact Sd|split; [exact Ss|split; [apply frame_functions; [exact Sd|reflexivity]|split; [apply frame_versions|apply frame_columns]; reflexivity]]]].
      intros d1 s1 t1 i1 u1. split.
      * intros (k1 & r1 & B & H1 & H2 & H3 & H4 & H5). apply Ss in B. unfold c' in H1. rows. apply in_map_iff in H1 as (r & E & H1).
        unfold renamed in E. destruct (Nat.eqb_spec (tb_id r) i) as [Er|Nr].
        -- right. subst r1. rows. subst k1. destruct (has_schema_name c W _ _ _ _ _ B K) as [-> ->].
           destruct (has_table_row c d s t i u W T r H1 Er) as (_ & _ & Eu). repeat (split; [congruence|]). congruence.
        -- left. subst r1. split; [|congruence]. exists k1, r. auto 8.
      * intros [[(k1 & r1 & B & H1 & H2 & H3 & H4 & H5) N]|(-> & -> & -> & -> & ->)].
        -- exists k1, r1. split; [apply Ss, B|]. split; [|auto]. unfold c'. rows. apply in_map_iff. exists r1. split; [|exact H1].
           unfold renamed. destruct (Nat.eqb_spec (tb_id r1) i); [congruence|reflexivity].
        -- exists k, (renamed i k t' r0). split; [apply Ss, K|]. split; [unfold c'; rows; apply in_map, H0|]. unfold renamed. rewrite Ei, Nat.eqb_refl. rows.
           destruct (has_table_row c d s t i u W T r0 H0 Ei) as (_ & _ & Eu). auto.
  - split; [|split; [intros e' _; exact (rename_table_err _ _ _ _ _ _ H)|discriminate]]. split; [discriminate|]. intros U. exfalso.
    unfold rename_table in H. destruct T as (k0 & r0 & B & H1 & H2 & H3 & H4 & H5).
    destruct (find (fun r => Nat.eqb (tb_id r) i) (tbls c)) as [r|] eqn:F.
    2:{ pose proof (find_none _ _ F r0 H1) as N. cbn in N. rewrite H4, Nat.eqb_refl in N. discriminate N. }
    apply find_some in F as [F1 F2]. apply Nat.eqb_eq in F2. rewrite (Ek r F1 F2) in H. destruct (existsb _ (tbls c)) eqn:E.
    + apply existsb_exists in E as (r' & G1 & G2). apply andb_true_iff in G2 as [G2 G3]. apply andb_true_iff in G2 as [G2 G4].
      apply negb_true_iff, Nat.eqb_neq in G2. apply Nat.eqb_eq in G4. apply String.eqb_eq in G3. apply G2. apply (U (tb_id r') (tb_uuid r')). exists k, r'. auto 8.
    + assert (G : has_id co_id k (colls c) = true). { apply has_id_In. destruct K as (b & kr & _ & K1 & _ & _ & <-). apply in_map, K1. }
      rewrite G in H. discriminate H.
Qed.
Lemma rename_effect lim be d s t s' t' c c' ok : wf c -> cstep lim be (Rename d s t s' t') c = (c', ok) ->
  (ok = true <-> (s' = s \/ s' <> staging) /\ (exists k, has_schema c d s' k) /\ exists i u, has_table c d s t i u /\ target_free c d s' t' i) /\
  (ok = false -> c' = c) /\
  (ok = true -> exists i u, has_table c d s t i u /\
     (forall d1 s1 t1 i1 u1, has_table c' d1 s1 t1 i1 u1 <->
        (has_table c d1 s1 t1 i1 u1 /\ i1 <> i) \/ (d1 = d /\ s1 = s' /\ t1 = t' /\ i1 = i /\ u1 = u)) /\
     same_dbs c c' /\ same_schemas c c' /\ same_functions c c' /\ same_versions c c' /\ same_columns c c').
Proof.
  intros W. cbn [cstep]. unfold table_update. destruct (get_table d s t c) as [i|e] eqn:G; cbn [bind done].
  2:{ intros H; injection H as <- <-. split; [|split; [reflexivity|discriminate]]. split; [discriminate|]. intros (_ & _ & i & u & C & _).
      pose proof (proj2 (get_table_ok c W d s t i) (ex_intro _ u C)). congruence. }
  apply (get_table_ok c W) in G. destruct G as [u G].
  assert (Main : forall nc k r, has_schema c d s' k -> (s' = s \/ s' <> staging) -> (nc = Some k \/ (nc = None /\ s' = s)) -> rename_table i t' nc c = (fst r, snd r) -> done r = (c', ok) ->
    (ok = true <-> (s' = s \/ s' <> staging) /\ (exists k, has_schema c d s' k) /\ exists i u, has_table c d s t i u /\ target_free c d s' t' i) /\
    (ok = false -> c' = c) /\
    (ok = true -> exists i u, has_table c d s t i u /\
       (forall d1 s1 t1 i1 u1, has_table c' d1 s1 t1 i1 u1 <->
          (has_table c d1 s1 t1 i1 u1 /\ i1 <> i) \/ (d1 = d /\ s1 = s' /\ t1 = t' /\ i1 = i /\ u1 = u)) /\
       same_dbs c c' /\ same_schemas c c' /\ same_functions c c' /\ same_versions c c' /\ same_columns c c')).
  { intros nc k [c1 r] K Hst Hnc E. cbn [fst snd] in E. destruct (rename_core i t' nc k d s t u s' c c1 r W G K Hnc E) as (H1 & H2 & H3).
    destruct r as [[]|e]; cbn [done]; intros D; injection D as <- <-.
    - split; [|split; [discriminate|]].
      + split; [|reflexivity]. intros _. split; [exact Hst|]. split; [exists k; exact K|]. exists i, u. split; [exact G|exact (proj1 H1 eq_refl)].
      + intros _. exists i, u. split; [exact G|]. apply H3. reflexivity.
    - split; [|split; [intros _; apply (H2 e); reflexivity|discriminate]]. split; [discriminate|]. intros (_ & _ & i' & u' & C & N). exfalso.
      destruct (has_table_fun c W _ _ _ _ _ _ _ G C) as [<- <-]. discriminate (proj2 H1 N). }
  destruct (String.eqb_spec s' s) as [->|Ns].
  - intros D. destruct G as (k & r0 & B & G1). refine (Main None k _ B (or_introl eq_refl) (or_intror (conj eq_refl eq_refl)) _ D). apply surjective_pairing.
  - destruct (schema_get d s' c) as [k|e] eqn:Sg; cbn [bind].
    + apply (schema_get_ok c d s' k W) in Sg as [Nst K]. intros D. refine (Main (Some k) k _ K (or_intror Nst) (or_introl eq_refl) _ D). apply surjective_pairing.
    + cbn [done]. intros D; injection D as <- <-. split; [|split; [reflexivity|discriminate]]. split; [discriminate|]. intros ([C|Nst] & (k & K) & _); [contradiction|].
      pose proof (proj2 (schema_get_ok c d s' k W) (conj Nst K)). congruence.
Qed.

(* Every table has a version *)
Definition versioned (c : catalog) : Prop := forall r, In r (tbls c) -> exists v, In v (vers c) /\ ve_tbl v = tb_id r.
Lemma versioned_keep_cols c : versioned c -> versioned (keep_cols c).
Proof. intros V. exact V. Qed.
Lemma versioned_keep_vers c : (forall r, In r (tbls c) -> exists v, In v (vers c) /\ ve_tbl v = tb_id r) -> versioned (keep_vers c).
Proof.
  intros V r H. unfold keep_vers, keep_cols in *. rows. destruct (V r H) as (v & H1 & H2). exists v. split; [|exact H2]. apply in_keep. split; [exact H1|].
  rewrite H2. apply in_map, H.
Qed.
Lemma versioned_keep_tbls c : versioned c -> versioned (keep_tbls c).
Proof. intros V. apply versioned_keep_vers. intros r H. rows. apply filter_In in H as [H _]. exact (V r H). Qed.
Lemma before_irrefl v : before v v = false.
Proof. unfold before. rewrite !Nat.ltb_irrefl, andb_false_r. reflexivity. Qed.
Lemma first_exists (l : list ver_row) i : (exists v, In v l /\ ve_tbl v = i) ->
  exists v, In v l /\ ve_tbl v = i /\ forall w, In w l -> ve_tbl w = i -> before w v = false.
Proof.
  induction l as [|x l IH]; intros (v & H & E); [destruct H|].
  destruct (existsb (fun w => Nat.eqb (ve_tbl w) i) l) eqn:Ex.
  - apply existsb_exists in Ex as (w & H1 & H2). apply Nat.eqb_eq in H2. destruct (IH (ex_intro _ w (conj H1 H2))) as (m & M1 & M2 & M3).
    destruct (Nat.eq_dec (ve_tbl x) i) as [Ei|Ni].
    + destruct (before x m) eqn:Bx.
      * exists x. split; [left; reflexivity|]. split; [exact Ei|]. intros y [<-|Hy] Ey; [apply before_irrefl|]. specialize (M3 y Hy Ey).
        unfold before in *. destruct (Nat.ltb_spec (ve_time x) (ve_time y)), (Nat.eqb_spec (ve_time y) (ve_time x)), (Nat.ltb_spec (ve_id x) (ve_id y)); try reflexivity; exfalso;
        destruct (Nat.ltb_spec (ve_time m) (ve_time y)), (Nat.eqb_spec (ve_time y) (ve_time m)), (Nat.ltb_spec (ve_id m) (ve_id y)); try discriminate M3;
        destruct (Nat.ltb_spec (ve_time m) (ve_time x)), (Nat.eqb_spec (ve_time x) (ve_time m)), (Nat.ltb_spec (ve_id m) (ve_id x)); try discriminate Bx; lia.
      * exists m. split; [right; exact M1|]. split; [exact M2|]. intros y [<-|Hy] Ey; [exact Bx|exact (M3 y Hy Ey)].
    + exists m. split; [right; exact M1|]. split; [exact M2|]. intros y [<-|Hy] Ey; [contradiction|exact (M3 y Hy Ey)].
  - assert (v = x) as ->. { destruct H as [H|H]; [auto|]. pose proof (existsb_false _ _ v Ex H) as N. cbn in N. rewrite E, Nat.eqb_refl in N. discriminate N. }
    exists x. split; [left; reflexivity|]. split; [exact E|]. intros w [<-|Hw] Ew; [apply before_irrefl|].
    pose proof (existsb_false _ _ w Ex Hw) as N. cbn in N. rewrite Ew, Nat.eqb_refl in N. discriminate N.
Qed.
Lemma is_first_true v c : is_first v c = true <-> forall w, In w (vers c) -> ve_tbl w = ve_tbl v -> before w v = false.
Proof.
  unfold is_first. rewrite negb_true_iff. split.
  - intros H w Hw E. pose proof (existsb_false _ _ w H Hw) as N. cbn in N. rewrite E, Nat.eqb_refl in N. exact N.
  - intros H. destruct (existsb _ (vers c)) eqn:E; [|reflexivity]. exfalso. apply existsb_exists in E as (w & H1 & H2). apply andb_true_iff in H2 as [H2 H3].
    apply Nat.eqb_eq in H2. rewrite (H w H1 H2) in H3. discriminate H3.
Qed.
Lemma versioned_delete_old i c : versioned c -> versioned (delete_old_versions i c).
Proof.
  intros V r H. unfold delete_old_versions, keep_cols in *. rows. destruct (first_exists (vers c) (tb_id r) (V r H)) as (v & H1 & H2 & H3).
  exists v. split; [|exact H2]. apply filter_In. split; [exact H1|]. apply orb_true_iff. right. apply is_first_true. intros w Hw Ew. apply H3; congruence.
Qed.
Lemma versioned_create_table_tx k t u now c : versioned c -> versioned (fst (create_table_tx k t u now c)).
Proof.
  intros V. destruct (create_table_tx k t u now c) as [c1 [[i v]|e]] eqn:E; cbn [fst].
  - destruct (create_table_tx_ok _ _ _ _ _ _ _ _ E) as (_ & _ & -> & _). intros r H. rows. apply in_app_or in H as [H|[<-|[]]].
    + destruct (V r H) as (w & H1 & H2). exists w. split; [apply in_or_app; left; exact H1|exact H2].
    + eexists. split; [apply in_or_app; right; left; reflexivity|reflexivity].
  - rewrite (create_table_tx_err _ _ _ _ _ _ _ E). exact V.
Qed.
Lemma versioned_new_version_tx u ver now c : versioned c -> versioned (fst (new_version_tx u ver now c)).
Proof.
  intros V. destruct (new_version_tx u ver now c) as [c1 [[l n]|e]] eqn:E; cbn [fst].
  - destruct (new_version_tx_ok _ _ _ _ _ _ _ E) as (v & _ & _ & _ & _ & ->). intros r H. rows. destruct (V r H) as (w & H1 & H2). exists w. split; [apply in_or_app; left; exact H1|exact H2].
  - rewrite (new_version_tx_err _ _ _ _ _ _ E). exact V.
Qed.
Lemma versioned_same c c' : versioned c -> (tbls c' = tbls c) -> (vers c' = vers c) -> versioned c'.
Proof. intros V E1 E2 r H. rewrite E1 in H. rewrite E2. exact (V r H). Qed.
Lemma fst_bind_v {A B} (x : res A) c (k : A -> catalog * res B) : versioned c -> (forall a, versioned (fst (k a))) -> versioned (fst (bind x c k)).
Proof. intros W H. destruct x; cbn [bind]; [apply H|exact W]. Qed.
Lemma versioned_rename i t nc c : versioned c -> versioned (fst (rename_table i t nc c)).
Proof.
  intros V. destruct (rename_table i t nc c) as [c1 [[]|e]] eqn:E; cbn [fst]; [|rewrite (rename_table_err _ _ _ _ _ _ E); exact V].
  destruct (rename_table_ok _ _ _ _ _ E) as (r0 & _ & _ & -> & _). intros r H. rows. apply in_map_iff in H as (r' & <- & H). rewrite renamed_id. exact (V r' H).
Qed.
Lemma versioned_cstep lim be o c : versioned c -> versioned (fst (cstep lim be o c)).
Proof.
  intros V. destruct o; cbn [cstep]; rewrite ?fst_done.
  - unfold catalog_create, create_database. destruct (existsb _ _); exact V.
  - unfold schema_create. destruct (String.eqb s staging); [exact V|]. apply fst_bind_v; [exact V|]. intros b. unfold create_collection.
    destruct (existsb _ _); [exact V|]. destruct (negb _); exact V.
  - unfold table_create. apply fst_bind_v; [exact V|]. intros k. unfold create_table. pose proof (versioned_create_table_tx k t uuid now c V) as V1.
    destruct (create_table_tx k t uuid now c) as [c1 [[i v]|e]]; cbn [fst] in *; [|exact V1]. unfold insert_columns. destruct (_ && _); exact V1.
  - cbn [fst]. unfold table_create_crash. apply fst_bind_v; [exact V|]. intros k. apply versioned_create_table_tx, V.
  - unfold create_new_version. pose proof (versioned_new_version_tx uuid version now c V) as V1. destruct (new_version_tx uuid version now c) as [c1 [[l n]|e]]; exact V1.
  - cbn [fst]. apply versioned_new_version_tx, V.
  - unfold table_update. apply fst_bind_v; [exact V|]. intros i. destruct (String.eqb s' s); [apply versioned_rename, V|].
    apply fst_bind_v; [exact V|]. intros k. apply versioned_rename, V.
  - unfold table_delete. apply fst_bind_v; [exact V|]. intros i. unfold delete_table. destruct (has_id _ _ _); [|exact V]. cbn [fst].
    apply versioned_keep_vers. intros r H. rows. apply filter_In in H as [H _]. exact (V r H).
  - unfold schema_delete. apply fst_bind_v; [exact V|]. intros i. unfold delete_collection. destruct (has_id _ _ _); [|exact V]. cbn [fst].
    apply versioned_keep_tbls. exact V.
  - unfold catalog_delete. apply fst_bind_v; [exact V|]. intros i. unfold delete_database. destruct (has_id _ _ _); [|exact V]. cbn [fst].
    apply versioned_keep_tbls. exact V.
  - unfold table_delete_old_versions. apply fst_bind_v; [exact V|]. intros i. cbn [fst]. apply versioned_delete_old, V.
  - unfold function_create. apply fst_bind_v; [exact V|]. intros b. unfold create_function. destruct (negb _); [exact V|]. destruct (existsb _ _); [destruct or_replace|]; exact V.
  - unfold function_delete. apply fst_bind_v; [exact V|]. intros b. assert (V1 : versioned (fst (drop_function be b names c))).
    { unfold drop_function. destruct be, names as [|n [|n' ns]]; try exact V; (destruct (existsb _ _); exact V). }
    destruct (drop_function be b names c) as [c' [[]|[]]]; cbn [fst] in *; try exact V1. destruct if_exists; exact V1.
Qed.
Lemma versioned_reachable c : reachable c -> versioned c.
Proof.
  intros (lim & be & os & ->). unfold crun. assert (V : versioned empty) by (intros r []). revert V. generalize empty. induction os as [|o os IH]; intros c V; [exact V|].
  cbn [fold_left]. apply IH, versioned_cstep, V.
Qed.

(* VACUUM *)
Lemma is_first_newest c v : wf c -> In v (vers c) -> is_first v c = true <-> newest_version c (ve_tbl v) (ve_id v).
Proof.
  intros W H. rewrite is_first_true. unfold newest_version. destruct v as [v i time n]. rows. split.
  - intros F. exists time, n. split; [exact H|]. intros w time' n' Hw N. specialize (F _ Hw eq_refl). unfold before in F. rows.
    apply orb_false_iff in F as [F1 F2]. apply Nat.ltb_ge in F1. destruct (Nat.eq_dec time' time) as [->|Nt]; [right|left; lia]. split; [reflexivity|].
    rewrite Nat.eqb_refl in F2. cbn in F2. apply Nat.ltb_ge in F2. lia.
  - intros (time0 & n0 & H0 & F) [w i' time' n'] Hw E. rows. subst i'.
    assert (E : {| ve_id := v; ve_tbl := i; ve_time := time; ve_version := n |} = {| ve_id := v; ve_tbl := i; ve_time := time0; ve_version := n0 |}).
    { apply (NoDup_map_inj ve_id (vers c)); [exact (wf_ve_id c W)|exact H|exact H0|reflexivity]. }
    injection E as <- <-. destruct (Nat.eq_dec w v) as [->|N].
    + assert (E : {| ve_id := v; ve_tbl := i; ve_time := time; ve_version := n |} = {| ve_id := v; ve_tbl := i; ve_time := time'; ve_version := n' |}).
      { apply (NoDup_map_inj ve_id (vers c)); [exact (wf_ve_id c W)|exact H|exact Hw|reflexivity]. }
      injection E as <- <-. apply before_irrefl.
    + specialize (F w time' n' Hw N). unfold before. rows. destruct (Nat.ltb_spec time time'), (Nat.eqb_spec time' time), (Nat.ltb_spec v w); try reflexivity; lia.
Qed.
Lemma vacuum_effect lim be d s t c c' ok : wf c -> cstep lim be (Vacuum d s t) c = (c', ok) ->
  (ok = true <-> exists i u, has_table c d s t i u) /\ (ok = false -> c' = c) /\
  (forall i u, has_table c d s t i u ->
     (forall i' v time n, has_version c' i' v time n <-> has_version c i' v time n /\ (i' = i -> newest_version c i v)) /\
     (forall v name type, has_column c' v name type <-> has_column c v name type /\ (forall time n, has_version c i v time n -> newest_version c i v)) /\
     same_dbs c c' /\ same_schemas c c' /\ same_tables c c' /\ same_functions c c').
Proof.
  intros W. cbn [cstep]. unfold table_delete_old_versions. destruct (get_table d s t c) as [i|e] eqn:G; cbn [bind done].
  2:{ intros H; injection H as <- <-. assert (N : ~ exists i u, has_table c d s t i u). { intros (i & C). apply (get_table_ok c W) in C. congruence. }
      split; [|split; [reflexivity|]]. { split; [discriminate|]. intros C. contradiction. } intros i u C. exfalso. apply N. exists i, u. exact C. }
  apply (get_table_ok c W) in G. destruct G as [u G]. intros H; injection H as <- <-.
  split; [split; [intros _; exists i, u; exact G|reflexivity]|]. split; [discriminate|]. intros i0 u0 G0. destruct (has_table_fun c W _ _ _ _ _ _ _ G G0) as [<- <-].
  set (c' := delete_old_versions i c). assert (Sd : same_dbs c c') by (apply frame_dbs; reflexivity).
  assert (Ss : same_schemas c c') by (apply frame_schemas; [exact Sd|reflexivity]).
  assert (V : forall i' v time n, has_version c' i' v time n <-> has_version c i' v time n /\ (i' = i -> newest_version c i v)).
  { intros i' v time n. unfold has_version at 1, c', delete_old_versions, keep_cols. rows. rewrite filter_In. rows. rewrite orb_true_iff, negb_true_iff, Nat.eqb_neq. split.
    - intros [H1 H2]. split; [exact H1|]. intros ->. destruct H2 as [H2|H2]; [contradiction|]. apply (is_first_newest c _ W H1) in H2. exact H2.
    - intros [H1 H2]. split; [exact H1|]. destruct (Nat.eq_dec i' i) as [->|N]; [right|left; exact N]. apply (is_first_newest c _ W H1). exact (H2 eq_refl). }
  split; [exact V|]. split; [|split; [exact Sd|split; [exact Ss|split; [apply frame_tables; [exact Ss|reflexivity]|apply frame_functions; [exact Sd|reflexivity]]]]].
  intros v name type. unfold has_column. assert (Ec : forall r, In r (cols c') <-> In r (cols c) /\ In (cl_ver r) (map ve_id (vers c'))).
  { intros r. unfold c', delete_old_versions, keep_cols. rows. apply in_keep. }
  rewrite Ec. rows. split.
  - intros [H1 H2]. split; [exact H1|]. intros time n Hv. apply in_map_iff in H2 as ([v' i' time' n'] & E & H2). rows. subst v'.
    pose proof (proj1 (V i' v time' n') H2) as [H3 H4].
    assert (E : {| ve_id := v; ve_tbl := i'; ve_time := time'; ve_version := n' |} = {| ve_id := v; ve_tbl := i; ve_time := time; ve_version := n |}).
    { apply (NoDup_map_inj ve_id (vers c)); [exact (wf_ve_id c W)|exact H3|exact Hv|reflexivity]. }
    injection E as -> _ _. exact (H4 eq_refl).
  - intros [H1 H2]. split; [exact H1|]. pose proof (wf_cl_fk c W _ H1) as H3. rows. apply in_map_iff in H3 as ([v' i' time' n'] & E & H3). rows. subst v'.
    assert (K : has_version c' i' v time' n'). { apply V. split; [exact H3|]. intros ->. exact (H2 time' n' H3). }
    exact (in_map ve_id _ _ K).
Qed.
Lemma newest_exists c d s t i u : reachable c -> has_table c d s t i u -> exists v, newest_version c i v /\ forall v', newest_version c i v' -> v' = v.
Proof.
  intros R (k & r & _ & H1 & _ & _ & H2 & _). pose proof (wf_reachable c R) as W. destruct (first_exists (vers c) i) as (v & V1 & V2 & V3).
  { destruct (versioned_reachable c R r H1) as (v & V1 & V2). exists v. split; [exact V1|congruence]. }
  exists (ve_id v). split.
  - rewrite <- V2. apply (is_first_newest c v W V1). apply is_first_true. intros w Hw Ew. apply V3; [exact Hw|congruence].
  - intros v' (time' & n' & N1 & N2). destruct v as [v i0 time n]. rows. subst i0. destruct (Nat.eq_dec v' v) as [E|N]; [exact E|exfalso].
    specialize (N2 v time n V1 (fun E => N (eq_sym E))). specialize (V3 _ N1 eq_refl). unfold before in V3. rows.
    destruct (Nat.ltb_spec time time'), (Nat.eqb_spec time' time), (Nat.ltb_spec v v'); cbn in V3; try discriminate V3; lia.
Qed.

(* recording a version *)
Lemma new_version_effect lim be d s t i u ver now c c' ok : reachable c -> has_table c d s t i u ->
  (forall d' s' t' i', has_table c d' s' t' i' u -> i' = i) -> cstep lim be (NewVersion u ver now) c = (c', ok) ->
  ok = true /\ exists l n, last_version c i l /\ (forall i' v time m, has_version c i' v time m -> v < n) /\
    (forall i' v time m, has_version c' i' v time m <-> has_version c i' v time m \/ (i' = i /\ v = n /\ time = now /\ m = ver)) /\
    (forall v name type, has_column c' v name type <-> has_column c v name type \/ (v = n /\ has_column c l name type)) /\
    same_dbs c c' /\ same_schemas c c' /\ same_tables c c' /\ same_functions c c'.
Proof.
  intros R T U. pose proof (wf_reachable c R) as W. cbn [cstep]. unfold create_new_version, new_version_tx.
  assert (L : exists l, last_version_id u c = Some l /\ exists v, In v (vers c) /\ ve_id v = l /\ ve_tbl v = i /\ forall w, In w (vers c) -> ve_tbl w = i -> ve_id w <= l).
  { unfold last_version_id. set (p := fun v => existsb _ (tbls c)).
    assert (P : forall v, In v (vers c) -> p v = true <-> ve_tbl v = i).
    { intros v Hv. unfold p. rewrite existsb_exists. destruct T as (k & r & B & H1 & H2 & H3 & H4 & H5). split.
      - intros (r' & G1 & G2). apply andb_true_iff in G2 as [G2 G3]. apply Nat.eqb_eq in G2. apply Nat.eqb_eq in G3. rewrite <- G2.
        pose proof (wf_tb_fk c W r' G1) as K. apply in_map_iff in K as (kr & K1 & K2). pose proof (wf_co_fk c W kr K2) as D. apply in_map_iff in D as (dr & D1 & D2).
        apply (U (db_name dr) (co_name kr) (tb_name r')). exists (tb_coll r'), r'. split; [|auto]. exists (co_db kr), kr. split; [|auto]. exists dr. auto.
      - intros E. exists r. split; [exact H1|]. rewrite H4, H5, E, !Nat.eqb_refl. reflexivity. }
    destruct T as (k & r & B & H1 & H2 & H3 & H4 & H5). destruct (versioned_reachable c R r H1) as (v0 & V1 & V2).
    assert (In (ve_id v0) (map ve_id (filter p (vers c)))). { apply in_map, filter_In. split; [exact V1|]. apply P; [exact V1|congruence]. }
    destruct (map ve_id (filter p (vers c))) as [|x m] eqn:E; [destruct H|]. exists (list_max (x :: m)). split; [reflexivity|].
    assert (S : In (list_max (x :: m)) (x :: m)) by (apply list_max_in; discriminate). rewrite <- E in S at 2. apply in_map_iff in S as (v & S1 & S2).
    apply filter_In in S2 as [S2 S3]. exists v. split; [exact S2|]. split; [exact S1|]. split; [apply P; assumption|].
    intros w Hw Ew. pose proof (proj1 (list_max_le (x :: m) (list_max (x :: m))) (le_n _)) as F. rewrite Forall_forall in F. apply F. rewrite <- E. apply in_map, filter_In.
    split; [exact Hw|]. apply P; assumption. }
  destruct L as (l & -> & v & V1 & V2 & V3 & V4).
  assert (F : find (fun v => Nat.eqb (ve_id v) l) (vers c) = Some v).
  { destruct (find _ (vers c)) as [v'|] eqn:F.
    - apply find_some in F as [F1 F2]. apply Nat.eqb_eq in F2. f_equal. apply (NoDup_map_inj ve_id (vers c)); [exact (wf_ve_id c W)|assumption|assumption|congruence].
    - pose proof (find_none _ _ F v V1) as N. cbn in N. rewrite V2, Nat.eqb_refl in N. discriminate N. }
  rewrite F. cbn [done]. intros H; injection H as <- <-. split; [reflexivity|]. exists l, (fresh (map ve_id (vers c))).
  set (c' := copy_columns _ _ _). assert (Sd : same_dbs c c') by (apply frame_dbs; reflexivity).
  assert (Ss : same_schemas c c') by (apply frame_schemas; [exact Sd|reflexivity]).
  split. { destruct v as [v0 i0 time n]. rows. subst v0 i0. exists time, n. split; [exact V1|]. intros w time' n' Hw. exact (V4 _ Hw eq_refl). }
  split. { intros i' w time m Hw. apply fresh_gt. exact (in_map ve_id _ _ Hw). }
  split; [|split; [|split; [exact Sd|split; [exact Ss|split; [apply frame_tables; [exact Ss|reflexivity]|apply frame_functions; [exact Sd|reflexivity]]]]]].
  - intros i' w time m. unfold has_version, c', copy_columns. rows. split.
    + intros H. apply in_app_or in H as [H|[H|[]]]; [left; exact H|right]. injection H. intros.
      repeat (split; [congruence|]). congruence.
    + intros [H|(-> & -> & -> & ->)]; apply in_or_app; [left; exact H|right; left]. rewrite V3. reflexivity.
  - intros w name type. unfold has_column, c', copy_columns. rows. split.
    + intros H. apply in_app_or in H as [H|H]; [left; exact H|right]. apply in_map_iff in H as ([w' n' ty'] & E & H). rows. injection E as <- <- <-.
      apply filter_In in H as [H1 H2]. rows. apply Nat.eqb_eq in H2. subst w'. auto.
    + intros [H|[-> H]]; apply in_or_app; [left; exact H|right]. apply in_map_iff. eexists. split; [|apply filter_In; split; [exact H|rows; apply Nat.eqb_refl]]. reflexivity.
Qed.

(* Functions *)
Lemma same_but_functions c l : same_dbs c (set_fns l c) /\ same_schemas c (set_fns l c) /\ same_tables c (set_fns l c) /\ same_versions c (set_fns l c) /\ same_columns c (set_fns l c).
Proof.
  assert (Sd : same_dbs c (set_fns l c)) by (apply frame_dbs; reflexivity).
  assert (Ss : same_schemas c (set_fns l c)) by (apply frame_schemas; [exact Sd|reflexivity]).
  split; [exact Sd|]. split; [exact Ss|]. split; [apply frame_tables; [exact Ss|reflexivity]|]. split; [apply frame_versions|apply frame_columns]; reflexivity.
Qed.
Lemma create_fn_effect lim be d f orr x c c' ok : wf c -> cstep lim be (CreateFn d f orr x) c = (c', ok) ->
  (ok = true <-> (exists b, has_db c d b) /\ (orr = true \/ ~ exists y, has_function c d f y)) /\ (ok = false -> c' = c) /\
  (ok = true -> (forall d' f' y, has_function c' d' f' y <-> (has_function c d' f' y /\ ~ (d' = d /\ f' = f)) \/ (d' = d /\ f' = f /\ y = x)) /\
     same_dbs c c' /\ same_schemas c c' /\ same_tables c c' /\ same_versions c c' /\ same_columns c c').
Proof.
  intros W. cbn [cstep]. unfold function_create. destruct (get_database d c) as [b|e] eqn:G; cbn [bind done].
  2:{ intros H; injection H as <- <-. split; [|split; [reflexivity|discriminate]]. split; [discriminate|]. intros ((b & C) & _).
      apply (get_database_ok c W) in C. congruence. }
  apply (get_database_ok c W) in G. unfold create_function.
  assert (F : has_id db_id b (dbs c) = true). { apply has_id_In. destruct G as (r & H1 & _ & <-). apply in_map, H1. }
  rewrite F. cbn [negb].
  assert (Row : forall r, In r (fns c) -> fn_db r = b -> has_function c d (fn_name r) (fn_details r)).
  { intros r Hr E. exists b, r. auto. }
  assert (Db : forall d' r, has_db c d' (fn_db r) -> fn_db r = b -> d' = d).
  { intros d' r B E. rewrite E in B. exact (has_db_name c W _ _ _ B G). }
  destruct (existsb _ (fns c)) eqn:E.
  - assert (Ex : exists y, has_function c d f y).
    { apply existsb_exists in E as (r & H1 & H2). apply andb_true_iff in H2 as [H2 H3]. apply Nat.eqb_eq in H2. apply String.eqb_eq in H3.
      exists (fn_details r), b, r. auto. }
    destruct orr; cbn [done]; intros H; injection H as <- <-.
    + split; [split; [intros _; split; [exists b; exact G|left; reflexivity]|reflexivity]|]. split; [discriminate|]. intros _.
      split; [|apply same_but_functions]. intros d' f' y. unfold has_function. rows. split.
      * intros (b' & r & B & H1 & H2 & H3 & H4). change (has_db c d' b') in B. apply in_map_iff in H1 as (r' & E' & H1).
        destruct (Nat.eqb_spec (fn_db r') b) as [Eb|Nb], (String.eqb_spec (fn_name r') f) as [Ef|Nf]; cbn [andb] in E'; subst r; rows.
        -- right. subst b'. split; [exact (has_db_name c W _ _ _ B G)|]. split; congruence.
        -- left. split; [exists b', r'; auto|]. intros [_ C]. congruence.
        -- left. split; [exists b', r'; auto|]. intros [C _]. apply Nb. rewrite H2. subst d'. exact (has_db_fun c W _ _ _ B G).
        -- left. split; [exists b', r'; auto|]. intros [_ C]. congruence.
      * intros [[(b' & r & B & H1 & H2 & H3 & H4) N]|(-> & -> & ->)].
        -- exists b', r. split; [exact B|]. split; [|auto]. apply in_map_iff. exists r. split; [|exact H1].
           destruct (Nat.eqb_spec (fn_db r) b) as [Eb|Nb], (String.eqb_spec (fn_name r) f) as [Ef|Nf]; cbn [andb]; try reflexivity.
           exfalso. apply N. split; [|congruence]. apply (Db d' r); [congruence|exact Eb].
        -- apply existsb_exists in E as (r & H1 & H2). exists b, {| fn_id := fn_id r; fn_db := b; fn_name := f; fn_details := x |}.
           split; [exact G|]. split; [apply in_map_iff; exists r; rewrite H2; auto|]. rows. auto.
    + split; [|split; [reflexivity|discriminate]]. split; [discriminate|]. intros (_ & [C|C]); [discriminate C|contradiction].
  - cbn [done]. intros H; injection H as <- <-. assert (Nx : ~ exists y, has_function c d f y).
    { intros (y & b' & r & B & H1 & H2 & H3 & _). pose proof (existsb_false _ _ r E H1) as N. cbn in N.
      rewrite H3, String.eqb_refl, H2, (has_db_fun c W _ _ _ B G), Nat.eqb_refl in N. discriminate N. }
    split; [split; [intros _; split; [exists b; exact G|right; exact Nx]|reflexivity]|]. split; [discriminate|]. intros _.
    split; [|apply same_but_functions]. intros d' f' y. unfold has_function. rows. split.
    + intros (b' & r & B & H1 & H2 & H3 & H4). change (has_db c d' b') in B. apply in_app_or in H1 as [H1|[<-|[]]].
      * left. split; [exists b', r; auto|]. intros [-> ->]. apply Nx. exists y, b', r. auto.
      * right. rows. subst b'. split; [exact (has_db_name c W _ _ _ B G)|]. split; congruence.
    + intros [[(b' & r & B & H1 & H2) N]|(-> & -> & ->)].
      * exists b', r. split; [exact B|]. split; [apply in_or_app; left; exact H1|exact H2].
      * eexists b, _. split; [exact G|]. split; [apply in_or_app; right; left; reflexivity|]. rows. auto.
Qed.
Lemma drop_fn_first c d b n : wf c -> has_db c d b ->
  let c' := set_fns (filter (fun r => negb (Nat.eqb (fn_db r) b && String.eqb (fn_name r) n)) (fns c)) c in
  forall d' f y, has_function c' d' f y <-> has_function c d' f y /\ ~ (d' = d /\ f = n).
Proof.
  intros W G c' d' f y. unfold has_function. subst c'. rows. split.
  - intros (b' & r & B & H1 & H2 & H3 & H4). change (has_db c d' b') in B. apply filter_In in H1 as [H1 N]. split; [exists b', r; auto|].
    intros [-> ->]. rewrite H3, String.eqb_refl, H2, (has_db_fun c W _ _ _ B G), Nat.eqb_refl in N. discriminate N.
  - intros [(b' & r & B & H1 & H2 & H3 & H4) N]. exists b', r. split; [exact B|]. split; [|auto].
    apply filter_In. split; [exact H1|]. apply negb_true_iff. destruct (Nat.eqb_spec (fn_db r) b) as [Eb|Nb], (String.eqb_spec (fn_name r) n) as [En|Nn]; try reflexivity.
    exfalso. apply N. split; [|congruence]. rewrite <- Eb in G. rewrite <- H2 in B. exact (has_db_name c W _ _ _ B G).
Qed.
Lemma drop_one_effect lim be d ie n c c' ok : wf c -> cstep lim be (DropFn d ie [n]) c = (c', ok) ->
  (ok = true <-> (exists b, has_db c d b) /\ (ie = true \/ exists x, has_function c d n x)) /\ (ok = false -> c' = c) /\
  (ok = true -> (forall d' f x, has_function c' d' f x <-> has_function c d' f x /\ ~ (d' = d /\ f = n)) /\
     same_dbs c c' /\ same_schemas c c' /\ same_tables c c' /\ same_versions c c' /\ same_columns c c').
Proof.
  intros W. cbn [cstep]. unfold function_delete. destruct (get_database d c) as [b|e] eqn:G; cbn [bind done].
  2:{ intros H; injection H as <- <-. split; [|split; [reflexivity|discriminate]]. split; [discriminate|]. intros ((b & C) & _).
      apply (get_database_ok c W) in C. congruence. }
  apply (get_database_ok c W) in G.
  assert (E : drop_function be b [n] c = (let hit r := Nat.eqb (fn_db r) b && String.eqb (fn_name r) n in
      if existsb hit (fns c) then (set_fns (filter (fun r => negb (hit r)) (fns c)) c, Ok tt) else (c, Err RowNotFound))) by (destruct be; reflexivity).
  rewrite E. cbv zeta. clear E. destruct (existsb _ (fns c)) eqn:E.
  - assert (Ex : exists x, has_function c d n x).
    { apply existsb_exists in E as (r & H1 & H2). apply andb_true_iff in H2 as [H2 H3]. apply Nat.eqb_eq in H2. apply String.eqb_eq in H3.
      exists (fn_details r), b, r. auto. }
    cbn [done]. intros H; injection H as <- <-. split; [split; [intros _; split; [exists b; exact G|right; exact Ex]|reflexivity]|]. split; [discriminate|]. intros _.
    split; [exact (drop_fn_first c d b n W G)|apply same_but_functions].
  - assert (Nx : ~ exists x, has_function c d n x).
    { intros (y & b' & r & B & H1 & H2 & H3 & _). pose proof (existsb_false _ _ r E H1) as N. cbn in N.
      rewrite H3, String.eqb_refl, H2, (has_db_fun c W _ _ _ B G), Nat.eqb_refl in N. discriminate N. }
    destruct ie; cbn [done]; intros H; injection H as <- <-.
    + split; [split; [intros _; split; [exists b; exact G|left; reflexivity]|reflexivity]|]. split; [discriminate|]. intros _.
      split; [|split; [intros ? ?; reflexivity|split; [intros ? ? ?; reflexivity|split; [intros ? ? ? ? ?; reflexivity|split; [intros ? ? ? ?; reflexivity|intros ? ? ?; reflexivity]]]]].
      intros d' f x. split; [|intros [H _]; exact H]. intros H. split; [exact H|]. intros [-> ->]. apply Nx. exists x. exact H.
    + split; [|split; [reflexivity|discriminate]]. split; [discriminate|]. intros (_ & [C|C]); [discriminate C|contradiction].
Qed.
Lemma drop_many_keeps lim be d ie n1 n2 ns c c' ok : wf c -> cstep lim be (DropFn d ie (n1 :: n2 :: ns)) c = (c', ok) ->
  forall d' f x, has_function c d' f x -> ~ (d' = d /\ f = n1) -> has_function c' d' f x.
Proof.
  intros W. cbn [cstep]. unfold function_delete. destruct (get_database d c) as [b|e] eqn:G; cbn [bind done].
  2:{ intros H; injection H as <- <-. auto. }
  apply (get_database_ok c W) in G. unfold drop_function. destruct be.
  - destruct (existsb _ (fns c)).
    + cbn [done]. intros H; injection H as <- <-. intros d' f x K N. apply (drop_fn_first c d b n1 W G). split; assumption.
    + destruct ie; cbn [done]; intros H; injection H as <- <-; auto.
  - cbn [done]. intros H; injection H as <- <-. auto.
Qed.
Lemma drop_many_effect lim d ie n1 n2 ns c c' ok be : wf c -> cstep lim be (DropFn d ie (n1 :: n2 :: ns)) c = (c', ok) ->
  (be = Postgres -> ok = false) /\ (forall d' f x, has_function c' d' f x -> has_function c d' f x).
Proof.
  intros W. cbn [cstep]. unfold function_delete. destruct (get_database d c) as [b|e] eqn:G; cbn [bind done].
  2:{ intros H; injection H as <- <-. auto. }
  apply (get_database_ok c W) in G. unfold drop_function. destruct be.
  - destruct (existsb _ (fns c)).
    + cbn [done]. intros H; injection H as <- <-. split; [discriminate|]. intros d' f x K. exact (proj1 (proj1 (drop_fn_first c d b n1 W G d' f x) K)).
    + destruct ie; cbn [done]; intros H; injection H as <- <-; (split; [discriminate|auto]).
  - cbn [done]. intros H; injection H as <- <-. auto.
Qed.

(* Listing *)
Section Chunk.
Context {A K : Type} (eqb : K -> K -> bool) (eqb_ok : forall a b, eqb a b = true <-> a = b) (key : A -> K) (R : A -> A -> Prop).
Fixpoint ssorted (l : list A) : Prop := match l with [] => True | x :: l' => Forall (R x) l' /\ ssorted l' end.
Lemma chunk_head x l : exists g rest, chunk_by eqb key (x :: l) = (key x, g) :: rest.
Proof.
  cbn. destruct (chunk_by eqb key l) as [|[k g] rest]; [exists [x], []; reflexivity|]. destruct (eqb (key x) k) eqn:E.
  - apply eqb_ok in E. subst k. exists (x :: g), rest. reflexivity.
  - exists [x], ((k, g) :: rest). reflexivity.
Qed.
Lemma filter_none (p : A -> bool) l : (forall x, In x l -> p x = false) -> filter p l = [].
Proof. induction l as [|x l IH]; intros H; cbn; [reflexivity|]. rewrite (H x (or_introl eq_refl)). apply IH. intros y Hy. apply H. right. exact Hy. Qed.
Lemma chunk_spec l : ssorted l -> (forall a b, In a l -> In b l -> R a b -> R b a -> key a = key b) ->
  (forall a b b', In a l -> In b l -> In b' l -> key b = key b' -> R a b -> R a b') ->
  NoDup (map fst (chunk_by eqb key l)) /\
  (forall k g, In (k, g) (chunk_by eqb key l) -> g = filter (fun x => eqb (key x) k) l) /\
  (forall k, In k (map fst (chunk_by eqb key l)) <-> exists x, In x l /\ key x = k).
Proof.
  induction l as [|x l IH]; intros S AS TR.
  { cbn. split; [constructor|]. split; [intros k g []|]. intros k. split; [intros []|intros (x & [] & _)]. }
  destruct S as [S1 S2]. destruct IH as (I1 & I2 & I3); [exact S2|intros a b Ha Hb; apply AS; right; assumption|intros a b b' Ha Hb Hb'; apply TR; right; assumption|].
  destruct l as [|y l].
  { cbn in *. split; [constructor; [intros []|constructor]|]. split.
    - intros k g [E|[]]. injection E as <- <-. rewrite (proj2 (eqb_ok (key x) (key x)) eq_refl). reflexivity.
    - intros k. split; [intros [<-|[]]; exists x; auto|intros (z & [<-|[]] & <-); left; reflexivity]. }
  destruct (chunk_head y l) as (g & rest & E). set (l' := y :: l) in *. rewrite E in I1, I2, I3. cbn [chunk_by]. rewrite E.
  destruct (eqb (key x) (key y)) eqn:Exy.
  - apply eqb_ok in Exy. split; [exact I1|]. split.
    + intros k h [Eh|Hh].
      * injection Eh as <- <-. cbn [filter]. rewrite Exy, (proj2 (eqb_ok (key y) (key y)) eq_refl). f_equal. apply I2. left. reflexivity.
      * cbn [filter]. destruct (eqb (key x) k) eqn:Ek; [|apply I2; right; exact Hh]. exfalso. apply eqb_ok in Ek. subst k. cbn in I1. inversion I1 as [|? ? N _].
        apply N. rewrite <- Exy. exact (in_map fst _ _ Hh).
    + intros k. change (map fst ((key y, x :: g) :: rest)) with (map fst ((key y, g) :: rest)). rewrite I3. split.
      * intros (z & Hz & Ez). exists z. split; [right; exact Hz|exact Ez].
      * intros (z & [<-|Hz] & Ez); [exists y; split; [left; reflexivity|congruence]|exists z; auto].
  - assert (Nx : forall z, In z l' -> key z <> key x).
    { intros z Hz Ez. assert (key x = key y); [|rewrite (proj2 (eqb_ok (key x) (key y)) H) in Exy; discriminate Exy].
      rewrite Forall_forall in S1. apply AS; [left; reflexivity|right; left; reflexivity|apply S1; left; reflexivity|].
      destruct Hz as [<-|Hz]; [apply (TR y y x); auto; try (right; left; reflexivity); [left; reflexivity|]|].
      - rewrite <- Ez in Exy. rewrite (proj2 (eqb_ok (key y) (key y)) eq_refl) in Exy. discriminate Exy.
      - apply (TR y z x); [right; left; reflexivity|right; right; exact Hz|left; reflexivity|exact Ez|]. destruct S2 as [S2 _]. rewrite Forall_forall in S2. apply S2, Hz. }
    split; [|split].
    + cbn [map fst]. constructor; [|exact I1]. intros C. apply I3 in C as (z & Hz & Ez). exact (Nx z Hz Ez).
    + intros k h [Eh|Hh].
      * injection Eh as <- <-. cbn [filter]. rewrite (proj2 (eqb_ok (key x) (key x)) eq_refl). f_equal. symmetry. apply filter_none.
        intros z Hz. destruct (eqb (key z) (key x)) eqn:C; [|reflexivity]. apply eqb_ok in C. contradiction (Nx z Hz C).
      * cbn [filter]. destruct (eqb (key x) k) eqn:Ek; [|apply I2, Hh]. exfalso. apply eqb_ok in Ek. subst k.
        assert (C : In (key x) (map fst ((key y, g) :: rest))) by exact (in_map fst _ _ Hh). apply I3 in C as (z & Hz & Ez). exact (Nx z Hz Ez).
    + intros k. cbn [map fst]. split.
      * intros [<-|C]; [exists x; split; [left; reflexivity|reflexivity]|]. apply I3 in C as (z & Hz & Ez). exists z. split; [right; exact Hz|exact Ez].
      * intros (z & [<-|Hz] & Ez); [left; exact Ez|right]. apply I3. exists z. auto.
Qed.
End Chunk.

Lemma table_eqb_ok a b : table_eqb a b = true <-> a = b.
Proof.
  destruct a as [[n u]|], b as [[n' u']|]; cbn; split; try discriminate; try reflexivity.
  - intros H. apply andb_true_iff in H as [H1 H2]. apply String.eqb_eq in H1. apply Nat.eqb_eq in H2. congruence.
  - intros H. injection H as -> ->. rewrite String.eqb_refl, Nat.eqb_refl. reflexivity.
Qed.
Lemma repeat_in {A} (x y : A) n : In y (repeat x (S n)) <-> y = x.
Proof. split; [intros H; exact (repeat_spec _ _ _ H)|intros ->; left; reflexivity]. Qed.
Lemma collection_rows_some c k mult s t u : In {| lr_coll := s; lr_table := Some (t, u) |} (collection_rows c k mult) <->
  s = co_name k /\ exists r, In r (tbls c) /\ tb_coll r = co_id k /\ tb_name r = t /\ tb_uuid r = u.
Proof.
  unfold collection_rows. destruct (filter (fun r => Nat.eqb (tb_coll r) (co_id k)) (tbls c)) as [|r0 l] eqn:F.
  - split; [intros [C|[]]; discriminate C|]. intros (_ & r & H1 & H2 & _). assert (C : In r []); [|destruct C]. rewrite <- F. apply filter_In. split; [exact H1|apply Nat.eqb_eq, H2].
  - rewrite <- F. clear r0 l F. rewrite in_flat_map. split.
    + intros (r & H1 & H2). apply repeat_in in H2. injection H2 as -> -> ->. apply filter_In in H1 as [H1 E]. apply Nat.eqb_eq in E. split; [reflexivity|]. exists r. auto.
    + intros (-> & r & H1 & H2 & <- & <-). exists r. split; [apply filter_In; split; [exact H1|apply Nat.eqb_eq, H2]|]. apply repeat_in. reflexivity.
Qed.
Lemma collection_rows_none c k mult s : In {| lr_coll := s; lr_table := None |} (collection_rows c k mult) <->
  s = co_name k /\ forall r, In r (tbls c) -> tb_coll r <> co_id k.
Proof.
  unfold collection_rows. destruct (filter (fun r => Nat.eqb (tb_coll r) (co_id k)) (tbls c)) as [|r0 l] eqn:F.
  - split.
    + intros [C|[]]. injection C as <-. split; [reflexivity|]. intros r H1 H2. assert (C : In r []); [|destruct C]. rewrite <- F. apply filter_In. split; [exact H1|apply Nat.eqb_eq, H2].
    + intros [-> _]. left. reflexivity.
  - split.
    + intros C. apply in_flat_map in C as (r & _ & C). apply repeat_in in C. discriminate C.
    + intros [_ N]. exfalso. assert (C : In r0 (r0 :: l)) by (left; reflexivity). rewrite <- F in C. apply filter_In in C as [C1 C2]. apply Nat.eqb_eq in C2. exact (N r0 C1 C2).
Qed.
Lemma query_rows_in c d mult x : In x (query_rows d mult c) <-> exists k, In k (colls c) /\ has_db c d (co_db k) /\ In x (collection_rows c k mult).
Proof.
  unfold query_rows. rewrite in_flat_map. split.
  - intros (k & H1 & H2). destruct (in_db d k c) eqn:E; [|destruct H2]. apply (in_db_ok c d k H1) in E. exists k. auto.
  - intros (k & H1 & H2 & H3). exists k. split; [exact H1|]. apply (in_db_ok c d k H1) in H2. rewrite H2. exact H3.
Qed.
Lemma query_rows_table c d mult s t u : In {| lr_coll := s; lr_table := Some (t, u) |} (query_rows d mult c) <-> exists i, has_table c d s t i u.
Proof.
  rewrite query_rows_in. split.
  - intros (k & H1 & H2 & H3). apply collection_rows_some in H3 as (-> & r & H4 & H5 & H6 & H7). exists (tb_id r), (co_id k), r. split; [exists (co_db k), k; auto|auto].
  - intros (i & k' & r & (b & k & B & K1 & K2 & K3 & K4) & H1 & H2 & H3 & H4 & H5). exists k. split; [exact K1|]. split; [congruence|].
    apply collection_rows_some. split; [congruence|]. exists r. repeat (split; [congruence|]). congruence.
Qed.
Lemma query_rows_schema c d mult s : (exists x, In x (query_rows d mult c) /\ lr_coll x = s) <-> exists k, has_schema c d s k.
Proof.
  split.
  - intros ([s' [[t u]|]] & H & E); cbn in E; subst s'.
    + apply query_rows_table in H as (i & k & r & B & _). exists k. exact B.
    + apply query_rows_in in H as (k & H1 & H2 & H3). apply collection_rows_none in H3 as [-> _]. exists (co_id k), (co_db k), k. auto.
  - intros (k' & b & k & B & K1 & K2 & K3 & K4). destruct (filter (fun r => Nat.eqb (tb_coll r) (co_id k)) (tbls c)) as [|r l] eqn:F.
    + exists {| lr_coll := s; lr_table := None |}. split; [|reflexivity]. apply query_rows_in. exists k. split; [exact K1|]. split; [congruence|].
      apply collection_rows_none. split; [congruence|]. intros r H1 H2. assert (C : In r []); [|destruct C]. rewrite <- F. apply filter_In. split; [exact H1|apply Nat.eqb_eq, H2].
    + assert (C : In r (r :: l)) by (left; reflexivity). rewrite <- F in C. apply filter_In in C as [C1 C2]. apply Nat.eqb_eq in C2.
      exists {| lr_coll := s; lr_table := Some (tb_name r, tb_uuid r) |}. split; [|reflexivity]. apply query_rows_table.
      exists (tb_id r), (co_id k), r. split; [exists b, k; auto|auto].
Qed.
Lemma query_rows_empty c d mult s t u : wf c -> In {| lr_coll := s; lr_table := None |} (query_rows d mult c) ->
  In {| lr_coll := s; lr_table := Some (t, u) |} (query_rows d mult c) -> False.
Proof.
  intros W H1 H2. apply query_rows_table in H2 as (i & k' & r & B & G1 & G2 & _). apply query_rows_in in H1 as (k & K1 & K2 & K3). apply collection_rows_none in K3 as [-> N].
  apply (N r G1). rewrite G2. apply (has_schema_fun c W d (co_name k) k' (co_id k) B). exists (co_db k), k. auto.
Qed.
Lemma sorted_ssorted o l : sorted o l <-> ssorted (row_le o) l.
Proof. induction l as [|x l IH]; cbn; [reflexivity|]. rewrite IH. reflexivity. Qed.
Lemma ssorted_filter {A} (R : A -> A -> Prop) p l : ssorted R l -> ssorted R (filter p l).
Proof.
  induction l as [|x l IH]; intros H; cbn; [exact Logic.I|]. destruct H as [H1 H2]. destruct (p x); [|apply IH, H2]. split; [|apply IH, H2].
  rewrite Forall_forall in *. intros y Hy. apply filter_In in Hy as [Hy _]. apply H1, Hy.
Qed.
Lemma ssorted_impl {A} (R R' : A -> A -> Prop) l : (forall a b, In a l -> In b l -> R a b -> R' a b) -> ssorted R l -> ssorted R' l.
Proof.
  induction l as [|x l IH]; intros H S; [exact Logic.I|]. destruct S as [S1 S2]. split.
  - rewrite Forall_forall in *. intros y Hy. apply H; [left; reflexivity|right; exact Hy|apply S1, Hy].
  - apply IH; [|exact S2]. intros a b Ha Hb. apply H; right; assumption.
Qed.
Definition opt_list {A} (o : option A) : list A := match o with Some x => [x] | None => [] end.
Lemma NoDup_opts {A} (l : list (option A)) : NoDup l -> NoDup (flat_map opt_list l).
Proof.
  induction l as [|[x|] l IH]; intros H; inversion H; subst; cbn; [constructor| |apply IH; assumption].
  constructor; [|apply IH; assumption]. intros C. apply in_flat_map in C as ([y|] & C1 & C2); [|destruct C2]. destruct C2 as [<-|[]]. contradiction.
Qed.
Lemma listing c o d mult rows : wf c -> sorted o rows -> Permutation rows (query_rows d mult c) ->
  NoDup (map fst (schema_list rows)) /\ (forall s, In s (map fst (schema_list rows)) <-> exists k, has_schema c d s k) /\
  (forall s ts, In (s, ts) (schema_list rows) -> NoDup (map fst ts) /\ forall t u, In (t, u) ts <-> exists i, has_table c d s t i u).
Proof.
  intros W S P. assert (Q : forall x, In x rows <-> In x (query_rows d mult c)). { intros x. split; apply Permutation_in; [exact P|apply Permutation_sym, P]. }
  destruct (chunk_spec String.eqb String.eqb_eq lr_coll (fun a b => nle o (lr_coll a) (lr_coll b)) rows) as (C1 & C2 & C3).
  { apply sorted_ssorted in S. eapply ssorted_impl; [|exact S]. intros a b _ _ [H _]. exact H. }
  { intros a b _ _. apply nle_antisym. }
  { intros a b b' _ _ _ E H. rewrite <- E. exact H. }
  assert (M : map fst (schema_list rows) = map fst (chunk_by String.eqb lr_coll rows)) by (unfold schema_list; rewrite map_map; reflexivity).
  rewrite M. split; [exact C1|]. split.
  { intros s. rewrite C3, <- (query_rows_schema c d mult s). split; intros (x & H & E); exists x; (split; [apply Q, H|exact E]). }
  intros s ts H. unfold schema_list in H. apply in_map_iff in H as ([k g] & E & H). cbn [fst snd] in E. injection E as -> Ets. apply C2 in H.
  assert (In_g : forall x, In x g <-> In x (query_rows d mult c) /\ lr_coll x = s).
  { intros x. rewrite H, filter_In, Q, String.eqb_eq. reflexivity. }
  destruct (chunk_spec table_eqb table_eqb_ok lr_table (row_le o) g) as (D1 & _ & D3).
  { rewrite H. apply ssorted_filter. apply sorted_ssorted, S. }
  { intros [sa ta] [sb tb] Ha Hb [_ H1] [_ H2]. apply In_g in Ha as [Ha Ea]. apply In_g in Hb as [Hb Eb]. cbn [lr_coll lr_table] in *. subst sa sb. specialize (H1 eq_refl). specialize (H2 eq_refl).
    destruct ta as [[ta ua]|], tb as [[tb ub]|]; [|exfalso; exact (query_rows_empty c d mult s _ _ W Hb Ha)|exfalso; exact (query_rows_empty c d mult s _ _ W Ha Hb)|reflexivity].
    pose proof (nle_antisym o _ _ H1 H2) as ->. apply query_rows_table in Ha as (ia & Ha). apply query_rows_table in Hb as (ib & Hb).
    destruct (has_table_fun c W _ _ _ _ _ _ _ Ha Hb) as [_ ->]. reflexivity. }
  { intros a b b' Ha Hb Hb' Ek [R1 R2]. apply In_g in Hb as [_ Hb]. apply In_g in Hb' as [_ Hb']. split; [rewrite Hb', <- Hb; exact R1|]. rewrite <- Ek. intros E. apply R2. congruence. }
  assert (Et : ts = flat_map opt_list (map fst (chunk_by table_eqb lr_table g))).
  { rewrite <- Ets. clear. induction (chunk_by table_eqb lr_table g) as [|x l IH]; cbn; [reflexivity|]. rewrite IH. reflexivity. }
  assert (In_ts : forall t u, In (t, u) ts <-> exists i, has_table c d s t i u).
  { intros t u. rewrite Et, in_flat_map, <- (query_rows_table c d mult). split.
    - intros ([y|] & Y1 & Y2); [|destruct Y2]. destruct Y2 as [->|[]]. apply D3 in Y1 as ([s' t'] & Y1 & Y2). cbn in Y2. subst t'. apply In_g in Y1 as [Y1 Y2]. cbn in Y2. subst s'. exact Y1.
    - intros Y. exists (Some (t, u)). split; [|left; reflexivity]. apply D3. eexists. split; [apply In_g; split; [exact Y|reflexivity]|reflexivity]. }
  split; [|exact In_ts]. apply NoDup_map_in; [rewrite Et; apply NoDup_opts, D1|]. intros [t u] [t' u'] H1 H2 E. cbn in E. subst t'.
  apply In_ts in H1 as [i H1]. apply In_ts in H2 as [i' H2]. destruct (has_table_fun c W _ _ _ _ _ _ _ H1 H2) as [_ ->]. reflexivity.
Qed.
