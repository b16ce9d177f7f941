(* C143, C144: system.table_versions and system.dropped_tables. Meaning in SysSpec.v, model in SysModel.v. *)
From Coq Require Import String List Arith Bool Lia.
From Verif Require Import CatalogModel CatalogSpec CatalogProofs CatalogEffects SysModel SysSpec.
Import ListNotations.
Open Scope list_scope.

(* ---- C143 ---- *)
Lemma in_versions d names c r : In r (get_all_versions d names c) <->
  exists v t k b, In v (vers c) /\ In t (tbls c) /\ In k (colls c) /\ In b (dbs c) /\ tb_id t = ve_tbl v /\ co_id k = tb_coll t /\ db_id b = co_db k /\ db_name b = d /\ wanted names (tb_name t) = true /\
    r = {| tv_schema := co_name k; tv_table := tb_name t; tv_id := ve_id v; tv_version := ve_version v; tv_time := ve_time v |}.
Proof.
  unfold get_all_versions. split.
  - intros I. apply in_flat_map in I as (v & V & I). apply in_flat_map in I as (t & T & I). destruct (Nat.eqb_spec (tb_id t) (ve_tbl v)) as [E1|]; [|destruct I].
    apply in_flat_map in I as (k & K & I). destruct (Nat.eqb_spec (co_id k) (tb_coll t)) as [E2|]; [|destruct I]. apply in_flat_map in I as (b & B & I).
    destruct (Nat.eqb (db_id b) (co_db k) && String.eqb (db_name b) d && wanted names (tb_name t)) eqn:E; [|destruct I].
    apply andb_true_iff in E as [E E5]. apply andb_true_iff in E as [E3 E4]. apply Nat.eqb_eq in E3. apply String.eqb_eq in E4. destruct I as [<-|[]]. exists v, t, k, b. repeat (split; [assumption|]). reflexivity.
  - intros (v & t & k & b & V & T & K & B & E1 & E2 & E3 & E4 & E5 & ->). apply in_flat_map. exists v. split; [exact V|]. apply in_flat_map. exists t. split; [exact T|]. rewrite (proj2 (Nat.eqb_eq _ _) E1).
    apply in_flat_map. exists k. split; [exact K|]. rewrite (proj2 (Nat.eqb_eq _ _) E2). apply in_flat_map. exists b. split; [exact B|]. rewrite (proj2 (Nat.eqb_eq _ _) E3), (proj2 (String.eqb_eq _ _) E4), E5. left. reflexivity.
Qed.
Lemma wanted_none t : wanted None t = true.
Proof. reflexivity. Qed.
Lemma asked d names c s t v n time : In {| tv_schema := s; tv_table := t; tv_id := v; tv_version := n; tv_time := time |} (get_all_versions d names c) <-> has_recorded c d s t v n time /\ wanted names t = true.
Proof.
  rewrite in_versions. split.
  - intros (w & tr & k & b & V & T & K & B & E1 & E2 & E3 & E4 & E5 & E). injection E as -> -> -> -> ->. split; [|exact E5]. exists (tb_id tr), (tb_uuid tr). split.
    + exists (co_id k), tr. split; [|repeat split; auto]. exists (db_id b), k. split; [exists b; auto|auto].
    + unfold has_version. rewrite E1. destruct w. exact V.
  - intros [(i & u & (k & tr & (b & kr & (br & B & B1 & B2) & K & K1 & K2 & K3) & T & T1 & T2 & T3 & T4) & V) W]. exists {| ve_id := v; ve_tbl := i; ve_time := time; ve_version := n |}, tr, kr, br. rows. subst.
    repeat (split; [solve [auto]|]). reflexivity.
Qed.
(* A user sees exactly the recorded versions of the tables of their database ... *)
Theorem c143_exact : forall c d s t v n time, listed c d s t v n time <-> has_recorded c d s t v n time.
Proof. intros c d s t v n time. unfold listed, table_versions. rewrite asked, wanted_none. tauto. Qed.
Print Assumptions c143_exact.
(* ... each once *)
Lemma nodup_flat_map {A B} (f : A -> list B) l : NoDup l -> (forall x, In x l -> NoDup (f x)) -> (forall x y z, In x l -> In y l -> In z (f x) -> In z (f y) -> x = y) -> NoDup (flat_map f l).
Proof.
  induction 1 as [|x l N ND IH]; intros F D; [constructor|]. cbn [flat_map].
  assert (R : NoDup (flat_map f l)) by (apply IH; [intros y Y; apply F; right; exact Y|intros a b z Ha Hb; apply D; right; assumption]).
  assert (X : NoDup (f x)) by (apply F; left; reflexivity).
  assert (S : forall z, In z (f x) -> ~ In z (flat_map f l)).
  { intros z Hz C. apply in_flat_map in C as (y & Hy & Hz'). apply N. rewrite (D x y z); [exact Hy|left; reflexivity|right; exact Hy|exact Hz|exact Hz']. }
  clear -R X S. induction X as [|a m Na Nm IHm]; [exact R|]. cbn [app]. constructor.
  - intros C. apply in_app_or in C as [C|C]; [exact (Na C)|exact (S a (or_introl eq_refl) C)].
  - apply IHm. intros z Hz. apply S. right. exact Hz.
Qed.
Lemma flat_map_one {A B} (key : A -> nat) (f : A -> list B) i l : NoDup (map key l) -> (forall x, In x l -> List.length (f x) <= 1) -> (forall x, In x l -> key x <> i -> f x = []) -> List.length (flat_map f l) <= 1.
Proof.
  induction l as [|x l IH]; intros N L Z; cbn; [lia|]. inversion N as [|? ? N1 N2]; subst. rewrite app_length. destruct (Nat.eq_dec (key x) i) as [E|E].
  - assert (flat_map f l = []) as ->. { clear -N1 Z E. induction l as [|y l IH]; [reflexivity|]. cbn. rewrite (Z y); [apply IH|right; left; reflexivity|].
      - intros z [Hz|Hz]; apply Z; [left; exact Hz|right; right; exact Hz].
      - intros C. apply N1. right. exact C.
      - intros C. apply N1. left. congruence. }
    pose proof (L x (or_introl eq_refl)). cbn. lia.
  - rewrite (Z x (or_introl eq_refl) E). cbn. apply IH; [exact N2|intros y Y; apply L; right; exact Y|intros y Y; apply Z; right; exact Y].
Qed.
Lemma one_nodup {A} (l : list A) : List.length l <= 1 -> NoDup l.
Proof. destruct l as [|x [|y l]]; cbn; intros L; [constructor|repeat constructor; intros []|lia]. Qed.
Theorem c143_once : forall c d, reachable c -> NoDup (map tv_id (table_versions d c)).
Proof.
  intros c d R. pose proof (wf_reachable c R) as W. unfold table_versions, get_all_versions. rewrite flat_map_concat_map, concat_map, map_map, <- flat_map_concat_map.
  set (per := fun v : ver_row => _). assert (I : forall v x, In x (per v) -> x = ve_id v).
  { intros v x C. unfold per in C. apply in_map_iff in C as (r & <- & C). apply in_flat_map in C as (t & _ & C). destruct (Nat.eqb _ _) in C; [|destruct C]. apply in_flat_map in C as (k & _ & C). destruct (Nat.eqb _ _) in C; [|destruct C].
    apply in_flat_map in C as (b & _ & C). destruct (_ && _) in C; [|destruct C]. destruct C as [<-|[]]. reflexivity. }
  assert (L : forall v, List.length (per v) <= 1).
  { intros v. unfold per. rewrite map_length. apply (flat_map_one tb_id _ (ve_tbl v)); [exact (wf_tb_id c W)| |intros t _ N; rewrite (proj2 (Nat.eqb_neq _ _) N); reflexivity].
    intros t _. destruct (Nat.eqb _ _); [|cbn; lia]. apply (flat_map_one co_id _ (tb_coll t)); [exact (wf_co_id c W)| |intros k _ N; rewrite (proj2 (Nat.eqb_neq _ _) N); reflexivity].
    intros k _. destruct (Nat.eqb _ _); [|cbn; lia]. apply (flat_map_one db_id _ (co_db k)); [exact (wf_db_id c W)| |intros b _ N; rewrite (proj2 (Nat.eqb_neq _ _) N); reflexivity].
    intros b _. destruct (_ && _); cbn; lia. }
  apply nodup_flat_map.
  - exact (NoDup_map_inv _ _ (wf_ve_id c W)).
  - intros v _. apply one_nodup, L.
  - intros x y z X Y Zx Zy. apply (NoDup_map_inj ve_id (vers c)); [exact (wf_ve_id c W)|exact X|exact Y|]. rewrite <- (I x z Zx), <- (I y z Zy). reflexivity.
Qed.
Print Assumptions c143_once.
(* Asked for certain names, the catalog gives the versions of the tables with these names, in whatever schema; for none, all of them *)
Theorem c143_names : forall c d names s t v n time,
  In {| tv_schema := s; tv_table := t; tv_id := v; tv_version := n; tv_time := time |} (get_all_versions d (Some names) c) <-> has_recorded c d s t v n time /\ (names = [] \/ In t names).
Proof.
  intros c d names s t v n time. rewrite asked. assert (E : wanted (Some names) t = true <-> names = [] \/ In t names); [|tauto].
  destruct names as [|x l]; [cbn; tauto|]. unfold wanted. rewrite existsb_exists. split; [intros (y & I & Q); apply String.eqb_eq in Q; subst y; right; exact I|intros [C|I]; [discriminate C|]; exists t; split; [exact I|apply String.eqb_refl]].
Qed.
Print Assumptions c143_names.
(* Every table is listed with at least one version *)
Theorem c143_every_table : forall c d s t i u, reachable c -> has_table c d s t i u -> exists v n time, listed c d s t v n time.
Proof.
  intros c d s t i u R T. destruct T as (k & r & S & Hr & T1 & T2 & T3 & T4). destruct (versioned_reachable c R r Hr) as ([v i' time n] & V & E). rows. subst i'. exists v, n, time. apply c143_exact. exists i, u. split; [exists k, r; repeat split; auto|]. unfold has_version. rewrite <- T3. exact V.
Qed.
Print Assumptions c143_every_table.

(* What the operations do to the listing *)
Lemma name_of c d s t i u d' s' t' u' : reachable c -> has_table c d s t i u -> has_table c d' s' t' i u' -> d' = d /\ s' = s /\ t' = t /\ u' = u.
Proof.
  intros R T T'. pose proof (wf_reachable c R) as W. destruct T' as (k' & r' & (b' & kr' & (br' & B' & B1' & B2') & K' & K1' & K2' & K3') & H' & T1' & T2' & T3' & T4').
  destruct (has_table_row c d s t i u W T r' H' T3') as ((b & kr & (br & B & B1 & B2) & K & K1 & K2 & K3) & N & U).
  assert (kr = kr') by (apply (NoDup_map_inj co_id (colls c)); [exact (wf_co_id c W)|assumption|assumption|congruence]). subst kr'.
  assert (br = br') by (apply (NoDup_map_inj db_id (dbs c)); [exact (wf_db_id c W)|assumption|assumption|congruence]). subst br'. repeat split; congruence.
Qed.
(* CREATE TABLE adds one version, with the number 0, whether or not its columns can be stored *)
Lemma added c c' d s t i u v now : wf c -> adds_table c c' d s t i u v now -> (forall d' s' t' n time, ~ listed c d' s' t' v n time) /\
  forall d' s' t' v' n time, listed c' d' s' t' v' n time <-> listed c d' s' t' v' n time \/ (d' = d /\ s' = s /\ t' = t /\ v' = v /\ n = 0 /\ time = now).
Proof.
  intros W (A1 & A2 & A3 & A4). split; [intros d' s' t' n time L; apply c143_exact in L as (i' & u' & _ & V); exact (A2 _ _ _ V)|]. intros d' s' t' v' n time. rewrite !c143_exact. unfold has_recorded. split.
  - intros (i' & u' & T & V). apply A3 in T. apply A4 in V. destruct T as [T|(-> & -> & -> & -> & ->)]; destruct V as [V|(Ei & -> & -> & ->)].
    + left. exists i', u'. auto.
    + exfalso. subst i'. exact (A1 _ _ _ _ T).
    + exfalso. pose proof (wf_ve_fk c W _ V) as Q. rows. apply in_map_iff in Q as (tr & Q & Q'). pose proof (wf_tb_fk c W _ Q') as Q2. apply in_map_iff in Q2 as (kr & Q2 & Q2'). pose proof (wf_co_fk c W _ Q2') as Q3. apply in_map_iff in Q3 as (br & Q3 & Q3').
      apply (A1 (db_name br) (co_name kr) (tb_name tr) (tb_uuid tr)). exists (co_id kr), tr. split; [exists (db_id br), kr; split; [exists br; auto|auto]|auto].
    + right. repeat split.
  - intros [(i' & u' & T & V)|(-> & -> & -> & -> & -> & ->)]; [exists i', u'; split; [apply A3; left; exact T|apply A4; left; exact V]|exists i, u; split; [apply A3; right; repeat split|apply A4; right; repeat split]].
Qed.
Definition creates (o : cop) (d s t : string) (now : nat) : Prop := (exists fields u, o = CreateTable d s t fields u now) \/ exists u, o = CreateTableCrash d s t u now.
Theorem c143_create : forall lim be o d s t now c c' ok, reachable c -> creates o d s t now -> cstep lim be o c = (c', ok) ->
  s <> staging -> (exists k, has_schema c d s k) -> (~ exists i u', has_table c d s t i u') ->
  exists v, (forall d' s' t' n time, ~ listed c d' s' t' v n time) /\
    forall d' s' t' v' n time, listed c' d' s' t' v' n time <-> listed c d' s' t' v' n time \/ (d' = d /\ s' = s /\ t' = t /\ v' = v /\ n = 0 /\ time = now).
Proof.
  intros lim be o d s t now c c' ok R O E S K F. pose proof (wf_reachable c R) as W. destruct O as [(fields & u & ->)|(u & ->)].
  - destruct (create_table_effect _ _ _ _ _ _ _ _ _ _ _ W E) as (_ & _ & H). destruct H as (i & v & A & _); [auto|]. exists v. exact (added _ _ _ _ _ _ _ _ _ W A).
  - destruct K as (k & K). cbn [cstep] in E. unfold table_create_crash in E. rewrite (proj2 (schema_get_ok c d s k W) (conj S K)) in E. cbn [bind] in E. destruct (create_table_tx k t u now c) as [c1 r] eqn:X. cbn [fst] in E. injection E as <- _.
    destruct (create_table_tx_effect _ _ _ _ _ _ _ _ _ W K X) as (A & _ & H). destruct (proj2 A F) as ([i v] & ->). destruct (H i v eq_refl) as (A' & _). exists v. exact (added _ _ _ _ _ _ _ _ _ W A').
Qed.
Print Assumptions c143_create.
(* ... and nothing if there is no such schema, or already such a table *)
Theorem c143_create_refused : forall lim be o d s t now c c' ok, reachable c -> creates o d s t now -> cstep lim be o c = (c', ok) ->
  (s = staging \/ (~ exists k, has_schema c d s k) \/ exists i u', has_table c d s t i u') -> ok = false /\ c' = c.
Proof.
  intros lim be o d s t now c c' ok R O E N. pose proof (wf_reachable c R) as W. assert (NF : ~ (s <> staging /\ (exists k, has_schema c d s k) /\ ~ exists i u', has_table c d s t i u')) by tauto. destruct O as [(fields & u & ->)|(u & ->)].
  - destruct (create_table_effect _ _ _ _ _ _ _ _ _ _ _ W E) as (H1 & H2 & _). split; [|exact (H2 NF)]. destruct ok; [|reflexivity]. exfalso. apply NF. exact (proj1 (proj1 H1 eq_refl)).
  - cbn [cstep] in E. unfold table_create_crash in E. destruct (schema_get d s c) as [k|e] eqn:G; cbn [bind fst] in E; [|injection E as <- <-; auto]. apply (schema_get_ok c d s k W) in G as [G1 G2].
    destruct (create_table_tx k t u now c) as [c1 r] eqn:X. cbn [fst] in E. injection E as <- <-. split; [reflexivity|]. destruct (create_table_tx_effect _ _ _ _ _ _ _ _ _ W G2 X) as (A & H & _). apply H. destruct r as [a|e]; [|exists e; reflexivity].
    exfalso. apply NF. split; [exact G1|]. split; [exists k; exact G2|]. apply A. exists a. reflexivity.
Qed.
Print Assumptions c143_create_refused.
(* A write adds one version to the table it is recorded for *)
Theorem c143_version : forall lim be d s t i u ver now c c' ok, reachable c -> has_table c d s t i u -> (forall d' s' t' i', has_table c d' s' t' i' u -> i' = i) ->
  cstep lim be (NewVersion u ver now) c = (c', ok) ->
  exists v, (forall d' s' t' v' n time, listed c d' s' t' v' n time -> v' < v) /\
    forall d' s' t' v' n time, listed c' d' s' t' v' n time <-> listed c d' s' t' v' n time \/ (d' = d /\ s' = s /\ t' = t /\ v' = v /\ n = ver /\ time = now).
Proof.
  intros lim be d s t i u ver now c c' ok R T U E. destruct (new_version_effect _ _ _ _ _ _ _ _ _ _ _ _ R T U E) as (_ & l & v & _ & A1 & A2 & _ & _ & _ & A3 & _).
  exists v. split; [intros d' s' t' v' n time L; apply c143_exact in L as (i' & u' & _ & V); exact (A1 _ _ _ _ V)|]. intros d' s' t' v' n time. rewrite !c143_exact. unfold has_recorded. split.
  - intros (i' & u' & T' & V). apply A3 in T'. apply A2 in V as [V|(-> & -> & -> & ->)]; [left; exists i', u'; auto|right]. destruct (name_of _ _ _ _ _ _ _ _ _ _ R T T') as (-> & -> & -> & ->). repeat split.
  - intros [(i' & u' & T' & V)|(-> & -> & -> & -> & -> & ->)]; [exists i', u'; split; [apply A3; exact T'|apply A2; left; exact V]|exists i, u; split; [apply A3; exact T|apply A2; right; repeat split]].
Qed.
Print Assumptions c143_version.
(* A renamed table takes its versions along *)
Theorem c143_rename : forall lim be d s t s' t' c c', reachable c -> cstep lim be (Rename d s t s' t') c = (c', true) ->
  forall d1 s1 t1 v n time, listed c' d1 s1 t1 v n time <-> (listed c d1 s1 t1 v n time /\ ~ (d1 = d /\ s1 = s /\ t1 = t)) \/ (d1 = d /\ s1 = s' /\ t1 = t' /\ listed c d s t v n time).
Proof.
  intros lim be d s t s' t' c c' R E. pose proof (wf_reachable c R) as W. destruct (rename_effect _ _ _ _ _ _ _ _ _ _ W E) as (_ & _ & H). destruct (H eq_refl) as (i & u & T & A1 & _ & _ & _ & A2 & _).
  intros d1 s1 t1 v n time. rewrite !c143_exact. unfold has_recorded. split.
  - intros (i1 & u1 & T1 & V). apply A1 in T1. apply A2 in V. destruct T1 as [[T1 N]|(-> & -> & -> & -> & ->)]; [left|right; repeat split; exists i, u; auto].
    split; [exists i1, u1; auto|]. intros (-> & -> & ->). apply N. exact (proj1 (has_table_fun c W _ _ _ _ _ _ _ T1 T)).
  - intros [[(i1 & u1 & T1 & V) N]|(-> & -> & -> & (i1 & u1 & T1 & V))].
    + exists i1, u1. split; [apply A1; left; split; [exact T1|]|apply A2; exact V]. intros ->. apply N. destruct (name_of _ _ _ _ _ _ _ _ _ _ R T T1) as (-> & -> & -> & _). auto.
    + destruct (has_table_fun c W _ _ _ _ _ _ _ T1 T) as [-> ->]. exists i, u. split; [apply A1; right; auto|apply A2; exact V].
Qed.
Print Assumptions c143_rename.
Lemma removed c c' gone (R : reachable c) : removes_tables c c' gone -> forall d s t v n time, listed c' d s t v n time <-> exists i u, has_table c d s t i u /\ has_version c i v time n /\ ~ gone i.
Proof.
  intros (A1 & A2 & _) d s t v n time. rewrite c143_exact. unfold has_recorded. split.
  - intros (i & u & T & V). apply A1 in T as [T _]. apply A2 in V as [V N]. exists i, u. auto.
  - intros (i & u & T & V & N). exists i, u. split; [apply A1; auto|apply A2; auto].
Qed.
(* A dropped table takes its versions away, and so do a schema and a database *)
Theorem c143_drop_table : forall lim be d s t c c', reachable c -> cstep lim be (DropTable d s t) c = (c', true) ->
  forall d1 s1 t1 v n time, listed c' d1 s1 t1 v n time <-> listed c d1 s1 t1 v n time /\ ~ (d1 = d /\ s1 = s /\ t1 = t).
Proof.
  intros lim be d s t c c' R E d1 s1 t1 v n time. pose proof (wf_reachable c R) as W. destruct (drop_table_effect _ _ _ _ _ _ _ _ W E) as (_ & _ & H). destruct (H eq_refl) as (A & _).
  rewrite (removed _ _ _ R A), c143_exact. unfold has_recorded. split.
  - intros (i & u & T & V & N). split; [exists i, u; auto|]. intros (-> & -> & ->). apply N. exists u. exact T.
  - intros [(i & u & T & V) N]. exists i, u. split; [exact T|]. split; [exact V|]. intros (u' & T'). apply N. destruct (name_of _ _ _ _ _ _ _ _ _ _ R T' T) as (-> & -> & -> & _). auto.
Qed.
Print Assumptions c143_drop_table.
Theorem c143_drop_schema : forall lim be d s c c', reachable c -> cstep lim be (DropSchema d s) c = (c', true) ->
  forall d1 s1 t1 v n time, listed c' d1 s1 t1 v n time <-> listed c d1 s1 t1 v n time /\ ~ (d1 = d /\ s1 = s).
Proof.
  intros lim be d s c c' R E d1 s1 t1 v n time. pose proof (wf_reachable c R) as W. destruct (drop_schema_effect _ _ _ _ _ _ _ W E) as (_ & _ & H). destruct (H eq_refl) as (A & _).
  rewrite (removed _ _ _ R A), c143_exact. unfold has_recorded. split.
  - intros (i & u & T & V & N). split; [exists i, u; auto|]. intros (-> & ->). apply N. exists t1, u. exact T.
  - intros [(i & u & T & V) N]. exists i, u. split; [exact T|]. split; [exact V|]. intros (t' & u' & T'). apply N. destruct (name_of _ _ _ _ _ _ _ _ _ _ R T' T) as (-> & -> & -> & _). auto.
Qed.
Print Assumptions c143_drop_schema.
Theorem c143_drop_database : forall lim be d c c', reachable c -> cstep lim be (DropDb d) c = (c', true) ->
  forall d1 s1 t1 v n time, listed c' d1 s1 t1 v n time <-> listed c d1 s1 t1 v n time /\ d1 <> d.
Proof.
  intros lim be d c c' R E d1 s1 t1 v n time. pose proof (wf_reachable c R) as W. destruct (drop_db_effect _ _ _ _ _ _ W E) as (_ & _ & H). destruct (H eq_refl) as (A & _).
  rewrite (removed _ _ _ R A), c143_exact. unfold has_recorded. split.
  - intros (i & u & T & V & N). split; [exists i, u; auto|]. intros ->. apply N. exists s1, t1, u. exact T.
  - intros [(i & u & T & V) N]. exists i, u. split; [exact T|]. split; [exact V|]. intros (s' & t' & u' & T'). apply N. destruct (name_of _ _ _ _ _ _ _ _ _ _ R T' T) as (-> & _). reflexivity.
Qed.
Print Assumptions c143_drop_database.
(* VACUUM leaves one version of the table, and all versions of the others *)
Theorem c143_vacuum : forall lim be d s t c c', reachable c -> cstep lim be (Vacuum d s t) c = (c', true) ->
  exists v, (exists n time, listed c d s t v n time) /\ forall d1 s1 t1 v1 n time, listed c' d1 s1 t1 v1 n time <-> listed c d1 s1 t1 v1 n time /\ ((d1 = d /\ s1 = s /\ t1 = t) -> v1 = v).
Proof.
  intros lim be d s t c c' R E. pose proof (wf_reachable c R) as W. destruct (vacuum_effect _ _ _ _ _ _ _ _ W E) as (A & _ & H). destruct (proj1 A eq_refl) as (i & u & T). destruct (H i u T) as (A1 & _ & _ & _ & A2 & _).
  destruct (newest_exists c d s t i u R T) as (v & V & U). exists v. split; [destruct V as (time & n & V & _); exists n, time; apply c143_exact; exists i, u; auto|].
  intros d1 s1 t1 v1 n time. rewrite !c143_exact. unfold has_recorded. split.
  - intros (i1 & u1 & T1 & V1). apply A2 in T1. apply A1 in V1 as [V1 N]. split; [exists i1, u1; auto|]. intros (-> & -> & ->). apply U, N. exact (proj1 (has_table_fun c W _ _ _ _ _ _ _ T1 T)).
  - intros [(i1 & u1 & T1 & V1) N]. exists i1, u1. split; [apply A2; exact T1|]. apply A1. split; [exact V1|]. intros ->. destruct (name_of _ _ _ _ _ _ _ _ _ _ R T T1) as (-> & -> & -> & _). rewrite N by auto. exact V.
Qed.
Print Assumptions c143_vacuum.
(* Everything else that is done in other databases, to schemas, to functions or in vain leaves the listing of a database as it is *)
Lemma free_dec c d s t : wf c -> (s <> staging /\ (exists k, has_schema c d s k) /\ ~ exists i u, has_table c d s t i u) \/ (s = staging \/ (~ exists k, has_schema c d s k) \/ exists i u, has_table c d s t i u).
Proof.
  intros W. destruct (String.string_dec s staging) as [->|N]; [auto|]. destruct (schema_get d s c) as [k|e] eqn:G.
  - apply (schema_get_ok c d s k W) in G as [_ G]. destruct (get_table d s t c) as [i|e] eqn:T; [apply (get_table_ok c W) in T; eauto 6|]. left. split; [exact N|]. split; [eauto|]. intros (i & T'). apply (get_table_ok c W) in T'. congruence.
  - right. right. left. intros (k & K). pose proof (proj2 (schema_get_ok c d s k W) (conj N K)). congruence.
Qed.
Lemma same_listing c c' : same_tables c c' -> same_versions c c' -> forall d s t v n time, listed c' d s t v n time <-> listed c d s t v n time.
Proof.
  intros A B d s t v n time. rewrite !c143_exact. unfold has_recorded. split; intros (i & u & T & V); exists i, u; (split; [apply A|apply B]); assumption.
Qed.
Theorem c143_elsewhere : forall lim be o d c c' ok, reachable c -> op_db o = Some d -> cstep lim be o c = (c', ok) ->
  forall d' s t v n time, d' <> d -> listed c' d' s t v n time <-> listed c d' s t v n time.
Proof.
  intros lim be o d c c' ok R O E d' s t v n time N. pose proof (wf_reachable c R) as W.
  destruct o as [d0|d0 s0|d0 s0 t0 fs0 u0 now0|d0 s0 t0 u0 now0|u0 v0 now0|u0 v0 now0|d0 s0 t0 s1 t1|d0 s0 t0|d0 s0|d0|d0 s0 t0|d0 f0 r0 x0|d0 i0 ns0]; cbn [op_db] in O; try discriminate O; injection O as ->.
  - destruct (create_db_effect _ _ _ _ _ _ W E) as (_ & H1 & H2). destruct ok; [|rewrite (H1 eq_refl); reflexivity]. destruct (H2 eq_refl) as (b & _ & _ & _ & A & _ & B & _). exact (same_listing c c' A B _ _ _ _ _ _).
  - destruct (create_schema_effect _ _ _ _ _ _ _ W E) as (_ & H1 & H2). destruct ok; [|rewrite (H1 eq_refl); reflexivity]. destruct (H2 eq_refl) as (b & _ & _ & _ & A & _ & B & _). exact (same_listing c c' A B _ _ _ _ _ _).
  - assert (C : creates (CreateTable d s0 t0 fs0 u0 now0) d s0 t0 now0) by (left; eauto). destruct (free_dec c d s0 t0 W) as [(F1 & F2 & F3)|F].
    + destruct (c143_create _ _ _ _ _ _ _ _ _ _ R C E F1 F2 F3) as (v1 & _ & A). rewrite A. tauto.
    + rewrite (proj2 (c143_create_refused _ _ _ _ _ _ _ _ _ _ R C E F)). reflexivity.
  - assert (C : creates (CreateTableCrash d s0 t0 u0 now0) d s0 t0 now0) by (right; eauto). destruct (free_dec c d s0 t0 W) as [(F1 & F2 & F3)|F].
    + destruct (c143_create _ _ _ _ _ _ _ _ _ _ R C E F1 F2 F3) as (v1 & _ & A). rewrite A. tauto.
    + rewrite (proj2 (c143_create_refused _ _ _ _ _ _ _ _ _ _ R C E F)). reflexivity.
  - destruct ok; [rewrite (c143_rename _ _ _ _ _ _ _ _ _ R E); tauto|]. destruct (rename_effect _ _ _ _ _ _ _ _ _ _ W E) as (_ & H & _). rewrite (H eq_refl). reflexivity.
  - destruct ok; [rewrite (c143_drop_table _ _ _ _ _ _ _ R E); tauto|]. destruct (drop_table_effect _ _ _ _ _ _ _ _ W E) as (_ & H & _). rewrite (H eq_refl). reflexivity.
  - destruct ok; [rewrite (c143_drop_schema _ _ _ _ _ _ R E); tauto|]. destruct (drop_schema_effect _ _ _ _ _ _ _ W E) as (_ & H & _). rewrite (H eq_refl). reflexivity.
  - destruct ok; [rewrite (c143_drop_database _ _ _ _ _ R E); tauto|]. destruct (drop_db_effect _ _ _ _ _ _ W E) as (_ & H & _). rewrite (H eq_refl). reflexivity.
  - destruct ok; [|destruct (vacuum_effect _ _ _ _ _ _ _ _ W E) as (_ & H & _); rewrite (H eq_refl); reflexivity]. destruct (c143_vacuum _ _ _ _ _ _ _ R E) as (v1 & _ & A). rewrite A. tauto.
  - destruct (create_fn_effect _ _ _ _ _ _ _ _ _ W E) as (_ & H1 & H2). destruct ok; [|rewrite (H1 eq_refl); reflexivity]. destruct (H2 eq_refl) as (_ & _ & _ & A & B & _). exact (same_listing c c' A B _ _ _ _ _ _).
  - assert (X : c' = c \/ exists l, c' = set_fns l c).
    { cbn [cstep] in E. unfold function_delete in E. destruct (get_database d c) as [b|e]; cbn [bind done] in E; [|injection E as <- _; auto]. unfold drop_function in E.
      destruct be, ns0 as [|n1 [|n2 ns]]; try destruct (existsb _ (fns c)); try destruct i0; cbn [done] in E; injection E as <- _; eauto. }
    destruct X as [->|(l & ->)]; [reflexivity|]. destruct (same_but_functions c l) as (_ & _ & A & B & _). exact (same_listing c _ A B _ _ _ _ _ _).
Qed.
Print Assumptions c143_elsewhere.
(* Creating a database or a schema, and functions, change no listing *)
Theorem c143_quiet : forall lim be o c c' ok, reachable c -> cstep lim be o c = (c', ok) ->
  (exists d, o = CreateDb d) \/ (exists d s, o = CreateSchema d s) \/ (exists d f r x, o = CreateFn d f r x) \/ (exists d i ns, o = DropFn d i ns) ->
  forall d' s t v n time, listed c' d' s t v n time <-> listed c d' s t v n time.
Proof.
  intros lim be o c c' ok R E O d' s t v n time. pose proof (wf_reachable c R) as W. destruct O as [(d & ->)|[(d & s0 & ->)|[(d & f0 & r0 & x0 & ->)|(d & i0 & ns0 & ->)]]].
  - destruct (create_db_effect _ _ _ _ _ _ W E) as (_ & H1 & H2). destruct ok; [|rewrite (H1 eq_refl); reflexivity]. destruct (H2 eq_refl) as (b & _ & _ & _ & A & _ & B & _). exact (same_listing c c' A B _ _ _ _ _ _).
  - destruct (create_schema_effect _ _ _ _ _ _ _ W E) as (_ & H1 & H2). destruct ok; [|rewrite (H1 eq_refl); reflexivity]. destruct (H2 eq_refl) as (b & _ & _ & _ & A & _ & B & _). exact (same_listing c c' A B _ _ _ _ _ _).
  - destruct (create_fn_effect _ _ _ _ _ _ _ _ _ W E) as (_ & H1 & H2). destruct ok; [|rewrite (H1 eq_refl); reflexivity]. destruct (H2 eq_refl) as (_ & _ & _ & A & B & _). exact (same_listing c c' A B _ _ _ _ _ _).
  - assert (X : c' = c \/ exists l, c' = set_fns l c).
    { cbn [cstep] in E. unfold function_delete in E. destruct (get_database d c) as [b|e]; cbn [bind done] in E; [|injection E as <- _; auto]. unfold drop_function in E.
      destruct be, ns0 as [|n1 [|n2 ns]]; try destruct (existsb _ (fns c)); try destruct i0; cbn [done] in E; injection E as <- _; eauto. }
    destruct X as [->|(l & ->)]; [reflexivity|]. destruct (same_but_functions c l) as (_ & _ & A & B & _). exact (same_listing c _ A B _ _ _ _ _ _).
Qed.
Print Assumptions c143_quiet.
(* And neither do refused drops, renames and vacuums *)
Theorem c143_refused : forall lim be o c c', reachable c -> cstep lim be o c = (c', false) ->
  (exists d s t s' t', o = Rename d s t s' t') \/ (exists d s t, o = DropTable d s t) \/ (exists d s, o = DropSchema d s) \/ (exists d, o = DropDb d) \/ (exists d s t, o = Vacuum d s t) ->
  forall d, table_versions d c' = table_versions d c.
Proof.
  intros lim be o c c' R E O d'. pose proof (wf_reachable c R) as W. assert (X : c' = c); [|rewrite X; reflexivity].
  destruct O as [(d & s & t & s' & t' & ->)|[(d & s & t & ->)|[(d & s & ->)|[(d & ->)|(d & s & t & ->)]]]].
  - exact (proj1 (proj2 (rename_effect _ _ _ _ _ _ _ _ _ _ W E)) eq_refl).
  - exact (proj1 (proj2 (drop_table_effect _ _ _ _ _ _ _ _ W E)) eq_refl).
  - exact (proj1 (proj2 (drop_schema_effect _ _ _ _ _ _ _ W E)) eq_refl).
  - exact (proj1 (proj2 (drop_db_effect _ _ _ _ _ _ W E)) eq_refl).
  - exact (proj1 (proj2 (vacuum_effect _ _ _ _ _ _ _ _ W E)) eq_refl).
Qed.
Print Assumptions c143_refused.

(* Two databases with tables of the same name; writes, a rename, VACUUM and drops *)
Definition ex_ops : list cop := [CreateDb "a"; CreateDb "b"; CreateSchema "a" "p"; CreateSchema "a" "q"; CreateSchema "b" "p"; CreateTable "a" "p" "t" [("x", 1)] 10 1;
  CreateTable "b" "p" "t" [] 11 2; NewVersion 10 1 3; NewVersion 11 1 4; NewVersion 10 2 5]%string.
Definition ex_c : catalog := crun 9 Sqlite ex_ops.
Example c143_ex_reachable : reachable ex_c.
Proof. exists 9, Sqlite, ex_ops. reflexivity. Qed.
Example c143_ex : map (fun r => (tv_table r, tv_version r, tv_time r)) (table_versions "a" ex_c) = [("t", 0, 1); ("t", 1, 3); ("t", 2, 5)]%string /\
  map tv_version (table_versions "a" (fst (cstep 9 Sqlite (Vacuum "a" "p" "t") ex_c))) = [2] /\ map tv_schema (table_versions "a" (fst (cstep 9 Sqlite (Rename "a" "p" "t" "q" "s") ex_c))) = ["q"; "q"; "q"]%string /\
  table_versions "a" (fst (cstep 9 Sqlite (DropSchema "a" "p") ex_c)) = [] /\ List.length (table_versions "b" (fst (cstep 9 Sqlite (DropDb "a") ex_c))) = 2 /\ get_all_versions "a" (Some ["s"%string]) ex_c = [].
Proof. repeat split. Qed.
Example c143_ex_has : has_recorded ex_c "a" "p" "t" (tv_id (nth 1 (table_versions "a" ex_c) {| tv_schema := ""; tv_table := ""; tv_id := 0; tv_version := 0; tv_time := 0 |})) 1 3.
Proof. apply c143_exact. unfold listed. vm_compute. auto. Qed.

(* ---- C144, C52 ---- *)
Lemma in_dropped d l r : In r (get_dropped_tables d l) <-> In r l /\ in_scope d r.
Proof. destruct d as [d|]; cbn; [rewrite filter_In, String.eqb_eq; reflexivity|tauto]. Qed.
Lemma refused u x l : update_dropped_table variant u (next_status x) l = l.
Proof. destruct x; reflexivity. Qed.
Lemma gc_step fails x l r : In r (gc_one variant fails l x) <-> In r l /\ ~ (dr_uuid x = dr_uuid r /\ dr_status x <> Failed /\ fails (dr_uuid x) = false).
Proof.
  assert (K : forall P : Prop, ~ P -> In r l <-> In r l /\ ~ P) by (intros P HP; tauto).
  assert (Dl : dr_status x <> Failed -> fails (dr_uuid x) = false -> In r (delete_dropped_table (dr_uuid x) l) <-> In r l /\ ~ (dr_uuid x = dr_uuid r /\ dr_status x <> Failed /\ fails (dr_uuid x) = false)).
  { intros N F. unfold delete_dropped_table. rewrite filter_In. destruct (Nat.eqb_spec (dr_uuid r) (dr_uuid x)) as [E|E]; cbn [negb].
    - split; [intros [_ C]; discriminate C|]. intros [_ C]. exfalso. apply C. split; [symmetry; exact E|]. split; [exact N|exact F].
    - split; [|intros [H _]; auto]. intros [H _]. split; [exact H|]. intros [C _]. apply E. symmetry. exact C. }
  unfold gc_one. destruct (dr_status x) eqn:Ex.
  - destruct (fails (dr_uuid x)) eqn:F; [rewrite (refused _ Pending); apply K; intros (_ & _ & C); discriminate C|apply Dl; [discriminate|reflexivity]].
  - destruct (fails (dr_uuid x)) eqn:F; [rewrite (refused _ Retry); apply K; intros (_ & _ & C); discriminate C|apply Dl; [discriminate|reflexivity]].
  - apply K. intros (_ & C & _). apply C. reflexivity.
Qed.
Lemma gc_fold fails q l : forall r, In r (fold_left (gc_one variant fails) q l) <-> In r l /\ ~ exists x, In x q /\ dr_uuid x = dr_uuid r /\ dr_status x <> Failed /\ fails (dr_uuid x) = false.
Proof.
  revert l. induction q as [|x q IH]; intros l r; cbn [fold_left]; [split; [intros H; split; [exact H|intros (? & [] & _)]|intros [H _]; exact H]|]. rewrite IH, gc_step. split.
  - intros [[H N] M]. split; [exact H|]. intros (y & [<-|Y] & P); [exact (N P)|apply M; exists y; split; [exact Y|exact P]].
  - intros [H N]. split; [split; [exact H|]|].
    + intros P. apply N. exists x. split; [left; reflexivity|exact P].
    + intros (y & Y & P). apply N. exists y. split; [right; exact Y|exact P].
Qed.
(* What a cleanup removes from system.dropped_tables: the tables that it looks at, that were not given up before, and whose directory it deletes *)
Theorem c144_removed : forall fails d l r, In r (gc_databases variant fails d l) <-> In r l /\ ~ exists x, In x l /\ in_scope d x /\ dr_uuid x = dr_uuid r /\ dr_status x <> Failed /\ fails (dr_uuid x) = false.
Proof.
  intros fails d l r. unfold gc_databases. rewrite gc_fold. split; intros [H N]; (split; [exact H|]); intros (x & A); apply N; exists x; rewrite in_dropped in *; tauto.
Qed.
Print Assumptions c144_removed.
(* Nothing is removed whose directory was not deleted, and what was deleted is removed *)
Lemma in_cleaned fails d l u : In u (cleaned fails d l) <-> exists r, In r l /\ in_scope d r /\ dr_uuid r = u /\ dr_status r <> Failed /\ fails u = false.
Proof.
  unfold cleaned. rewrite in_flat_map. split.
  - intros (r & H & I). apply in_dropped in H as [H S]. exists r. destruct (dr_status r) eqn:E; [| |destruct I]; (destruct (fails (dr_uuid r)) eqn:F; [destruct I|destruct I as [<-|[]]]; repeat split; auto; discriminate).
  - intros (r & H & S & <- & N & F). exists r. split; [apply in_dropped; auto|]. rewrite F. destruct (dr_status r); [left; reflexivity|left; reflexivity|contradiction].
Qed.
Theorem c144_deleted : forall fails d l r, In r l -> (In (dr_uuid r) (cleaned fails d l) <-> ~ In r (gc_databases variant fails d l)).
Proof.
  intros fails d l r I. rewrite in_cleaned, c144_removed. split.
  - intros (x & H & S & U & N & F) [_ C]. apply C. exists x. rewrite U. auto.
  - intros C. assert (D : (exists x, In x l /\ in_scope d x /\ dr_uuid x = dr_uuid r /\ dr_status x <> Failed /\ fails (dr_uuid x) = false) \/ ~ exists x, In x l /\ in_scope d x /\ dr_uuid x = dr_uuid r /\ dr_status x <> Failed /\ fails (dr_uuid x) = false).
    { destruct (in_dec Nat.eq_dec (dr_uuid r) (cleaned fails d l)) as [Y|Y].
      - left. apply in_cleaned in Y as (x & H & S & U & N & F). exists x. rewrite U. auto.
      - right. intros (x & H & S & U & N & F). apply Y. apply in_cleaned. exists x. rewrite <- U. auto. }
    destruct D as [(x & H & S & U & N & F)|D]; [exists x; rewrite <- U; auto|exfalso; apply C; auto].
Qed.
Print Assumptions c144_deleted.
(* VACUUM DATABASE d leaves the tables of other databases listed (unless they share their directory with one of d) *)
Theorem c144_elsewhere : forall fails d l r, In r l -> dr_db r <> d -> (forall x, In x l -> dr_db x = d -> dr_uuid x <> dr_uuid r) -> In r (gc_databases variant fails (Some d) l).
Proof. intros fails d l r I N U. apply c144_removed. split; [exact I|]. intros (x & X & S & E & _). exact (U x X S E). Qed.
Print Assumptions c144_elsewhere.
(* C52: a table that cannot be deleted stays as it is through any number of failed cleanups, and goes with the first that succeeds *)
Theorem c52_retried : forall h l r d fails, In r l -> in_scope d r -> dr_status r <> Failed -> fails (dr_uuid r) = false -> (forall d' f', In (d', f') h -> f' (dr_uuid r) = true) ->
  In r (cleanups variant h l) /\ In (dr_uuid r) (cleaned fails d (cleanups variant h l)) /\ forall x, In x (gc_databases variant fails d (cleanups variant h l)) -> dr_uuid x <> dr_uuid r.
Proof.
  intros h l r d fails I S N F H. assert (K : In r (cleanups variant h l)).
  { revert l I. unfold cleanups. induction h as [|[d' f'] h IH]; intros l I; [exact I|]. cbn [fold_left fst snd]. apply IH; [intros d2 f2 Y; apply (H d2); right; exact Y|]. apply c144_removed. split; [exact I|].
    intros (x & _ & _ & U & _ & G). rewrite U, (H d' f' (or_introl eq_refl)) in G. discriminate G. }
  split; [exact K|]. split; [apply in_cleaned; exists r; auto|]. intros x X U. apply c144_removed in X as [_ X]. apply X. exists r. auto.
Qed.
Print Assumptions c52_retried.
(* ... because what the cleanup decides is not recorded: the database refuses the status, and no status in system.dropped_tables ever changes *)
Theorem c144_recorded_refuted : forall h l r, In r (cleanups variant h l) -> In r l.
Proof.
  unfold cleanups. induction h as [|[d f] h IH]; intros l r I; [exact I|]. cbn [fold_left fst snd] in I. apply IH in I. apply c144_removed in I as [I _]. exact I.
Qed.
Print Assumptions c144_recorded_refuted.
(* The operator is told to delete the directory by hand and then the row, while the program goes on trying to: the next cleanup that can deletes both *)
Theorem c144_by_hand_refuted : forall fails d l r, In r l -> in_scope d r -> dr_status r = Pending -> fails (dr_uuid r) = true ->
  In (dr_uuid r) (by_hand fails d l) /\ In r (gc_databases variant fails d l) /\ forall fails', fails' (dr_uuid r) = false -> In (dr_uuid r) (cleaned fails' d (gc_databases variant fails d l)).
Proof.
  intros fails d l r I S P F. assert (K : In r (gc_databases variant fails d l)). { apply c144_removed. split; [exact I|]. intros (x & _ & _ & U & _ & G). congruence. }
  split; [|split; [exact K|]].
  - unfold by_hand. apply in_flat_map. exists r. split; [apply in_dropped; auto|]. rewrite P, F. left. reflexivity.
  - intros fails' F'. apply in_cleaned. exists r. rewrite P. repeat split; auto; discriminate.
Qed.
Print Assumptions c144_by_hand_refuted.
(* With a status written as it is read, the decisions would be recorded: a table that fails once is given up *)
Theorem c144_capitals_partial : forall fails d l r, NoDup (map dr_uuid l) -> In r l -> in_scope d r -> fails (dr_uuid r) = true ->
  In (match dr_status r with Failed => r | x => with_status (next_status x) r end) (gc_databases shown fails d l).
Proof.
  intros fails d l r ND I S F. unfold gc_databases. set (q := get_dropped_tables d l). assert (Q : In r q) by (apply in_dropped; auto).
  assert (NQ : NoDup (map dr_uuid q)). { unfold q. destruct d as [d|]; [|exact ND]. clear -ND. cbn. induction l as [|x l IH]; [constructor|]. cbn [map] in ND. inversion ND as [|? ? N1 N2]; subst. cbn [filter]. destruct (String.eqb _ _); [|exact (IH N2)]. cbn [map]. constructor; [|exact (IH N2)].
    intros C. apply N1. apply in_map_iff in C as (y & E & C). apply filter_In in C as [C _]. rewrite <- E. apply in_map. exact C. }
  assert (Other : forall y m z, dr_uuid y <> dr_uuid z -> In z m -> In z (gc_one shown fails m y)).
  { clear. intros y m z N I. unfold gc_one, update_dropped_table, delete_dropped_table. destruct (dr_status y); [| |exact I]; cbn [next_status shown]; (destruct (fails (dr_uuid y)); [change (check _) with true; cbn iota; apply in_map_iff; exists z; destruct (Nat.eqb_spec (dr_uuid z) (dr_uuid y)); [congruence|auto]|apply filter_In; split; [exact I|]; destruct (Nat.eqb_spec (dr_uuid z) (dr_uuid y)); [congruence|reflexivity]]). }
  assert (Others : forall q m z, ~ In (dr_uuid z) (map dr_uuid q) -> In z m -> In z (fold_left (gc_one shown fails) q m)).
  { clear -Other. induction q as [|y q IH]; intros m z N I; [exact I|]. cbn [fold_left]. apply IH; [intros C; apply N; right; exact C|]. apply Other; [intros C; apply N; left; exact C|exact I]. }
  clearbody q. clear S ND. revert l I. induction q as [|y q IH]; intros l I; [destruct Q|]. cbn [map] in NQ. inversion NQ as [|? ? N1 N2]; subst. cbn [fold_left]. destruct Q as [->|Q].
  - apply Others; [destruct (dr_status r); exact N1|]. unfold gc_one, update_dropped_table. rewrite F. destruct (dr_status r) eqn:E; [| |exact I]; cbn [next_status shown]; change (check _) with true; cbn iota; apply in_map_iff; exists r; (rewrite Nat.eqb_refl; auto).
  - apply IH; [exact Q|exact N2|]. apply Other; [|exact I]. intros C. apply N1. rewrite C. apply in_map. exact Q.
Qed.
Print Assumptions c144_capitals_partial.

(* Tables of two databases; the directory 2 cannot be deleted at first *)
Definition ex_row d t u x : dropped_row := {| dr_db := d; dr_schema := "p"; dr_table := t; dr_uuid := u; dr_status := x; dr_time := 5 |}.
Definition ex_l : list dropped_row := [ex_row "a" "t" 1 Pending; ex_row "a" "s" 2 Pending; ex_row "b" "t" 3 Retry; ex_row "a" "r" 4 Failed].
Definition ex_fails (u : nat) : bool := Nat.eqb u 2.
Definition ex_fine (u : nat) : bool := false.
Example c144_ex : map dr_uuid (gc_databases variant ex_fails (Some "a"%string) ex_l) = [2; 3; 4] /\ by_hand ex_fails None ex_l = [2; 4] /\ map dr_uuid (gc_databases variant ex_fine None (gc_databases variant ex_fails None ex_l)) = [4] /\
  dropped_tables "a" (gc_databases variant ex_fails None ex_l) = [("p", "s", 2, "PENDING", 5); ("p", "r", 4, "FAILED", 5)]%string /\ dropped_tables "a" (gc_databases shown ex_fails None ex_l) = [("p", "s", 2, "FAILED", 5); ("p", "r", 4, "FAILED", 5)]%string.
Proof. repeat split. Qed.
