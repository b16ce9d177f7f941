(* What each statement does: proofs for DdlProps. *)
From Coq Require Import String List Arith Bool Lia Permutation.
Import ListNotations.
From Verif Require Import CatalogModel CatalogSpec CatalogProofs CatalogEffects DdlModel DdlSpec DdlProofs.
Open Scope list_scope.

Section Ddl.
Variable lim : nat.
Variable be : backend.
Notation inv := (inv lim be).

(* 1. Traces *)
Definition free (w : world) (D s t : string) : Prop := s <> staging /\ exists_schema w D s /\ ~ exists_table w D s t.
Lemma create_at_eq D d s t fields u now b w : create_at lim be D d s t fields u now b w =
  ([put u b w; set_cat (fst (cstep lim be (CreateTableCrash D s t u now) (cat w))) (put u b w);
    set_cat (fst (cstep lim be (CreateTable D s t fields u now) (cat w))) (put u b w)],
   snd (cstep lim be (CreateTable D s t fields u now) (cat w)) && (String.eqb d D && negb (String.eqb s system))).
Proof.
  unfold create_at, seq. cbn [last fst]. unfold register_catalog. cbn [put cat].
  destruct (cstep lim be (CreateTable D s t fields u now) (cat w)) as [c [|]]; reflexivity.
Qed.
Lemma plan_eq D d s t x now w u v ws : provider D d s t w = Some (PDelta u v ws) ->
  let w1 := put u (Delta (S v) (ws ++ [x])) w in
  plan_to_delta_table lim be D d s t x now w =
  ([w1; set_cat (fst (cstep lim be (NewVersionCrash u (S v) now) (cat w))) w1; set_cat (fst (cstep lim be (NewVersion u (S v) now) (cat w))) w1],
   snd (cstep lim be (NewVersion u (S v) now) (cat w))).
Proof.
  intros E. unfold plan_to_delta_table. rewrite E. cbn zeta. unfold seq. cbn [last]. unfold record_version. cbn [put cat].
  destruct (cstep lim be (NewVersion u (S v) now) (cat w)) as [c ok]. reflexivity.
Qed.

(* 2. Frames *)
Lemma exists_same w w' : same_tables (cat w) (cat w') -> forall d s t, exists_table w' d s t <-> exists_table w d s t.
Proof. intros S d s t. split; intros (i & u & H); exists i, u; apply S; exact H. Qed.
Lemma located_same w w' : same_tables (cat w) (cat w') -> forall d s t u, located w' d s t u <-> located w d s t u.
Proof. intros S d s t u. split; intros (i & H); exists i; apply S; exact H. Qed.
Lemma holds_same w w' : same_tables (cat w) (cat w') -> same_data w w' -> forall d s t v ws, holds w' d s t v ws <-> holds w d s t v ws.
Proof.
  intros S Dt d s t v ws. split; intros (u & L & H); exists u.
  - split; [apply (located_same w w' S), L|]. rewrite <- Dt. exact H.
  - split; [apply (located_same w w' S), L|]. rewrite Dt. exact H.
Qed.
Lemma same_tables_refl c : same_tables c c. Proof. intros d s t i u. reflexivity. Qed.
Lemma all_same_intro w w' : same_tables (cat w) (cat w') -> same_data w w' -> all_tables_same w w'.
Proof. intros S Dt d s t. split; [apply exists_same, S|]. intros v ws. apply holds_same; assumption. Qed.
(* an unused location *)
Lemma all_same_unused w w' u : same_tables (cat w) (cat w') -> ~ In u (map tb_uuid (tbls (cat w))) -> other_data u w w' -> all_tables_same w w'.
Proof.
  intros S U O d s t. split; [apply exists_same, S|]. intros v ws. split; intros (u' & L & H).
  - apply (located_same w w' S) in L. exists u'. split; [exact L|]. rewrite <- O; [exact H|]. intros ->. exact (U (located_in w d s t u L)).
  - exists u'. split; [apply (located_same w w' S), L|]. rewrite O; [exact H|]. intros ->. exact (U (located_in w d s t u L)).
Qed.
Lemma other_of_located w w' d s t u : inv w -> located w d s t u -> same_tables (cat w) (cat w') -> other_data u w w' -> other_tables d s t w w'.
Proof.
  intros I L S O d' s' t' N. split; [apply exists_same, S|].
  assert (U : forall u', located w d' s' t' u' -> u' <> u). { intros u' L' ->. apply N. destruct (located_own lim be w _ _ _ _ _ _ u I L L') as (-> & -> & ->). reflexivity. }
  intros v ws. split; intros (u' & L' & H).
  - apply (located_same w w' S) in L'. exists u'. split; [exact L'|]. rewrite <- O; [exact H|exact (U u' L')].
  - exists u'. split; [apply (located_same w w' S), L'|]. rewrite O; [exact H|exact (U u' L')].
Qed.
Lemma other_of_added w w' d s t i u v now : ~ In u (map tb_uuid (tbls (cat w))) -> adds_table (cat w) (cat w') d s t i u v now -> other_data u w w' -> other_tables d s t w w'.
Proof.
  intros U (_ & _ & A & _) O d' s' t' N.
  assert (T : forall i' u', has_table (cat w') d' s' t' i' u' <-> has_table (cat w) d' s' t' i' u').
  { intros i' u'. rewrite A. split; [|auto]. intros [H|(-> & -> & -> & _)]; [exact H|]. exfalso. apply N. reflexivity. }
  split; [split; intros (i' & u' & H); exists i', u'; apply T, H|].
  intros v' ws. split; intros (u' & [i' L] & H); apply T in L; exists u'; (split; [exists i'; try exact L; try (apply T, L)|]).
  - rewrite <- O; [exact H|]. intros ->. apply U. apply (located_in w d' s' t' u). exists i'. exact L.
  - destruct (proj1 (A d' s' t' i' u') L) as [L1|(-> & -> & -> & _)]; [|exfalso; apply N; reflexivity].
    rewrite O; [exact H|]. intros ->. apply U. apply (located_in w d' s' t' u). exists i'. exact L1.
Qed.
Lemma put_other_data u b w c : other_data u w (set_cat c (put u b w)).
Proof. intros u' N. cbn [set_cat data]. apply put_other, N. Qed.

(* 3. CREATE TABLE *)
Lemma crash_effect d s t u now c : wf c ->
  let fr := s <> staging /\ (exists k, has_schema c d s k) /\ ~ exists i u', has_table c d s t i u' in
  let c' := fst (cstep lim be (CreateTableCrash d s t u now) c) in
  (~ fr -> c' = c) /\
  (fr -> exists i v, adds_table c c' d s t i u v now /\ same_dbs c c' /\ same_schemas c c' /\ same_functions c c' /\ same_columns c c' /\
     (forall name type, ~ has_column c' v name type)).
Proof.
  intros W fr. cbn [cstep fst]. unfold table_create_crash. destruct (schema_get d s c) as [k|e] eqn:K; cbn [bind].
  - apply (schema_get_ok c d s k W) in K as [N K]. destruct (create_table_tx k t u now c) as [c' r] eqn:E. cbn [fst].
    destruct (create_table_tx_effect k d s t u now c c' r W K E) as (H1 & H2 & H3). split.
    + intros F. apply H2. destruct r as [a|e]; [|exists e; reflexivity]. exfalso. apply F. split; [exact N|]. split; [exists k; exact K|]. apply H1. exists a. reflexivity.
    + intros (_ & _ & F). apply H1 in F as [[i v] ->]. destruct (H3 i v eq_refl) as (A & S1 & S2 & S3 & S4 & _ & Ev). exists i, v.
      split; [exact A|]. split; [exact S1|]. split; [exact S2|]. split; [exact S3|]. split; [apply frame_columns, S4|].
      intros name type C. unfold has_column in C. rewrite S4 in C. apply (wf_cl_fk c W) in C. cbn in C. rewrite Ev in C. exact (fresh_notin _ C).
  - split; [reflexivity|]. intros (N & [k H] & _). rewrite (proj2 (schema_get_ok c d s k W)) in K; [discriminate K|]. auto.
Qed.
Lemma create_effect D d s t fields u now w : inv w -> unused w u ->
  let x := create_delta_table lim be D d s t fields u now w in
  (snd x = true <-> free w D s t /\ fields_ok lim fields /\ d = D /\ s <> system) /\
  (~ free w D s t -> forall w', In w' (fst x) -> cat w' = cat w) /\
  (free w D s t -> exists w1 w2, fst x = [w1; w2; after x w] /\ cat w1 = cat w /\
     (exists i v, adds_table (cat w) (cat w2) D s t i u v now /\ (forall name type, ~ has_column (cat w2) v name type) /\ same_schemas (cat w) (cat w2)) /\
     (exists i v, adds_table (cat w) (cat (after x w)) D s t i u v now /\
        same_dbs (cat w) (cat (after x w)) /\ same_schemas (cat w) (cat (after x w)) /\ same_functions (cat w) (cat (after x w)) /\
        (forall v' name type, has_column (cat (after x w)) v' name type <-> has_column (cat w) v' name type \/ (fields_ok lim fields /\ v' = v /\ In (name, type) fields)) /\
        (forall name type, ~ has_column (cat w) v name type))) /\
  (s <> staging -> exists_schema w D s -> data (after x w) u = Delta 0 []) /\
  (forall w', In w' (fst x) -> other_data u w w').
Proof.
  intros I U x. pose proof (inv_wf lim be w I) as W. subst x. unfold create_delta_table. destruct (schema_get D s (cat w)) as [k|e] eqn:K.
  - apply (schema_get_ok _ _ _ _ W) in K as [N K]. rewrite create_at_eq. unfold after. cbn [fst snd last].
    destruct (cstep lim be (CreateTable D s t fields u now) (cat w)) as [c ok] eqn:E. cbn [fst snd].
    destruct (create_table_effect lim be D s t fields u now (cat w) c ok W E) as (H1 & H2 & H3).
    destruct (crash_effect D s t u now (cat w) W) as (G1 & G2).
    split; [|split; [|split; [|split]]].
    + split.
      * intros H. apply andb_true_iff in H as [H H']. apply andb_true_iff in H' as [Hd Hs]. apply String.eqb_eq in Hd. apply H1 in H as [F Fo].
        split; [exact F|]. split; [exact Fo|]. split; [exact Hd|]. intros ->. discriminate Hs.
      * intros (F & Fo & -> & Hs). rewrite (proj2 H1 (conj F Fo)), String.eqb_refl. cbn. destruct (String.eqb_spec s system); [contradiction|reflexivity].
    + intros F w' [<-|[<-|[<-|[]]]]; cbn [set_cat put cat]; [reflexivity|exact (G1 F)|exact (H2 F)].
    + intros F. do 2 eexists. split; [reflexivity|]. cbn [set_cat put cat]. split; [reflexivity|]. split.
      * destruct (G2 F) as (i & v & A & _ & S2 & _ & _ & Cv). exists i, v. auto.
      * destruct (H3 F) as (i & v & A & S1 & S2 & S3 & C & Cv). exists i, v. split; [exact A|]. split; [exact S1|]. split; [exact S2|]. split; [exact S3|].
        split; [|exact Cv]. intros v' name type. rewrite C. split; intros [H|(H & H')]; auto; right; (split; [|exact H']).
        -- apply H1, H.
        -- apply H1. split; [exact F|exact H].
    + intros _ _. cbn [set_cat data]. apply put_same.
    + intros w' [<-|[<-|[<-|[]]]]; [intros u'; apply put_other|apply put_other_data|apply put_other_data].
  - assert (NF : ~ (s <> staging /\ exists_schema w D s)).
    { intros (N & [k H]). rewrite (proj2 (schema_get_ok _ D s k W)) in K; [discriminate K|]. auto. }
    cbn. split; [|split; [|split; [|split]]].
    + split; [discriminate|]. intros ((F1 & F2 & _) & _). exfalso. apply NF. auto.
    + intros _ w' [].
    + intros (F1 & F2 & _). exfalso. apply NF. auto.
    + intros F1 F2. exfalso. apply NF. auto.
    + intros w' [].
Qed.
(* at every point of a CREATE TABLE the tables other than the one it creates are as before *)
Lemma create_points D d s t fields u now w w' : inv w -> unused w u -> In w' (fst (create_delta_table lim be D d s t fields u now w)) -> other_tables D s t w w'.
Proof.
  intros I U H. destruct (create_effect D d s t fields u now w I U) as (_ & H2 & H3 & _ & H4). pose proof (H4 w' H) as O. destruct U as [_ U].
  assert (F : cat w' = cat w \/ exists i v, adds_table (cat w) (cat w') D s t i u v now).
  { unfold create_delta_table in H. destruct (schema_get D s (cat w)) as [k|e] eqn:K; [|destruct H]. rewrite create_at_eq in H. pose proof (inv_wf lim be w I) as W.
    destruct (crash_effect D s t u now (cat w) W) as (G1 & G2).
    destruct (cstep lim be (CreateTable D s t fields u now) (cat w)) as [c ok] eqn:E. cbn [fst snd] in H.
    destruct (create_table_effect lim be D s t fields u now (cat w) c ok W E) as (_ & F1 & F2).
    assert (Dec : (s <> staging /\ exists_schema w D s /\ ~ exists_table w D s t) \/ ~ (s <> staging /\ exists_schema w D s /\ ~ exists_table w D s t)).
    { apply (schema_get_ok _ _ _ _ W) in K as [N K]. destruct (table_uuid D s t (cat w)) as [u0|] eqn:T.
      - apply (table_uuid_ok D s t (cat w) u0 W) in T as [i T]. right. intros (_ & _ & C). apply C. exists i, u0. exact T.
      - apply (table_uuid_none D s t (cat w) W) in T. left. split; [exact N|]. split; [exists k; exact K|exact T]. }
    destruct H as [<-|[<-|[<-|[]]]]; cbn [set_cat put cat]; [left; reflexivity| |]; destruct Dec as [Dec|Dec].
    - right. destruct (G2 Dec) as (i & v & A & _). exists i, v. exact A.
    - left. exact (G1 Dec).
    - right. destruct (F2 Dec) as (i & v & A & _). exists i, v. exact A.
    - left. exact (F1 Dec). }
  destruct F as [F|(i & v & A)].
  - intros d' s' t' _. apply (all_same_unused w w' u); [rewrite F; apply same_tables_refl|exact U|exact O].
  - exact (other_of_added w w' D s t i u v now U A O).
Qed.

(* 4. Writes *)
Lemma new_version_tx_tables u ver now c : same_tables c (fst (cstep lim be (NewVersionCrash u ver now) c)).
Proof.
  cbn [cstep fst]. destruct (new_version_tx u ver now c) as [c' [[l n]|e]] eqn:E; cbn [fst].
  - destruct (new_version_tx_ok _ _ _ _ _ _ _ E) as (v & _ & _ & _ & _ & ->). apply frame_tables; [apply frame_schemas; [apply frame_dbs; reflexivity|reflexivity]|reflexivity].
  - rewrite (new_version_tx_err _ _ _ _ _ _ E). apply same_tables_refl.
Qed.
Lemma plan_effect D d s t x now w v ws : inv w -> d = D -> ordinary s -> holds w d s t v ws ->
  let r := plan_to_delta_table lim be D d s t x now w in
  snd r = true /\ holds (after r w) d s t (S v) (ws ++ [x]) /\ recorded (after r w) d s t (S v) /\
  (forall w', In w' (fst r) -> other_tables d s t w w' /\ (exists_table w' d s t) /\ holds w' d s t (S v) (ws ++ [x])) /\
  (exists w1, In w1 (fst r) /\ cat w1 = cat w).
Proof.
  intros I -> O (u & L & Dt). pose proof (proj2 (provider_delta lim be D D s t w u v ws I)) as P.
  specialize (P (conj eq_refl (conj O (conj L Dt)))). cbn zeta. rewrite (plan_eq D D s t x now w u v ws P). set (w1 := put u (Delta (S v) (ws ++ [x])) w).
  pose proof L as [i T].
  assert (Own : forall d' s' t' i', has_table (cat w) d' s' t' i' u -> i' = i).
  { intros d' s' t' i' T'. destruct (located_own lim be w D s t d' s' t' u I L) as (<- & <- & <-); [exists i'; exact T'|].
    exact (proj1 (has_table_fun _ (inv_wf lim be w I) _ _ _ _ _ _ _ T' T)). }
  destruct (cstep lim be (NewVersion u (S v) now) (cat w)) as [c ok] eqn:E.
  destruct (new_version_effect lim be D s t i u (S v) now (cat w) c ok (creach_reachable lim be _ (inv_cat lim be w I)) T Own E) as (Hok & l & n & _ & _ & V & _ & _ & _ & ST & _).
  unfold after. cbn [fst snd last].
  assert (Pt : forall w', In w' [w1; set_cat (fst (cstep lim be (NewVersionCrash u (S v) now) (cat w))) w1; set_cat c w1] ->
     other_tables D s t w w' /\ exists_table w' D s t /\ holds w' D s t (S v) (ws ++ [x])).
  { intros w' H.
    assert (S : same_tables (cat w) (cat w') /\ other_data u w w' /\ data w' u = Delta (S v) (ws ++ [x])).
    { destruct H as [<-|[<-|[<-|[]]]].
      - split; [apply same_tables_refl|]. split; [intros u'; apply put_other|apply put_same].
      - split; [apply new_version_tx_tables|]. split; [apply put_other_data|apply put_same].
      - split; [exact ST|]. split; [apply put_other_data|apply put_same]. }
    destruct S as (S1 & S2 & S3). split; [exact (other_of_located w w' D s t u I L S1 S2)|]. split.
    - exists i, u. apply S1, T.
    - exists u. split; [apply (located_same w w' S1), L|exact S3]. }
  split; [exact Hok|]. split; [apply Pt; right; right; left; reflexivity|]. split; [|split; [exact Pt|]].
  - exists i, u, n, now. split; [apply ST, T|]. apply V. right. auto.
  - exists w1. split; [left; reflexivity|reflexivity].
Qed.
Lemma plan_fails D d s t x now w : inv w -> ~ (d = D /\ ordinary s /\ exists v ws, holds w d s t v ws) -> plan_to_delta_table lim be D d s t x now w = ([], false).
Proof.
  intros I N. unfold plan_to_delta_table. destruct (provider D d s t w) as [[u v ws|]|] eqn:E; try reflexivity.
  exfalso. apply N. apply (provider_delta lim be) in E as (E1 & E2 & E3 & E4); [|exact I]. split; [exact E1|]. split; [exact E2|]. exists v, ws, u. auto.
Qed.
Lemma other_tables_trans d s t a b c : other_tables d s t a b -> other_tables d s t b c -> other_tables d s t a c.
Proof.
  intros H1 H2 d' s' t' N. destruct (H1 d' s' t' N) as [A1 A2]. destruct (H2 d' s' t' N) as [B1 B2]. split.
  - rewrite B1. exact A1.
  - intros v ws. rewrite B2. apply A2.
Qed.
Lemma inv_create_after D d s t fields u now w : inv w -> unused w u -> inv (after (create_delta_table lim be D d s t fields u now w) w).
Proof. intros I U. apply (inv_after lim be _ w I). intros w'. apply (inv_create lim be); assumption. Qed.
(* create, then write: CREATE TABLE AS, and an upload to a new table *)
Lemma create_plan_effect D s t fields x u now w : inv w -> unused w u -> free w D s t -> s <> system -> fields_ok lim fields ->
  let r := seq w (create_delta_table lim be D D s t fields u now w) (plan_to_delta_table lim be D D s t x now) in
  snd r = true /\ holds (after r w) D s t 1 [x] /\ recorded (after r w) D s t 1 /\ (forall w', In w' (fst r) -> other_tables D s t w w').
Proof.
  intros I U F N Fo. destruct (create_effect D D s t fields u now w I U) as (H1 & _ & H3 & H4 & _).
  cbn zeta. rewrite seq_ok, seq_after. rewrite (proj2 H1) by auto. cbn [andb]. set (w1 := after (create_delta_table lim be D D s t fields u now w) w) in *.
  assert (I1 : inv w1) by (apply inv_create_after; assumption).
  assert (Hw : holds w1 D s t 0 []).
  { destruct (H3 F) as (_ & _ & _ & _ & _ & i & v & (_ & _ & A & _) & _). exists u. split; [exists i; apply A; auto 8|]. apply H4; apply F. }
  assert (O : ordinary s) by (split; [apply F|exact N]).
  destruct (plan_effect D D s t x now w1 0 [] I1 eq_refl O Hw) as (P1 & P2 & P3 & P4 & _).
  split; [exact P1|]. split; [exact P2|]. split; [exact P3|]. intros w' H. apply seq_in in H as [H|[_ H]].
  - exact (create_points D D s t fields u now w w' I U H).
  - apply (other_tables_trans D s t w w1 w'); [|apply P4, H].
    subst w1. destruct (H3 F) as (x1 & x2 & Ex & _). apply (create_points D D s t fields u now w _ I U). rewrite Ex. right. right. left. reflexivity.
Qed.

(* 5. DROP TABLE *)
Lemma cat_step_eq o w c ok : cstep lim be o (cat w) = (c, ok) -> cat_step lim be o w = ([set_cat c w], ok).
Proof. intros E. unfold cat_step. rewrite E. reflexivity. Qed.
Lemma located_removed c c' d s t : wf c -> removes_tables c c' (fun i => exists u, has_table c d s t i u) ->
  forall d' s' t' i' u', has_table c' d' s' t' i' u' <-> has_table c d' s' t' i' u' /\ (d', s', t') <> (d, s, t).
Proof.
  intros W (R & _) d' s' t' i' u'. rewrite R. split; intros [T N]; (split; [exact T|]).
  - intros E. injection E as -> -> ->. apply N. exists u'. exact T.
  - intros [u T']. apply N. destruct (has_table_name c W _ _ _ _ _ _ _ _ _ T T') as (-> & -> & -> & _). reflexivity.
Qed.
Lemma drop_one D s t w u v ws : inv w -> ordinary s -> located w D s t u -> data w u = Delta v ws ->
  let x := seq w (delete_delta_table D D s t w) (cat_step lim be (DropTable D s t)) in
  exists c, x = ([put u Broken w; put u Absent (put u Broken w); set_cat c (put u Absent (put u Broken w))], true) /\
  (forall d' s' t' i' u', has_table c d' s' t' i' u' <-> has_table (cat w) d' s' t' i' u' /\ (d', s', t') <> (D, s, t)) /\
  same_schemas (cat w) c /\ same_dbs (cat w) c.
Proof.
  intros I O L Dt. pose proof (inv_wf lim be w I) as W. cbn zeta. unfold delete_delta_table.
  rewrite (proj2 (provider_delta lim be D D s t w u v ws I)) by auto. unfold seq. cbn [last].
  destruct (cstep lim be (DropTable D s t) (cat (put u Absent (put u Broken w)))) as [c ok] eqn:E. rewrite (cat_step_eq _ _ c ok E). cbn [put cat] in E.
  destruct (drop_table_effect lim be D s t (cat w) c ok W E) as (H1 & _ & H3). destruct L as [i T].
  assert (ok = true) as -> by (apply H1; exists i, u; exact T). exists c. split; [reflexivity|]. destruct (H3 eq_refl) as (R & Sd & Ss & _).
  split; [apply located_removed; assumption|]. split; assumption.
Qed.
Lemma drop_data u w c : data (set_cat c (put u Absent (put u Broken w))) u = Absent /\ other_data u w (set_cat c (put u Absent (put u Broken w))).
Proof. split; [cbn [set_cat data]; apply put_same|]. intros u' N. cbn [set_cat data]. rewrite !put_other by exact N. reflexivity. Qed.
Lemma drop_points D s t w u v ws w' : inv w -> ordinary s -> located w D s t u -> data w u = Delta v ws ->
  In w' (fst (seq w (delete_delta_table D D s t w) (cat_step lim be (DropTable D s t)))) -> other_tables D s t w w'.
Proof.
  intros I O L Dt. destruct (drop_one D s t w u v ws I O L Dt) as (c & -> & T & _). cbn [fst]. intros [<-|[<-|[<-|[]]]].
  - apply (other_of_located w _ D s t u I L); [apply same_tables_refl|intros u'; apply put_other].
  - apply (other_of_located w _ D s t u I L); [apply same_tables_refl|intros u' N; rewrite !put_other by exact N; reflexivity].
  - intros d' s' t' N.
    assert (T' : forall i' u', has_table c d' s' t' i' u' <-> has_table (cat w) d' s' t' i' u') by (intros i' u'; rewrite T; tauto).
    split; [split; intros (i' & u' & H); exists i', u'; apply T', H|].
    assert (U : forall i' u', has_table (cat w) d' s' t' i' u' -> u' <> u).
    { intros i' u' H ->. apply N. destruct (located_own lim be w D s t d' s' t' u I L) as (<- & <- & <-); [exists i'; exact H|reflexivity]. }
    destruct (drop_data u w c) as [_ Od]. intros v' ws'. split; intros (u' & [i' H] & H').
    + exists u'. apply T' in H. split; [exists i'; exact H|]. rewrite <- Od; [exact H'|exact (U i' u' H)].
    + exists u'. split; [exists i'; apply T', H|]. rewrite Od; [exact H'|exact (U i' u' H)].
Qed.

(* 6. DROP SCHEMA *)
Lemma schema_tables_in D s w t : inv w -> ordinary s -> In t (schema_tables D s w) <-> exists_table w D s t.
Proof.
  intros I [N1 N2]. unfold schema_tables. destruct (String.eqb_spec s staging); [contradiction|]. destruct (String.eqb_spec s system); [contradiction|].
  rewrite in_map_iff. split.
  - intros (r & <- & H). apply filter_In in H as [H1 H2]. apply (in_coll_ok (cat w)) in H2. exists (tb_id r), (tb_uuid r), (tb_coll r), r. auto 8.
  - intros (i & u & k & r & K & H1 & H2 & H3 & _). exists r. split; [exact H3|]. apply filter_In. split; [exact H1|]. apply (in_coll_ok (cat w)). rewrite H2. exact K.
Qed.
Lemma schema_tables_nodup D s w : inv w -> ordinary s -> NoDup (schema_tables D s w).
Proof.
  intros I [N1 N2]. unfold schema_tables. destruct (String.eqb_spec s staging); [contradiction|]. destruct (String.eqb_spec s system); [contradiction|].
  pose proof (inv_wf lim be w I) as W. apply NoDup_map_in; [apply NoDup_filter, (NoDup_map_inv tb_id), W|].
  intros r r' H H' E. apply filter_In in H as [H1 H2]. apply filter_In in H' as [H1' H2']. apply (in_coll_ok (cat w)) in H2. apply (in_coll_ok (cat w)) in H2'.
  apply (NoDup_map_inj (fun r => (tb_coll r, tb_name r)) (tbls (cat w))); [apply W|exact H1|exact H1'|]. cbn. rewrite E, (has_schema_fun _ W _ _ _ _ H2 H2'). reflexivity.
Qed.
Lemma after_cons3 a b c ok w : after ([a; b; c], ok) w = c. Proof. reflexivity. Qed.
Lemma drop_each_ok D s ts : ordinary s -> forall w, inv w -> NoDup ts -> (forall t, In t ts -> exists v ws, holds w D s t v ws) ->
  let x := drop_each lim be D s ts w in let w' := after x w in
  snd x = true /\ inv w' /\
  (forall d' s' t' u', located w' d' s' t' u' <-> located w d' s' t' u' /\ ~ (d' = D /\ s' = s /\ In t' ts)) /\
  (forall t u, In t ts -> located w D s t u -> data w' u = Absent) /\
  (forall u, (forall t, In t ts -> ~ located w D s t u) -> data w' u = data w u) /\
  same_schemas (cat w) (cat w') /\ same_dbs (cat w) (cat w').
Proof.
  intros O. induction ts as [|t ts IH]; intros w I ND H; cbn zeta.
  - split; [reflexivity|]. split; [exact I|]. split; [intros; cbn; tauto|]. split; [intros t u []|]. split; [intros; reflexivity|]. split; intros ? ?; reflexivity.
  - destruct (H t (or_introl eq_refl)) as (v & ws & u & L & Dt). cbn [drop_each].
    destruct (drop_one D s t w u v ws I O L Dt) as (c & E & T & Ss & Sd). rewrite E, seq_ok, seq_after. cbn [snd andb]. rewrite after_cons3.
    set (w1 := set_cat c (put u Absent (put u Broken w))).
    assert (I1 : inv w1).
    { assert (P : In w1 (fst (seq w (delete_delta_table D D s t w) (cat_step lim be (DropTable D s t))))) by (rewrite E; right; right; left; reflexivity).
      revert w1 P. apply inv_seq; [exact I|intros w' P; exact (inv_delete lim be _ _ _ _ _ _ I P)|]. intros w0 w' I0. apply inv_cat_step; [exact I0|reflexivity]. }
    destruct (drop_data u w c) as [Da Do]. fold w1 in Da, Do.
    assert (T1 : forall d' s' t' u', located w1 d' s' t' u' <-> located w d' s' t' u' /\ (d', s', t') <> (D, s, t)).
    { intros d' s' t' u'. split.
      - intros (i' & P). apply T in P as [P Q]. split; [exists i'; exact P|exact Q].
      - intros [(i' & P) Q]. exists i'. apply T. auto. }
    inversion ND as [|? ? Nt ND']; subst.
    assert (Own : forall t' u', located w D s t' u' -> t' <> t -> u' <> u).
    { intros t' u' L' N ->. apply N. destruct (located_own lim be w D s t D s t' u I L L') as (_ & _ & ->). reflexivity. }
    assert (H1 : forall t', In t' ts -> exists v ws, holds w1 D s t' v ws).
    { intros t' P. assert (N : t' <> t) by (intros ->; contradiction). destruct (H t' (or_intror P)) as (v' & ws' & u' & L' & Dt'). exists v', ws', u'.
      split; [apply T1; split; [exact L'|congruence]|]. rewrite Do; [exact Dt'|exact (Own t' u' L' N)]. }
    destruct (IH w1 I1 ND' H1) as (A1 & A2 & A3 & A4 & A5 & A6 & A7). set (w2 := after (drop_each lim be D s ts w1) w1) in *.
    split; [exact A1|]. split; [exact A2|]. split; [|split; [|split; [|split]]].
    + intros d' s' t' u'. rewrite A3, T1. cbn [In]. split.
      * intros ((P & Q) & R). split; [exact P|]. intros (-> & -> & [->|S]); [apply Q; reflexivity|apply R; auto].
      * intros (P & Q). split; [split; [exact P|intros E'; injection E' as -> -> ->; apply Q; auto]|]. intros (-> & -> & S). apply Q. auto.
    + intros t' u' [<-|P] L'.
      * rewrite (located_fun lim be w D s t u' u I L' L). rewrite A5; [exact Da|]. intros t' P Q. apply T1 in Q as [Q N]. apply (Own t' u Q); [congruence|reflexivity].
      * apply (A4 t' u' P). apply T1. split; [exact L'|]. intros E'. injection E' as ->. contradiction.
    + intros u' P. rewrite A5; [apply Do; intros ->; exact (P t (or_introl eq_refl) L)|]. intros t' Q R. apply T1 in R as [R _]. exact (P t' (or_intror Q) R).
    + intros d' s' k. rewrite (A6 d' s' k). apply Ss.
    + intros d' b. rewrite (A7 d' b). apply Sd.
Qed.
(* a table that cannot be read stops it *)
Lemma drop_each_stops D s ts t0 u0 : ordinary s -> In t0 ts -> forall w, inv w -> NoDup ts -> located w D s t0 u0 -> (forall v ws, data w u0 <> Delta v ws) ->
  let x := drop_each lim be D s ts w in
  snd x = false /\ located (after x w) D s t0 u0 /\ (forall d' s', exists_schema w d' s' -> exists_schema (after x w) d' s').
Proof.
  intros O. induction ts as [|t ts IH]; intros Hin w I ND L Un; [destruct Hin|]. cbn zeta. cbn [drop_each].
  destruct (provider D D s t w) as [[u v ws|]|] eqn:P.
  - apply (provider_delta lim be) in P as (_ & _ & Lt & Dt); [|exact I].
    assert (N : t0 <> t). { intros ->. rewrite (located_fun lim be w D s t u0 u I L Lt) in Un. exact (Un v ws Dt). }
    destruct (drop_one D s t w u v ws I O Lt Dt) as (c & E & T & Ss & Sd). rewrite E, seq_ok, seq_after. cbn [snd andb]. rewrite after_cons3.
    set (w1 := set_cat c (put u Absent (put u Broken w))).
    assert (I1 : inv w1).
    { assert (Q : In w1 (fst (seq w (delete_delta_table D D s t w) (cat_step lim be (DropTable D s t))))) by (rewrite E; right; right; left; reflexivity).
      revert w1 Q. apply inv_seq; [exact I|intros w' Q; exact (inv_delete lim be _ _ _ _ _ _ I Q)|]. intros w0 w' I0. apply inv_cat_step; [exact I0|reflexivity]. }
    destruct (drop_data u w c) as [Da Do]. fold w1 in Da, Do. inversion ND as [|? ? Nt ND']; subst.
    assert (U : u0 <> u). { intros ->. destruct (located_own lim be w D s t0 D s t u I L Lt) as (_ & _ & C). contradiction. }
    destruct Hin as [C|Hin]; [congruence|]. destruct (IH Hin w1 I1 ND') as (A1 & A2 & A3).
    + destruct L as [i Ti]. exists i. apply T. split; [exact Ti|congruence].
    + intros v' ws'. rewrite (Do u0 U). apply Un.
    + split; [exact A1|]. split; [exact A2|]. intros d' s' [k K]. apply A3. exists k. apply Ss, K.
  - unfold delete_delta_table. rewrite P. cbn. split; [reflexivity|]. split; [exact L|]. auto.
  - unfold delete_delta_table. rewrite P. cbn. split; [reflexivity|]. split; [exact L|]. auto.
Qed.
Lemma session_schema_ok D s w : inv w -> ordinary s -> session_schema D s w = true <-> exists_schema w D s.
Proof.
  intros I [N1 N2]. unfold session_schema. destruct (String.eqb_spec s staging); [contradiction|]. destruct (String.eqb_spec s system); [contradiction|]. cbn [orb].
  destruct (get_collection D s (cat w)) as [k|e] eqn:E.
  - apply (get_collection_ok _ (inv_wf lim be w I)) in E. split; [intros _; exists k; exact E|reflexivity].
  - split; [discriminate|]. intros [k K]. apply (get_collection_ok _ (inv_wf lim be w I)) in K. congruence.
Qed.
Lemma not_session_schema D s w : inv w -> ordinary s -> ~ exists_schema w D s -> session_schema D s w = false.
Proof. intros I O N. destruct (session_schema D s w) eqn:E; [|reflexivity]. exfalso. apply N. apply (session_schema_ok D s w I O). exact E. Qed.
Lemma provider_none D s t w : inv w -> ordinary s -> ~ exists_table w D s t -> provider D D s t w = None.
Proof.
  intros I [N1 N2] N. unfold provider. rewrite String.eqb_refl. cbn [negb]. destruct (String.eqb_spec s staging); [contradiction|]. destruct (String.eqb_spec s system); [contradiction|].
  rewrite (proj2 (table_uuid_none D s t (cat w) (inv_wf lim be w I))); [reflexivity|]. exact N.
Qed.
Lemma provider_ordinary D d s t w p : inv w -> ordinary s -> provider D d s t w = Some p -> d = D /\ exists u v ws, p = PDelta u v ws /\ located w D s t u /\ data w u = Delta v ws.
Proof.
  intros I O E. pose proof E as E'. unfold provider in E'. destruct (String.eqb_spec d D) as [->|]; [|discriminate E']. split; [reflexivity|]. cbn [negb] in E'.
  destruct O as [N1 N2]. destruct (String.eqb_spec s staging); [contradiction|]. destruct (String.eqb_spec s system); [contradiction|].
  destruct (table_uuid D s t (cat w)) as [u|]; [|discriminate E']. destruct (data w u) eqn:Dt; try discriminate E'. injection E' as <-. exists u, version, writes. split; [reflexivity|].
  apply (provider_delta lim be) in E as (_ & _ & L & _); [|exact I]. split; [exact L|exact Dt].
Qed.
End Ddl.

(* 7. The functions of a session *)
Lemma fold_register l : forall r f, NoDup (map fst l) ->
  (forall x, In (f, x) l -> fold_left (fun r fx => register (fst fx) (snd fx) r) l r f = Some x) /\
  (~ In f (map fst l) -> fold_left (fun r fx => register (fst fx) (snd fx) r) l r f = r f).
Proof.
  induction l as [|[g y] l IH]; intros r f ND; cbn [fold_left map fst snd].
  - split; [intros x []|reflexivity].
  - inversion ND as [|? ? N ND']; subst. destruct (IH (register g y r) f ND') as [H1 H2]. split.
    + intros x [E|H]; [|exact (H1 x H)]. injection E as -> ->. rewrite H2 by exact N. unfold register. rewrite String.eqb_refl. reflexivity.
    + intros Nf. rewrite H2; [|intros C; apply Nf; right; exact C]. unfold register. destruct (String.eqb_spec f g) as [->|_]; [exfalso; apply Nf; left; reflexivity|reflexivity].
Qed.
Lemma functions_in c D b f x : wf c -> has_db c D b -> In (f, x) (get_all_functions b c) <-> has_function c D f x.
Proof.
  intros W B. unfold get_all_functions. rewrite in_map_iff. split.
  - intros (r & E & H). injection E as E1 E2. apply filter_In in H as [H1 H2]. apply Nat.eqb_eq in H2. exists b, r. auto.
  - intros (b' & r & B' & H1 & H2 & H3 & H4). exists r. split; [congruence|]. apply filter_In. split; [exact H1|]. apply Nat.eqb_eq. rewrite H2. exact (has_db_fun c W _ _ _ B' B).
Qed.
Lemma functions_nodup c b : wf c -> NoDup (map fst (get_all_functions b c)).
Proof.
  intros W. unfold get_all_functions. rewrite map_map. cbn. apply NoDup_map_in; [apply NoDup_filter, (NoDup_map_inv (fun r => (fn_db r, fn_name r))), W|].
  intros r r' H H' E. apply filter_In in H as [H1 H2]. apply filter_In in H' as [H1' H2']. apply Nat.eqb_eq in H2. apply Nat.eqb_eq in H2'.
  apply (NoDup_map_inj (fun r => (fn_db r, fn_name r)) (fns c)); [apply W|exact H1|exact H1'|]. cbn. congruence.
Qed.
Lemma reload_effect c D r f : wf c -> (forall x, has_function c D f x -> reload D c r f = Some x) /\ ((forall x, ~ has_function c D f x) -> reload D c r f = r f).
Proof.
  intros W. unfold reload. destruct (get_database D c) as [b|e] eqn:E.
  - apply (get_database_ok c W) in E. destruct (fold_register (get_all_functions b c) r f (functions_nodup c b W)) as [H1 H2]. split.
    + intros x H. apply H1, (functions_in c D b f x W E), H.
    + intros N. apply H2. intros C. apply in_map_iff in C as ([g y] & Eg & C). cbn in Eg. subst g. exact (N y (proj1 (functions_in c D b f y W E) C)).
  - split; [|reflexivity]. intros x (b & fr & B & _). apply (get_database_ok c W) in B. congruence.
Qed.
(* 8. Garbage collection *)
Lemma gc_failed_stays fs rows u : In (u, Failed) rows -> In (u, Failed) (gcs fs rows).
Proof.
  revert rows. induction fs as [|f fs IH]; intros rows H; [exact H|]. cbn. apply IH. unfold gc. apply in_flat_map. exists (u, Failed). split; [exact H|left; reflexivity].
Qed.
Lemma gc_keeps_ids f rows : forall u s, In (u, s) (gc f rows) -> exists s', In (u, s') rows /\ (s = Pending -> False) /\ (s = Retry -> s' = Retry).
Proof.
  intros u s H. unfold gc in H. apply in_flat_map in H as ([u' s'] & H1 & H2). unfold gc_row in H2. cbn [fst snd] in H2.
  destruct s'; [destruct (f u')|destruct (f u')|]; try (destruct H2 as [H2|[]]; injection H2 as <- <-); try destruct H2.
  - exists Pending. split; [exact H1|]. split; discriminate.
  - exists Retry. split; [exact H1|]. split; [discriminate|reflexivity].
  - exists Failed. split; [exact H1|]. split; discriminate.
Qed.
