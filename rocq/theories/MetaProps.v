(* C104 (every listed table can be found), C105 (a broken table affects only queries that name it), C106 (a query is resolved in its own metastore),
   C107 (external tables belong to a database), C108 (a restart is reported exactly once). Specification: MetaSpec.v, model: MetaModel.v. *)
From Coq Require Import Ascii String List Bool Arith Lia.
From Verif Require Import MetaModel MetaSpec.
Import ListNotations.
Open Scope string_scope.
Open Scope list_scope.

(* ---- Maps ---- *)
Lemma lookup_in {A} (m : list (string * A)) k v : lookup m k = Some v -> In (k, v) m.
Proof.
  induction m as [|[k' w] m IH]; cbn [lookup]; [discriminate|]. destruct (lookup m k) as [x|].
  - intros E. injection E as ->. right. apply IH. reflexivity.
  - destruct (String.eqb k' k) eqn:Q; [|discriminate]. apply String.eqb_eq in Q. intros E. injection E as ->. left. congruence.
Qed.
Lemma lookup_none {A} (m : list (string * A)) k : ~ In k (map fst m) -> lookup m k = None.
Proof.
  induction m as [|[k' w] m IH]; intros N; [reflexivity|]. cbn [lookup]. cbn [map fst] in N. rewrite IH by (intros I; apply N; right; exact I).
  destruct (String.eqb k' k) eqn:Q; [|reflexivity]. apply String.eqb_eq in Q. exfalso. apply N. left. exact Q.
Qed.
Lemma lookup_nodup {A} (m : list (string * A)) k v : NoDup (map fst m) -> In (k, v) m -> lookup m k = Some v.
Proof.
  induction m as [|[k' w] m IH]; intros ND I; [contradiction|]. cbn [map fst] in ND. apply NoDup_cons_iff in ND. destruct ND as [N ND]. cbn [lookup]. destruct I as [E|I].
  - injection E as -> ->. rewrite lookup_none by exact N. rewrite String.eqb_refl. reflexivity.
  - rewrite (IH ND I). reflexivity.
Qed.
Lemma lookup_app {A} (m n : list (string * A)) k : lookup (m ++ n) k = match lookup n k with Some v => Some v | None => lookup m k end.
Proof. induction m as [|[k' w] m IH]; cbn [app lookup]; [destruct (lookup n k); reflexivity|]. rewrite IH. destruct (lookup n k); reflexivity. Qed.
Lemma lookup_some {A} (m : list (string * A)) k : In k (map fst m) -> lookup m k <> None.
Proof.
  induction m as [|[k' w] m IH]; intros I; [contradiction|]. cbn [lookup]. destruct (lookup m k) eqn:E; [discriminate|]. destruct I as [Q|I]; [|exfalso; exact (IH I eq_refl)].
  cbn [fst] in Q. rewrite Q, String.eqb_refl. discriminate.
Qed.

(* ---- collect ---- *)
Lemma collect_in {A B} (f : A -> option B) l r a : collect f l = Some r -> In a l -> exists b, f a = Some b /\ In b r.
Proof.
  revert r. induction l as [|x l IH]; intros r E I; [contradiction|]. cbn [collect] in E. destruct (f x) as [b|] eqn:F; [|discriminate]. destruct (collect f l) as [t|]; [|discriminate].
  injection E as <-. destruct I as [<-|I]; [exists b; split; [exact F|left; reflexivity]|]. destruct (IH t eq_refl I) as (b' & Fb & Ib). exists b'. split; [exact Fb|right; exact Ib].
Qed.
Lemma collect_from {A B} (f : A -> option B) l r b : collect f l = Some r -> In b r -> exists a, In a l /\ f a = Some b.
Proof.
  revert r. induction l as [|x l IH]; intros r E I; cbn [collect] in E; [injection E as <-; contradiction|]. destruct (f x) as [y|] eqn:F; [|discriminate]. destruct (collect f l) as [t|]; [|discriminate].
  injection E as <-. destruct I as [<-|I]; [exists x; split; [left; reflexivity|exact F]|]. destruct (IH t eq_refl I) as (a & Ia & Fa). exists a. split; [right; exact Ia|exact Fa].
Qed.
Lemma collect_fails {A B} (f : A -> option B) l a : In a l -> f a = None -> collect f l = None.
Proof.
  induction l as [|x l IH]; intros I F; [contradiction|]. cbn [collect]. destruct I as [<-|I]; [rewrite F; reflexivity|]. rewrite (IH I F). destruct (f x); reflexivity.
Qed.
Lemma collect_works {A B} (f : A -> option B) l : (forall a, In a l -> f a <> None) -> collect f l <> None.
Proof.
  induction l as [|x l IH]; intros H; cbn [collect]; [discriminate|]. pose proof (H x (or_introl eq_refl)) as N. destruct (f x); [|contradiction].
  assert (collect f l <> None) by (apply IH; intros a I; apply H; right; exact I). destruct (collect f l); [discriminate|contradiction].
Qed.
Lemma collect_names {A B} (f : A -> option B) (g : A -> string) (h : B -> string) l r : (forall a b, f a = Some b -> h b = g a) -> collect f l = Some r -> map h r = map g l.
Proof.
  intros H. revert r. induction l as [|x l IH]; intros r E; cbn [collect] in E; [injection E as <-; reflexivity|]. destruct (f x) as [y|] eqn:F; [|discriminate]. destruct (collect f l) as [t|]; [|discriminate].
  injection E as <-. cbn [map]. rewrite (H x y F), (IH t eq_refl). reflexivity.
Qed.
Lemma collect_app {A B} (f : A -> option B) l m r : collect f (l ++ m) = Some r -> exists a b, collect f l = Some a /\ collect f m = Some b /\ r = a ++ b.
Proof.
  revert r. induction l as [|x l IH]; intros r E; [exists [], r; repeat apply conj; [reflexivity|exact E|reflexivity]|]. cbn [app collect] in *. destruct (f x) as [y|]; [|discriminate].
  destruct (collect f (l ++ m)) as [t|]; [|discriminate]. injection E as <-. destruct (IH t eq_refl) as (a & b & -> & -> & ->). exists (y :: a), b. repeat apply conj; reflexivity.
Qed.

Section Catalog.
  Context {handle : Type} (open_delta : string -> list (string * string) -> string -> option handle) (open_default : string -> option handle)
          (open_iceberg : string -> list (string * string) -> string -> option handle) (loads : handle -> bool).
  Notation build_table := (build_table handle open_delta open_default open_iceberg).
  Notation build_schema := (build_schema handle open_delta open_default open_iceberg).
  Notation build_catalog := (build_catalog handle open_delta open_default open_iceberg).
  Notation find_table := (find_table handle loads).
  Notation described := (described open_delta open_default open_iceberg).
  Notation query := (query handle open_delta open_default open_iceberg loads).

  Lemma store_in l n u o : In (n, (u, o)) (store_options l) -> exists st, In st (stores l) /\ l_name st = n /\ l_url st = u /\ l_options st = o.
  Proof. intros I. apply in_map_iff in I. destruct I as (st & E & I). injection E as <- <- <-. exists st. repeat apply conj; [exact I|reflexivity..]. Qed.
  Lemma build_table_described l o p : build_table (store_options l) o = Some p -> described l o p.
  Proof.
    unfold MetaModel.build_table. destruct (t_format o) eqn:F; [| |discriminate]; destruct (t_store o) as [n|] eqn:T.
    - destruct (lookup (store_options l) n) as [[u op]|] eqn:L; [|discriminate]. destruct (open_delta u op (t_path o)) as [h|] eqn:O; [|discriminate]. intros E. injection E as <-.
      apply lookup_in, store_in in L. destruct L as (st & I & N & <- & <-). exact (DDelta _ _ _ l o n st h F T I N O).
    - destruct (open_default (t_path o)) as [h|] eqn:O; [|discriminate]. intros E. injection E as <-. exact (DDefault _ _ _ l o h F T O).
    - destruct (lookup (store_options l) n) as [[u op]|] eqn:L; [|discriminate]. destruct (open_iceberg u op (t_path o)) as [h|] eqn:O; [|discriminate]. intros E. injection E as <-.
      apply lookup_in, store_in in L. destruct L as (st & I & N & <- & <-). exact (DIceberg _ _ _ l o n st h F T I N O).
    - discriminate.
  Qed.
  Lemma store_lookup l st : NoDup (map l_name (stores l)) -> In st (stores l) -> lookup (store_options l) (l_name st) = Some (l_url st, l_options st).
  Proof.
    intros ND I. apply lookup_nodup; [unfold store_options; rewrite map_map; exact ND|]. unfold store_options. apply in_map_iff. exists st. split; [reflexivity|exact I].
  Qed.
  Lemma described_built l o p : NoDup (map l_name (stores l)) -> described l o p -> build_table (store_options l) o = Some p.
  Proof.
    intros ND D. unfold MetaModel.build_table. destruct D as [n st h F T I N O|h F T O|n st h F T I N O]; rewrite F, T.
    - rewrite <- N, (store_lookup l st ND I), O. reflexivity.
    - rewrite O. reflexivity.
    - rewrite <- N, (store_lookup l st ND I), O. reflexivity.
  Qed.
  Lemma schema_named st s r : build_schema st s = Some r -> fst r = s_name s.
  Proof. unfold MetaModel.build_schema. destruct (collect _ _); [|discriminate]. intros E. injection E as <-. reflexivity. Qed.
  Lemma schema_tables st s n ts : build_schema st s = Some (n, ts) -> n = s_name s /\ collect (fun t => option_map (fun p => (t_name t, p)) (build_table st t)) (s_tables s) = Some ts.
  Proof. unfold MetaModel.build_schema. destruct (collect _ _); [|discriminate]. intros E. injection E as <- <-. split; reflexivity. Qed.
  Lemma table_names st s ts : collect (fun t => option_map (fun p => (t_name t, p)) (build_table st t)) (s_tables s) = Some ts -> map fst ts = map t_name (s_tables s).
  Proof. apply collect_names. intros a b E. destruct (build_table st a); [|discriminate]. injection E as <-. reflexivity. Qed.

  (* Whatever is found was listed under that name, and is what the listing describes *)
  Lemma found_listed l c staging s t p : build_catalog l = Some c -> find_table c staging s t = Stored p ->
    exists o, listed l s t o /\ described l o p /\ readable loads p.
  Proof.
    intros B F. unfold MetaModel.find_table in F. destruct (String.eqb s "staging"); [destruct (existsb _ _); discriminate|]. destruct (String.eqb s "system"); [destruct (system_table t); discriminate|].
    destruct (lookup c s) as [ts|] eqn:L; [|discriminate]. destruct (lookup ts t) as [q|] eqn:T; [|discriminate].
    assert (Q : q = p /\ readable loads p). { destruct q as [h|h]; [destruct (loads h) eqn:H; [|discriminate]|]; injection F as <-; (split; [reflexivity|]); cbn; auto. }
    destruct Q as [-> R]. apply lookup_in in L, T. destruct (collect_from _ _ _ _ B L) as (so & Iso & Bso). apply schema_tables in Bso. destruct Bso as [-> Ct].
    destruct (collect_from _ _ _ _ Ct T) as (o & Io & Bo). destruct (build_table (store_options l) o) as [p'|] eqn:Bt; [|discriminate]. injection Bo as <- <-.
    exists o. split; [exists so; repeat apply conj; try assumption; reflexivity|]. split; [apply build_table_described; exact Bt|exact R].
  Qed.
  Lemma listed_found l c staging s t o : clear_listing l -> build_catalog l = Some c -> listed l s t o ->
    exists p, described l o p /\ (readable loads p -> find_table c staging s t = Stored p) /\ (~ readable loads p -> find_table c staging s t = LoadError).
  Proof.
    intros (NS & NL & NT & N1 & N2) B (so & Iso & Es & Io & Et).
    destruct (collect_in _ _ _ _ B Iso) as ([n ts] & Bso & Ic). apply schema_tables in Bso. destruct Bso as [-> Ct].
    destruct (collect_in _ _ _ _ Ct Io) as (np & Bo & Ip). destruct (build_table (store_options l) o) as [p|] eqn:Bt; [|discriminate]. injection Bo as <-.
    exists p. split; [apply build_table_described; exact Bt|]. unfold MetaModel.find_table.
    destruct (String.eqb s "staging") eqn:S1; [exfalso; apply String.eqb_eq in S1; apply N1; rewrite <- S1, <- Es; apply in_map; exact Iso|].
    destruct (String.eqb s "system") eqn:S2; [exfalso; apply String.eqb_eq in S2; apply N2; rewrite <- S2, <- Es; apply in_map; exact Iso|].
    rewrite <- Es, <- Et. rewrite (lookup_nodup c (s_name so) ts); [|rewrite (collect_names _ s_name fst _ _ (fun a b => schema_named (store_options l) a b) B); exact NS|exact Ic].
    rewrite Forall_forall in NT. rewrite (lookup_nodup ts (t_name o) p); [|rewrite (table_names _ _ _ Ct); apply NT; exact Iso|exact Ip].
    destruct p as [h|h]; cbn [readable]; split; intros H; try reflexivity; [rewrite H; reflexivity|destruct (loads h); [exfalso; apply H; reflexivity|reflexivity]|exfalso; apply H; exact Logic.I].
  Qed.

  Lemma broken_fails l s t o : listed l s t o -> broken open_delta open_default open_iceberg l o -> build_catalog l = None.
  Proof.
    intros (so & Iso & _ & Io & _) Br. apply (collect_fails _ _ so Iso). unfold MetaModel.build_schema. rewrite (collect_fails _ _ o Io); [reflexivity|].
    destruct (build_table (store_options l) o) as [p|] eqn:B; [|reflexivity]. exfalso. exact (Br p (build_table_described l o p B)).
  Qed.
  Lemma open_builds l : NoDup (map l_name (stores l)) -> all_open open_delta open_default open_iceberg l -> build_catalog l <> None.
  Proof.
    intros NL A. apply collect_works. intros so Iso. unfold MetaModel.build_schema.
    assert (N : collect (fun t => option_map (fun p => (t_name t, p)) (build_table (store_options l) t)) (s_tables so) <> None).
    { apply collect_works. intros o Io. destruct (A (s_name so) (t_name o) o) as (p & D); [exists so; repeat apply conj; try assumption; reflexivity|].
      rewrite (described_built l o p NL D). discriminate. }
    destruct (collect _ _); [discriminate|contradiction].
  Qed.

  (* C104 *)
  Theorem c104_found : forall l c staging s t p, build_catalog l = Some c -> find_table c staging s t = Stored p ->
    exists o, listed l s t o /\ described l o p /\ readable loads p.
  Proof. exact found_listed. Qed.
  Theorem c104_partial : forall l c staging s t o, clear_listing l -> build_catalog l = Some c -> listed l s t o ->
    exists p, described l o p /\ (readable loads p -> find_table c staging s t = Stored p) /\ (~ readable loads p -> find_table c staging s t = LoadError).
  Proof. exact listed_found. Qed.
  (* Of two schemas with one name only the last one counts: the tables of the other ones are missing *)
  Theorem c104_twice_refuted : forall l c staging before so after t, schemas l = before ++ so :: after -> ~ In (s_name so) (map s_name after) ->
    s_name so <> "staging" -> s_name so <> "system" -> ~ In t (map t_name (s_tables so)) -> build_catalog l = Some c -> find_table c staging (s_name so) t = Missing.
  Proof.
    intros l c staging before so after t E Na N1 N2 Nt B. unfold MetaModel.build_catalog in B. rewrite E in B. apply collect_app in B. destruct B as (a & b & Ba & Bb & ->).
    cbn [collect] in Bb. destruct (build_schema (store_options l) so) as [[n ts]|] eqn:Bs; [|discriminate]. destruct (collect _ after) as [d|] eqn:Bd; [|discriminate]. injection Bb as <-.
    pose proof (schema_tables _ _ _ _ Bs) as [-> Ct]. unfold MetaModel.find_table.
    rewrite (proj2 (String.eqb_neq _ _) N1), (proj2 (String.eqb_neq _ _) N2), lookup_app. cbn [lookup].
    rewrite (lookup_none d); [|rewrite (collect_names _ s_name fst _ _ (fun a b => schema_named (store_options l) a b) Bd); exact Na]. rewrite String.eqb_refl.
    rewrite lookup_none; [reflexivity|]. rewrite (table_names _ _ _ Ct). exact Nt.
  Qed.
  (* A stored table in a schema called staging or system is never found *)
  Theorem c104_reserved_refuted : forall l c staging s t p, build_catalog l = Some c -> s = "staging" \/ s = "system" -> find_table c staging s t <> Stored p.
  Proof. intros l c staging s t p _ [->| ->] E; unfold MetaModel.find_table in E; cbn [String.eqb Ascii.eqb Bool.eqb] in E; [destruct (existsb _ _)|destruct (system_table t)]; discriminate. Qed.
  (* The schemas that are listed to a user are those that can be looked into *)
  Theorem c104_schemas : forall l c staging s t, build_catalog l = Some c -> (In s (schema_names handle c) <-> find_table c staging s t <> NoSchema).
  Proof.
    intros l c staging s t _. unfold schema_names. rewrite in_app_iff, nodup_In. unfold MetaModel.find_table. split.
    - intros I. destruct (String.eqb s "staging") eqn:S1; [destruct (existsb _ _); discriminate|]. destruct (String.eqb s "system") eqn:S2; [destruct (system_table t); discriminate|].
      apply String.eqb_neq in S1, S2. destruct I as [I|[I|[I|[]]]]; [|exfalso; congruence..]. apply lookup_some in I. destruct (lookup c s) as [ts|]; [|contradiction].
      destruct (lookup ts t) as [[h|h]|]; [destruct (loads h)| |]; discriminate.
    - destruct (String.eqb s "staging") eqn:S1; [intros _; apply String.eqb_eq in S1; right; left; symmetry; exact S1|].
      destruct (String.eqb s "system") eqn:S2; [intros _; apply String.eqb_eq in S2; right; right; left; symmetry; exact S2|].
      destruct (lookup c s) as [ts|] eqn:L; [intros _; left; apply lookup_in in L; apply (in_map fst) in L; exact L|intros N; exfalso; apply N; reflexivity].
  Qed.

  (* C105 *)
  (* Tables whose data cannot be read do not matter for queries that do not name them *)
  Theorem c105_partial : forall l staging names, clear_listing l -> all_open open_delta open_default open_iceberg l ->
    (forall s t, In (s, t) names -> exists o, listed l s t o /\ forall p, described l o p -> readable loads p) ->
    exists r, query l staging names = Tables r /\
      Forall2 (fun n f => exists o p, listed l (fst n) (snd n) o /\ described l o p /\ f = Stored p) names r.
  Proof.
    intros l staging names CL A H. unfold MetaModel.query. pose proof (open_builds l (proj1 (proj2 CL)) A) as NB. destruct (build_catalog l) as [c|] eqn:B; [|contradiction].
    assert (G : Forall (fun n => exists o p, listed l (fst n) (snd n) o /\ described l o p /\ find_table c staging (fst n) (snd n) = Stored p) names).
    { apply Forall_forall. intros [s t] I. destruct (H s t I) as (o & Lo & R). destruct (listed_found l c staging s t o CL B Lo) as (p & D & F & _).
      exists o, p. repeat apply conj; [exact Lo|exact D|apply F, R; exact D]. }
    assert (NE : existsb (is_error handle) (map (fun n => find_table c staging (fst n) (snd n)) names) = false).
    { clear H. induction names as [|n names IH]; [reflexivity|]. inversion_clear G as [|? ? Gn Gr]. cbn [map existsb]. destruct Gn as (o & p & _ & _ & ->). cbn [is_error orb]. apply IH. exact Gr. }
    rewrite NE. eexists. split; [reflexivity|]. clear NE H. induction names as [|n names IH]; [constructor|]. inversion_clear G as [|? ? Gn Gr]. cbn [map]. constructor; [exact Gn|exact (IH Gr)].
  Qed.
  (* One table of the database that cannot be opened makes all queries fail, even those that name no table *)
  Theorem c105_refuted : forall l s t o staging names, listed l s t o -> broken open_delta open_default open_iceberg l o -> query l staging names = Failed.
  Proof. intros l s t o staging names L Br. unfold MetaModel.query. rewrite (broken_fails l s t o L Br). reflexivity. Qed.
  (* The ways to be broken: a format that is not known, a store that is not listed, an Iceberg table without a store *)
  Theorem c105_broken : forall l o, t_format o = Unknown \/ (exists n, t_store o = Some n /\ ~ In n (map l_name (stores l))) \/ (t_format o = Iceberg /\ t_store o = None) ->
    broken open_delta open_default open_iceberg l o.
  Proof.
    intros l o H p D. destruct H as [F|[(n & T & N)|[F T]]]; destruct D as [n' st h F' T' I E O|h F' T' O|n' st h F' T' I E O]; try congruence.
    - apply N. replace n with n' by congruence. rewrite <- E. apply in_map. exact I.
    - apply N. replace n with n' by congruence. rewrite <- E. apply in_map. exact I.
  Qed.
End Catalog.
Print Assumptions c104_found.
Print Assumptions c104_partial.
Print Assumptions c104_twice_refuted.
Print Assumptions c104_reserved_refuted.
Print Assumptions c104_schemas.
Print Assumptions c105_partial.
Print Assumptions c105_refuted.
Print Assumptions c105_broken.

(* A system table written in upper case is said to exist but is not found *)
Theorem c104_system_refuted : forall n, system_table_exist n = true -> lower n <> n -> system_table n = false.
Proof.
  intros n E D. destruct (system_table n) eqn:S; [|reflexivity]. exfalso. unfold system_table in S. cbn [existsb system_names] in S. rewrite orb_false_r in S. apply orb_true_iff in S.
  destruct S as [S|S]; apply String.eqb_eq in S; subst n; apply D; reflexivity.
Qed.
Print Assumptions c104_system_refuted.
Theorem c104_system_partial : forall n, system_table n = true -> system_table_exist n = true.
Proof.
  intros n S. unfold system_table in S. cbn [existsb system_names] in S. rewrite orb_false_r in S. apply orb_true_iff in S. destruct S as [S|S]; apply String.eqb_eq in S; subst n; reflexivity.
Qed.
Print Assumptions c104_system_partial.

(* A listing with two schemas and all kinds of tables; [h]: the path is the handle; Delta tables under "bad" cannot be loaded *)
Definition ex_delta (u : string) (o : list (string * string)) (p : string) : option string := if String.eqb u "" then None else Some (u ++ p)%string.
Definition ex_default (p : string) : option string := Some p.
Definition ex_ice (u : string) (o : list (string * string)) (p : string) : option string := if String.eqb p "bad" then None else Some (u ++ p)%string.
Definition ex_loads (h : string) : bool := negb (String.eqb h "bad").
Definition ex_listing : listing :=
  {| schemas := [{| s_name := "public"; s_tables := [{| t_name := "a"; t_path := "x"; t_store := None; t_format := Delta |}; {| t_name := "b"; t_path := "bad"; t_store := None; t_format := Delta |}] |};
                 {| s_name := "lake"; s_tables := [{| t_name := "a"; t_path := "y"; t_store := Some "s"; t_format := Delta |}; {| t_name := "i"; t_path := "z"; t_store := Some "s"; t_format := Iceberg |}] |}];
     stores := [{| l_name := "s"; l_url := "s3://b/"; l_options := [] |}] |}.
Definition ex_query := query string ex_delta ex_default ex_ice ex_loads ex_listing ["e"].
Ltac nodup := repeat (apply NoDup_cons; [cbn; intuition discriminate|]); apply NoDup_nil.
Example c104_example : clear_listing ex_listing /\ listed ex_listing "lake" "a" {| t_name := "a"; t_path := "y"; t_store := Some "s"; t_format := Delta |} /\
  ex_query [("public", "a"); ("lake", "a"); ("lake", "i"); ("staging", "e"); ("system", "table_versions")] = Tables [Stored (DeltaTable "x"); Stored (DeltaTable "s3://b/y"); Stored (IcebergTable "s3://b/z"); External; System] /\
  ex_query [("public", "a"); ("public", "b")] = Failed /\ system_table_exist "TABLE_VERSIONS" = true /\ lower "TABLE_VERSIONS" <> "TABLE_VERSIONS".
Proof.
  split; [|split; [|split; [vm_compute; reflexivity|split; [vm_compute; reflexivity|split; [vm_compute; reflexivity|vm_compute; discriminate]]]]].
  - split; [nodup|split; [nodup|split; [|split; cbn; intuition discriminate]]]. repeat (apply Forall_cons; [nodup|]). apply Forall_nil.
  - exists (nth 1 (schemas ex_listing) {| s_name := ""; s_tables := [] |}). split; [right; left; reflexivity|]. split; [reflexivity|]. split; [left; reflexivity|reflexivity].
Qed.
Example c105_example : all_open ex_delta ex_default ex_ice ex_listing /\
  (forall p, described ex_delta ex_default ex_ice ex_listing {| t_name := "a"; t_path := "x"; t_store := None; t_format := Delta |} p -> readable ex_loads p) /\
  broken ex_delta ex_default ex_ice ex_listing {| t_name := "c"; t_path := "x"; t_store := Some "t"; t_format := Delta |}.
Proof.
  split; [|split].
  - intros s t o (so & [<-|[<-|[]]] & _ & Io & _); destruct Io as [<-|[<-|[]]]; eexists.
    + eapply DDefault; reflexivity.
    + eapply DDefault; reflexivity.
    + eapply DDelta; [reflexivity|reflexivity|left; reflexivity|reflexivity|reflexivity].
    + eapply DIceberg; [reflexivity|reflexivity|left; reflexivity|reflexivity|reflexivity].
  - intros p D. destruct D as [n st h F T I N O|h F T O|n st h F T I N O]; cbn in F, T; try discriminate. cbn in O. injection O as <-. reflexivity.
  - apply c105_broken. right. left. exists "t". split; [reflexivity|]. cbn. intuition discriminate.
Qed.

(* ---- C106 ---- *)
Section Sessions.
  Context {C : Type}.
  Variable reqs : nat -> request C.
  Notation run := (@run C reqs).
  Lemma opt_eqb_refl i : opt_eqb i i = true. Proof. destruct i; [apply Nat.eqb_refl|reflexivity]. Qed.
  Lemma opt_eqb_iff i j : opt_eqb i j = true <-> i = j.
  Proof. destruct i, j; cbn [opt_eqb]; rewrite ?Nat.eqb_eq; split; congruence. Qed.

  (* A query with a search path, whatever the other queries do *)
  Lemma own_session q : search_path (reqs q) = true -> forall l w begun seen, orderly reqs (server w) begun l ->
    (forall i, In i begun -> seen i <> None) -> (forall c, seen q = Some c -> registered w (Some q) = c) ->
    of_query q (snd (run w l)) = of_query q (expected reqs (server w) seen l).
  Proof.
    intros SP. induction l as [|e l IH]; intros w begun seen O B R; [reflexivity|]. cbn [MetaModel.run expected]. destruct e as [i|i|c]; cbn [do_step orderly] in *.
    - destruct O as (Has & _ & O). unfold own. set (o := match inline (reqs i) with Some c => Some c | None => server w end).
      assert (Ho : o <> None) by (subst o; destruct Has as [H|H], (inline (reqs i)), (server w); congruence).
      destruct o as [c|] eqn:Eo; [|contradiction]. set (w1 := {| server := server w; registered := _ |}). change (server w) with (server w1).
      specialize (IH w1 (i :: begun) (fun j => if Nat.eqb j i then Some (Some c) else seen j)). destruct (run w1 l) as [w2 os] eqn:E. cbn [snd] in *. apply IH; [exact O| |].
      + intros j [<-|I]; [rewrite Nat.eqb_refl; discriminate|]. destruct (Nat.eqb j i); [discriminate|apply B; exact I].
      + intros d. destruct (Nat.eqb q i) eqn:Q.
        * apply Nat.eqb_eq in Q. subst i. intros X. injection X as <-. cbn [w1 registered]. unfold session_of. rewrite SP, opt_eqb_refl. reflexivity.
        * intros X. cbn [w1 registered]. destruct (opt_eqb (Some q) (session_of i (reqs i))) eqn:Z; [|apply R; exact X].
          apply opt_eqb_iff in Z. unfold session_of in Z. destruct (search_path (reqs i)); [|discriminate]. injection Z as ->. rewrite Nat.eqb_refl in Q. discriminate.
    - destruct O as (I & O). specialize (IH w begun seen O B R). destruct (run w l) as [w2 os] eqn:E. cbn [snd] in *. pose proof (B i I) as Hi. destruct (seen i) as [c|] eqn:Si; [|contradiction].
      unfold of_query in *. cbn [filter fst]. destruct (Nat.eqb i q) eqn:Q; [|exact IH]. apply Nat.eqb_eq in Q. subst i. cbn [map snd]. rewrite IH. f_equal.
      unfold session_of. rewrite SP. apply R. exact Si.
    - set (w1 := {| server := c; registered := _ |}). specialize (IH w1 begun seen O B R). destruct (run w1 l) as [w2 os] eqn:E. cbn [snd] in *. exact IH.
  Qed.

  Lemma lookups q n l w seen c : seen q = Some c -> registered w (session_of q (reqs q)) = c ->
    snd (run w (repeat (Lookup q) n ++ l)) = repeat (q, c) n ++ snd (run w l) /\ expected reqs (server w) seen (repeat (Lookup q) n ++ l) = repeat (q, c) n ++ expected reqs (server w) seen l.
  Proof.
    intros S R. induction n as [|n [IH1 IH2]]; [split; reflexivity|]. cbn [repeat app MetaModel.run expected do_step]. destruct (run w (repeat (Lookup q) n ++ l)) as [w2 os] eqn:E. cbn [snd] in *.
    rewrite R, S, IH1, IH2. split; reflexivity.
  Qed.
  Lemma orderly_lookups q n l sv begun : orderly reqs sv begun (repeat (Lookup q) n ++ l) -> orderly reqs sv begun l.
  Proof. induction n as [|n IH]; intros O; [exact O|]. cbn in O. apply IH, O. Qed.
  Lemma in_turn l : one_by_one l -> forall w begun seen, orderly reqs (server w) begun l -> snd (run w l) = expected reqs (server w) seen l.
  Proof.
    induction 1 as [|c l H IH|q n l H IH]; intros w begun seen O; [reflexivity| |].
    - cbn [MetaModel.run expected do_step orderly] in *. set (w1 := {| server := c; registered := _ |}). specialize (IH w1 begun seen O). destruct (run w1 l) as [w2 os] eqn:E. exact IH.
    - cbn [MetaModel.run expected do_step orderly] in *. destruct O as (Has & _ & O). unfold own. set (o := match inline (reqs q) with Some c => Some c | None => server w end).
      assert (Ho : o <> None) by (subst o; destruct Has as [X|X], (inline (reqs q)), (server w); congruence). destruct o as [c|] eqn:Eo; [|contradiction].
      set (w1 := {| server := server w; registered := _ |}). set (seen1 := fun i => if Nat.eqb i q then Some (Some c) else seen i).
      destruct (lookups q n l w1 seen1 (Some c)) as [A B]; [subst seen1; cbn beta; rewrite Nat.eqb_refl; reflexivity|cbn [w1 registered]; rewrite opt_eqb_refl; reflexivity|].
      destruct (run w1 (repeat (Lookup q) n ++ l)) as [w2 os] eqn:E. cbn [snd] in *. rewrite A. change (server w) with (server w1). rewrite B. f_equal.
      apply (IH w1 (q :: begun)). cbn [w1 server]. apply (orderly_lookups q n). exact O.
  Qed.

  Theorem c106_search_path : forall q w l, search_path (reqs q) = true -> orderly reqs (server w) [] l ->
    of_query q (snd (run w l)) = of_query q (expected reqs (server w) (fun _ => None) l).
  Proof. intros q w l SP O. apply (own_session q SP l w [] (fun _ => None) O); [intros i []|discriminate]. Qed.
  Theorem c106_one_by_one_partial : forall w l, one_by_one l -> orderly reqs (server w) [] l -> snd (run w l) = expected reqs (server w) (fun _ => None) l.
  Proof. intros w l T O. apply (in_turn l T w [] (fun _ => None) O). Qed.
  (* Two queries without search paths at the same time: the first one sees the tables of the second one only *)
  Theorem c106_refuted : forall w q r c d, q <> r -> search_path (reqs q) = false -> search_path (reqs r) = false -> own (reqs q) w = Some c -> own (reqs r) w = Some d ->
    snd (run w [Reload q; Reload r; Lookup q; Lookup r]) = [(q, Some d); (r, Some d)] /\ expected reqs (server w) (fun _ => None) [Reload q; Reload r; Lookup q; Lookup r] = [(q, Some c); (r, Some d)].
  Proof.
    intros w q r c d N Sq Sr Oq Or. cbn [MetaModel.run do_step expected]. rewrite Oq. cbn [own server]. unfold own in *. cbn [server]. rewrite Or. cbn [registered]. unfold session_of. rewrite Sq, Sr. cbn [opt_eqb snd].
    split; [reflexivity|]. rewrite Oq, Nat.eqb_refl. apply Nat.eqb_neq in N. rewrite N, Nat.eqb_refl. reflexivity.
  Qed.

  (* Without inline metastores, a query sees a catalog that the server had since the query began *)
  Lemma server_only : (forall q, inline (reqs q) = None) -> forall l w begun had, orderly reqs (server w) begun l ->
    (forall q, In q begun -> In (server w) (had q) /\ In (registered w (session_of q (reqs q))) (had q)) ->
    Forall2 (fun a b => fst a = fst b /\ In (snd a) (snd b)) (snd (run w l)) (since (server w) had l).
  Proof.
    intros NI. induction l as [|e l IH]; intros w begun had O B; [constructor|]. cbn [MetaModel.run since]. destruct e as [i|i|c]; cbn [do_step orderly] in *.
    - destruct O as (Has & Nb & O). unfold own. rewrite NI in *. destruct Has as [X|X]; [contradiction|]. destruct (server w) as [c|] eqn:Es; [|contradiction].
      set (w1 := {| server := Some c; registered := _ |}). specialize (IH w1 (i :: begun) (fun j => if Nat.eqb j i then [Some c] else had j) O). destruct (run w1 l) as [w2 os] eqn:E. cbn [snd] in *.
      apply IH. intros q [<-|I].
      + rewrite Nat.eqb_refl. cbn [w1 server registered]. rewrite opt_eqb_refl. split; left; reflexivity.
      + destruct (Nat.eqb q i) eqn:Q; [apply Nat.eqb_eq in Q; subst q; contradiction|]. destruct (B q I) as [B1 B2]. cbn [w1 server registered]. split; [exact B1|].
        destruct (opt_eqb (session_of q (reqs q)) (session_of i (reqs i))); [exact B1|exact B2].
    - destruct O as (I & O). specialize (IH w begun had O B). destruct (run w l) as [w2 os] eqn:E. cbn [snd] in *. constructor; [|exact IH]. split; [reflexivity|]. apply B. exact I.
    - set (w1 := {| server := c; registered := _ |}). specialize (IH w1 begun (fun i => had i ++ [c]) O). destruct (run w1 l) as [w2 os] eqn:E. cbn [snd] in *. apply IH.
      intros q I. destruct (B q I) as [B1 B2]. split; apply in_or_app; [right; left; reflexivity|left; exact B2].
  Qed.
  Theorem c106_no_inline_partial : forall w l, (forall q, inline (reqs q) = None) -> orderly reqs (server w) [] l ->
    Forall2 (fun a b => fst a = fst b /\ In (snd a) (snd b)) (snd (run w l)) (since (server w) (fun _ => []) l).
  Proof. intros w l NI O. apply (server_only NI l w [] (fun _ => []) O). intros q []. Qed.
End Sessions.
Print Assumptions c106_search_path.
Print Assumptions c106_one_by_one_partial.
Print Assumptions c106_refuted.
Print Assumptions c106_no_inline_partial.
(* Query 0 has a search path and an inline metastore, query 1 only the latter, query 2 uses the server *)
Definition ex_reqs (q : nat) : request nat := match q with 0 => {| search_path := true; inline := Some 10 |} | 1 => {| search_path := false; inline := Some 11 |} | _ => {| search_path := false; inline := None |} end.
Definition ex_world : world nat := {| server := Some 5; registered := fun _ => None |}.
Example c106_example : orderly ex_reqs (Some 5) [] [Reload 0; Reload 2; Reload 1; ServerChanges (Some 6); Lookup 2; Lookup 0; Lookup 1] /\
  snd (run ex_reqs ex_world [Reload 0; Reload 2; Reload 1; ServerChanges (Some 6); Lookup 2; Lookup 0; Lookup 1]) = [(2, Some 11); (0, Some 10); (1, Some 11)] /\
  one_by_one [Reload 1; @Lookup nat 1; Reload 2; Lookup 2; Lookup 2] /\
  snd (run ex_reqs ex_world [Reload 1; Lookup 1; Reload 2; Lookup 2; Lookup 2]) = [(1, Some 11); (2, Some 5); (2, Some 5)] /\
  snd (run ex_reqs ex_world [Reload 2; ServerChanges (Some 6); Reload 3; Lookup 2; Lookup 3]) = [(2, Some 6); (3, Some 6)].
Proof.
  split; [|split; [reflexivity|split; [|split; reflexivity]]].
  - cbn. intuition discriminate.
  - apply (One 1 1), (One 2 2), Nothing.
Qed.

(* ---- C107 ---- *)
(* An external table is seen from every database, unless it was created in a query with an inline metastore: then it is not seen at all *)
Lemma staging_kept l st n : In n st -> forall d, staging_run st (l ++ [See d false n]) = staging_run st l ++ [true].
Proof.
  revert st. induction l as [|e l IH]; intros st I d.
  - cbn. f_equal. apply existsb_exists. exists n. split; [exact I|apply String.eqb_refl].
  - cbn [app staging_run]. destruct e as [d' [] m|d' [] m]; cbn [staging_step]; rewrite ?IH by exact I; try reflexivity.
    destruct (existsb (String.eqb m) st); rewrite IH; try exact I; try reflexivity. apply in_or_app. left. exact I.
Qed.
Theorem c107_seen : forall past between d n, 
  staging_run [] (past ++ CreateExternal d false n :: between ++ [See d false n]) = staging_run [] (past ++ CreateExternal d false n :: between) ++ [true].
Proof.
  intros past between d n. generalize (@nil string). induction past as [|e past IH]; intros st.
  - cbn [app staging_run staging_step]. destruct (existsb (String.eqb n) st) eqn:E; rewrite staging_kept; try reflexivity.
    + apply existsb_exists in E. destruct E as (x & I & Q). apply String.eqb_eq in Q. subst x. exact I.
    + apply in_or_app. right. left. reflexivity.
  - cbn [app staging_run]. destruct (staging_step st e) as [st' b]. rewrite IH. reflexivity.
Qed.
Print Assumptions c107_seen.
Theorem c107_databases_refuted : forall past between d d' n, d <> d' ->
  staging_run [] (past ++ CreateExternal d false n :: between ++ [See d' false n]) = staging_run [] (past ++ CreateExternal d false n :: between) ++ [true].
Proof.
  intros past between d d' n _. generalize (@nil string). induction past as [|e past IH]; intros st.
  - cbn [app staging_run staging_step]. destruct (existsb (String.eqb n) st) eqn:E; rewrite staging_kept; try reflexivity.
    + apply existsb_exists in E. destruct E as (x & I & Q). apply String.eqb_eq in Q. subst x. exact I.
    + apply in_or_app. right. left. reflexivity.
  - cbn [app staging_run]. destruct (staging_step st e) as [st' b]. rewrite IH. reflexivity.
Qed.
Print Assumptions c107_databases_refuted.
(* The name cannot be used in another database either *)
Theorem c107_name_refuted : forall d d' n, d <> d' -> staging_run [] [CreateExternal d false n; CreateExternal d' false n] = [true; false].
Proof. intros d d' n _. cbn. rewrite String.eqb_refl. reflexivity. Qed.
Print Assumptions c107_name_refuted.
Theorem c107_inline_refuted : forall past between d n, (forall e, In e (past ++ between) -> match e with CreateExternal _ false m => m <> n | _ => True end) ->
  forall d' i, staging_run [] (past ++ CreateExternal d true n :: between ++ [See d' i n]) = staging_run [] past ++ true :: staging_run (fold_left (fun st e => fst (staging_step st e)) past []) between ++ [false].
Proof.
  intros past between d n H d' i. assert (N : ~ In n (@nil string)) by (intros []). revert N. generalize (@nil string). induction past as [|e past IH]; intros st N.
  - cbn [app staging_run staging_step fold_left]. f_equal. cbn [app] in H. revert st N. induction between as [|e between IH]; intros st N.
    + cbn. destruct i; [reflexivity|]. f_equal. destruct (existsb (String.eqb n) st) eqn:E; [|reflexivity]. exfalso. apply existsb_exists in E. destruct E as (x & I & Q). apply String.eqb_eq in Q. subst x. contradiction.
    + cbn [app staging_run]. destruct (staging_step st e) as [st' b] eqn:S. cbn [app]. f_equal. apply IH; [intros x I; apply H; right; exact I|].
      pose proof (H e (or_introl eq_refl)) as He. destruct e as [x [] m|x [] m]; cbn [staging_step] in S; try (injection S as <- <-; exact N).
      destruct (existsb (String.eqb m) st); injection S as <- <-; [exact N|]. intros I. apply in_app_or in I. destruct I as [I|[I|[]]]; [contradiction|exact (He I)].
  - cbn [app staging_run fold_left]. destruct (staging_step st e) as [st' b] eqn:S. cbn [app fst]. f_equal. apply IH; [intros x I; apply H; right; exact I|].
    pose proof (H e (or_introl eq_refl)) as He. destruct e as [x [] m|x [] m]; cbn [staging_step] in S; try (injection S as <- <-; exact N).
    destruct (existsb (String.eqb m) st); injection S as <- <-; [exact N|]. intros I. apply in_app_or in I. destruct I as [I|[I|[]]]; [contradiction|exact (He I)].
Qed.
Print Assumptions c107_inline_refuted.
(* What is seen was created *)
Theorem c107_created : forall past d i n, staging_run [] (past ++ [See d i n]) = staging_run [] past ++ [true] -> i = false /\ exists d', In (CreateExternal d' false n) past.
Proof.
  assert (G : forall past d i n st, staging_run st (past ++ [See d i n]) = staging_run st past ++ [true] -> i = false /\ (In n st \/ exists d', In (CreateExternal d' false n) past)).
  { induction past as [|e past IH]; intros d i n st.
    - cbn. intros E. injection E as E. destruct i; [discriminate|]. apply existsb_exists in E. destruct E as (x & I & Q). apply String.eqb_eq in Q. subst x. split; [reflexivity|left; exact I].
    - cbn [app staging_run]. destruct (staging_step st e) as [st' b] eqn:S. cbn [app]. intros E. injection E as E. apply IH in E. destruct E as [-> E]. split; [reflexivity|].
      destruct E as [I|(d' & I)]; [|right; exists d'; right; exact I]. destruct e as [x [] m|x [] m]; cbn [staging_step] in S; try (injection S as <- <-; left; exact I).
      destruct (existsb (String.eqb m) st); injection S as <- <-; [left; exact I|]. apply in_app_or in I. destruct I as [I|[I|[]]]; [left; exact I|right; exists x; left; congruence]. }
  intros past d i n E. apply G in E. destruct E as [-> [[]|E]]. split; [reflexivity|exact E].
Qed.
Print Assumptions c107_created.
Example c107_example : staging_run [] [See "a" false "x"; CreateExternal "a" false "x"; See "a" false "x"; See "b" false "x"; CreateExternal "b" false "x"; CreateExternal "a" true "y"; See "a" true "y"; See "a" false "y"] =
  [false; true; true; true; false; true; false; false].
Proof. reflexivity. Qed.

(* ---- C108 ---- *)
Lemma sync_app s l m : sync_run s (l ++ m) = let '(s1, a) := sync_run s l in let '(s2, b) := sync_run s1 m in (s2, a ++ b).
Proof.
  revert s. induction l as [|e l IH]; intros s; [cbn; destruct (sync_run s m); reflexivity|]. cbn [app sync_run]. destruct (sync_do s e) as [s1 o]. rewrite IH.
  destruct (sync_run s1 l) as [s2 a]. destruct (sync_run s2 m) as [s3 b]. destruct o; reflexivity.
Qed.
(* Once it is cleared, only commands that arrived before can report a restart *)
Definition quiet (s : flag_state) : Prop := first_sync s = false /\ forall q, stages s q <> Arrived true /\ stages s q <> Working true.
Lemma quiet_do s e : e <> Restart -> quiet s -> quiet (fst (sync_do s e)) /\ forall q, snd (sync_do s e) <> Some (q, true).
Proof.
  intros N [F S]. destruct e as [q|q|q|q|]; [| | | |contradiction]; cbn [sync_do]; pose proof (S q) as [S1 S2]; destruct (stages s q) as [|f|f] eqn:E; cbn [fst snd];
    (split; [split; [cbn [first_sync]; try (destruct f); auto|intros i; cbn [stages]; unfold at_; try (destruct (Nat.eqb i q)); try apply S; rewrite ?F; split; congruence]|try (intros i; congruence)]).
Qed.
Lemma quiet_run l : forall s, ~ In Restart l -> quiet s -> quiet (fst (sync_run s l)) /\ forall q, ~ In (q, true) (snd (sync_run s l)).
Proof.
  induction l as [|e l IH]; intros s N Q; [split; [exact Q|intros q []]|]. cbn [sync_run]. destruct (quiet_do s e) as [Q1 Q2]; [intros ->; apply N; left; reflexivity|exact Q|].
  destruct (sync_do s e) as [s1 o]. cbn [fst snd] in *. specialize (IH s1). destruct (sync_run s1 l) as [s2 a]. cbn [fst snd] in *. destruct IH as [A B]; [intros I; apply N; right; exact I|exact Q1|].
  split; [exact A|]. intros q I. destruct o as [x|]; [|exact (B q I)]. destruct I as [I|I]; [exact (Q2 q (f_equal Some I))|exact (B q I)].
Qed.
Lemma answers_quiet cs s : quiet s -> (forall q, stages s q = Idle) -> snd (sync_run s (flat_map steps_of cs)) = map (fun q => (q, false)) (answered cs).
Proof.
  revert s. induction cs as [|c cs IH]; intros s Q Id; [reflexivity|]. destruct Q as [F S]. destruct c as [q|q]; cbn [flat_map steps_of app sync_run sync_do]; rewrite Id; cbn [stages]; unfold at_ at 1; rewrite Nat.eqb_refl; cbn [stages];
    unfold at_ at 1; rewrite Nat.eqb_refl, F; cbn [first_sync].
  all: match goal with |- context [sync_run ?x ?l] => set (s1 := x) end; specialize (IH s1); destruct (sync_run s1 (flat_map steps_of cs)) as [s2 a]; cbn [snd answered flat_map map app] in *.
  all: assert (Id1 : forall i, stages s1 i = Idle) by (intros i; subst s1; cbn [stages]; unfold at_; cbn [stages]; destruct (Nat.eqb i q) eqn:E; [reflexivity|]; cbn; rewrite ?E; apply Id).
  all: rewrite IH; [reflexivity|split; [reflexivity|intros i; rewrite Id1; split; discriminate]|exact Id1].
Qed.
(* Commands one after the other: if the first one after a restart is answered, its answer and no other one reports the restart *)
Theorem c108_partial : forall past q cs, snd (sync_run start (past ++ Restart :: flat_map steps_of (Answered q :: cs))) =
  snd (sync_run start past) ++ (q, true) :: map (fun q => (q, false)) (answered cs).
Proof.
  intros past q cs. rewrite sync_app. destruct (sync_run start past) as [s a]. cbn [sync_run sync_do flat_map steps_of app stages start]. unfold at_ at 1. rewrite Nat.eqb_refl. cbn [stages]. unfold at_ at 1. rewrite Nat.eqb_refl. cbn [first_sync start].
  match goal with |- context [sync_run ?x (flat_map steps_of cs)] => set (s1 := x) end.
  assert (Id1 : forall i, stages s1 i = Idle) by (intros i; subst s1; cbn [stages]; unfold at_; cbn [stages start]; destruct (Nat.eqb i q) eqn:E; [reflexivity|]; cbn; rewrite ?E; reflexivity).
  assert (Q1 : quiet s1) by (split; [reflexivity|intros i; rewrite Id1; split; discriminate]).
  pose proof (answers_quiet cs s1 Q1 Id1) as A. destruct (sync_run s1 (flat_map steps_of cs)) as [s2 b]. cbn [snd] in *. rewrite A. reflexivity.
Qed.
Print Assumptions c108_partial.
(* If the first command after a restart ends with an error, the restart is never reported, whatever follows *)
Theorem c108_error_refuted : forall past q l, ~ In Restart l -> forall r, ~ In (r, true) (snd (sync_run start (Restart :: [Arrive q; Clear q; Error q] ++ l))) /\
  (forall x, In x (snd (sync_run start (past ++ Restart :: [Arrive q; Clear q; Error q] ++ l))) -> In x (snd (sync_run start past)) \/ snd x = false).
Proof.
  intros past q l N r. assert (H : forall s, exists s1, quiet s1 /\ sync_run s (Restart :: [Arrive q; Clear q; Error q] ++ l) = sync_run s1 l).
  { intros s. cbn [app sync_run sync_do stages start]. unfold at_ at 1. rewrite Nat.eqb_refl. cbn [stages]. unfold at_ at 1. rewrite Nat.eqb_refl. cbn [first_sync start].
    match goal with |- context [sync_run ?x l] => exists x end. split; [|match goal with |- context [sync_run ?x l] => destruct (sync_run x l) end; reflexivity].
    split; [reflexivity|]. intros i. cbn [stages]. unfold at_. cbn [stages start]. destruct (Nat.eqb i q) eqn:E; [split; discriminate|]. cbn. rewrite ?E. split; discriminate. }
  split.
  - destruct (H start) as (s1 & Q & ->). apply (quiet_run l s1 N Q).
  - intros [i f]. rewrite sync_app. destruct (sync_run start past) as [s a]. destruct (H s) as (s1 & Q & ->). destruct (quiet_run l s1 N Q) as [_ B]. destruct (sync_run s1 l) as [s2 b]. cbn [snd] in *.
    intros I. apply in_app_or in I. destruct I as [I|I]; [left; exact I|]. destruct f; [exfalso; exact (B i I)|right; reflexivity].
Qed.
Print Assumptions c108_error_refuted.
(* Two commands at the same time both report the restart *)
Theorem c108_overlap_refuted : forall past q r, q <> r ->
  snd (sync_run start (past ++ [Restart; Arrive q; Arrive r; Clear q; Clear r; Respond q; Respond r])) = snd (sync_run start past) ++ [(q, true); (r, true)].
Proof.
  intros past q r N. apply Nat.eqb_neq in N. pose proof N as M. rewrite Nat.eqb_sym in M. rewrite sync_app. destruct (sync_run start past) as [s a].
  repeat (cbn [sync_run sync_do stages start first_sync snd]; unfold at_; rewrite ?Nat.eqb_refl, ?N, ?M). reflexivity.
Qed.
Print Assumptions c108_overlap_refuted.
(* In every schedule: a command that arrives after an answer does not report the restart again *)
Definition cleared (s : flag_state) : Prop := first_sync s = true -> forall q, stages s q = Idle \/ stages s q = Arrived true.
Lemma cleared_do s e : cleared s -> cleared (fst (sync_do s e)).
Proof.
  intros Cl. destruct e as [q|q|q|q|]; cbn [sync_do]; try (destruct (stages s q) as [|f|f] eqn:E); try exact Cl; cbn [fst]; intros F i; cbn [stages first_sync] in *; unfold at_; try (destruct (Nat.eqb i q)); auto.
  - rewrite F. right. reflexivity.
  - destruct f; [discriminate|]. destruct (Cl F q); congruence.
  - destruct f; [discriminate|]. apply Cl. exact F.
Qed.
Lemma cleared_run l : forall s, cleared s -> cleared (fst (sync_run s l)).
Proof.
  induction l as [|e l IH]; intros s Cl; [exact Cl|]. cbn [sync_run]. pose proof (cleared_do s e Cl) as C1. destruct (sync_do s e) as [s1 o]. specialize (IH s1 C1). destruct (sync_run s1 l). exact IH.
Qed.
Definition silent (q : nat) (s : flag_state) : Prop := first_sync s = false /\ stages s q <> Arrived true /\ stages s q <> Working true.
Lemma silent_do q s e : e <> Restart -> silent q s -> silent q (fst (sync_do s e)) /\ snd (sync_do s e) <> Some (q, true).
Proof.
  intros N (F & S1 & S2). destruct e as [i|i|i|i|]; [| | | |contradiction]; cbn [sync_do]; destruct (stages s i) as [|f|f] eqn:E; cbn [fst snd]; (split; [|try congruence]).
  all: try (intros X; injection X as -> ->; congruence).
  all: split; [cbn [first_sync]; try (destruct f); auto|]; cbn [stages]; unfold at_; try (destruct (Nat.eqb q i) eqn:Q; [apply Nat.eqb_eq in Q; subst i|]); rewrite ?F; split; congruence.
Qed.
Lemma silent_run q l : forall s, ~ In Restart l -> silent q s -> ~ In (q, true) (snd (sync_run s l)).
Proof.
  induction l as [|e l IH]; intros s N S; [intros []|]. cbn [sync_run]. destruct (silent_do q s e) as [A B]; [intros ->; apply N; left; reflexivity|exact S|]. destruct (sync_do s e) as [s1 o]. cbn [fst snd] in *.
  assert (N1 : ~ In Restart l) by (intros I; apply N; right; exact I). specialize (IH s1 N1 A). destruct (sync_run s1 l) as [s2 a]. cbn [snd] in *. destruct o as [x|]; [|exact IH].
  intros [I|I]; [apply B; congruence|exact (IH I)].
Qed.
Lemma flag_stays l : forall s, ~ In Restart l -> first_sync s = false -> first_sync (fst (sync_run s l)) = false.
Proof.
  induction l as [|e l IH]; intros s N F; [exact F|]. cbn [sync_run]. assert (F1 : first_sync (fst (sync_do s e)) = false).
  { destruct e as [q|q|q|q|]; cbn [sync_do]; try (destruct (stages s q) as [|f|f]); cbn; try exact F; [destruct f; [reflexivity|exact F]|exfalso; apply N; left; reflexivity]. }
  destruct (sync_do s e) as [s1 o]. specialize (IH s1 (fun I => N (or_intror I)) F1). destruct (sync_run s1 l). exact IH.
Qed.
Theorem c108_later_partial : forall past q f between r after,
  snd (sync_do (fst (sync_run start past)) (Respond q)) = Some (q, f) -> ~ In Restart between -> ~ In Restart after ->
  let s := fst (sync_run start (past ++ Respond q :: between)) in
  stages s r = Idle -> ~ In (r, true) (snd (sync_run s (Arrive r :: after))).
Proof.
  intros past q f between r after A Nb Na. pose proof (cleared_run past start) as Cl. rewrite sync_app. destruct (sync_run start past) as [s0 a]. cbn [fst snd] in *.
  assert (F : first_sync s0 = false).
  { assert (W : stages s0 q = Working f) by (cbn [sync_do] in A; destruct (stages s0 q); [discriminate|discriminate|injection A as ->; reflexivity]).
    destruct (first_sync s0) eqn:E; [|reflexivity]. destruct (Cl (fun _ _ => or_introl eq_refl) E q); congruence. }
  cbn [sync_run sync_do]. set (d := match stages s0 q with Working _ => _ | _ => _ end).
  assert (Fd : first_sync (fst d) = false) by (subst d; destruct (stages s0 q); exact F). destruct d as [s1 o]. cbn [fst] in Fd. pose proof (flag_stays between s1 Nb Fd) as F2.
  destruct (sync_run s1 between) as [s2 b]. cbn [fst] in *. intros Id. rewrite Id. rewrite F2.
  match goal with |- context [sync_run ?x after] => set (s3 := x) end. pose proof (silent_run r after s3 Na) as S. destruct (sync_run s3 after) as [s4 c]. cbn [snd] in *. apply S.
  subst s3. split; [reflexivity|]. cbn [stages]. unfold at_. rewrite Nat.eqb_refl. split; discriminate.
Qed.
Print Assumptions c108_later_partial.
Example c108_example : snd (sync_run start (Restart :: flat_map steps_of [Answered 3; Erred 4; Answered 5])) = [(3, true); (5, false)] /\
  snd (sync_run start (Restart :: flat_map steps_of [Erred 3; Answered 4])) = [(4, false)] /\
  snd (sync_run start [Arrive 1; Arrive 2; Clear 1; Respond 1; Arrive 3; Clear 3; Clear 2; Respond 3; Respond 2]) = [(1, true); (3, false); (2, true)].
Proof. repeat apply conj; reflexivity. Qed.
