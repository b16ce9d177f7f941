(* C124 (refused statements on a catalog that is managed elsewhere) and C125 (where writes to its tables go). Specification: ExtSpec.v, model: ExtModel.v. *)
From Coq Require Import String List Bool Arith Lia.
From Verif Require Import ExtModel ExtSpec.
Import ListNotations.
Open Scope list_scope.

Section Ext.
  Context {row : Type} {prefix : list string} {uuid : Type} {parse : string -> option uuid} {print : uuid -> string}.
  Notation home := (ExtModel.home prefix uuid print).
  Notation run := (ExtModel.run row prefix uuid parse print).
  Notation uuid_of := (ExtModel.uuid_of uuid parse).
  Notation lake := (ExtModel.lake row).
  Notation session := (ExtModel.session row).
  Notation data := (ExtModel.data row).
  Notation log := (ExtModel.log row).
  Notation objects := (ExtModel.objects row).

  Lemma set_same {A} (f : place -> A) p x : set f p x p = x.
  Proof. unfold set. destruct (place_dec p p); congruence. Qed.
  Lemma set_other {A} (f : place -> A) p q x : q <> p -> set f p x q = f q.
  Proof. unfold set. intros N. destruct (place_dec q p); congruence. Qed.

  (* ---- Reading ---- *)
  Lemma object_stored (l : lake) p f r : object row l p f = Some r <-> stored l p f r.
  Proof.
    unfold object, stored. generalize (objects l p). intros os. induction os as [|[g x] os IH]; cbn [find fst].
    - split; [discriminate|]. intros (a & b & E & _). destruct a; discriminate.
    - destruct (Nat.eqb_spec g f) as [->|N]; cbn [snd].
      + split; [intros E; injection E as ->; exists [], os; split; [reflexivity|intros r' []]|]. intros (a & b & E & F). destruct a as [|y a]; cbn [app] in E; [injection E as -> _; reflexivity|].
        injection E as <- _. exfalso. apply (F x). left. reflexivity.
      + rewrite IH. split; intros (a & b & E & F).
        * exists ((g, x) :: a), b. split; [rewrite E; reflexivity|]. intros r' [I|I]; [injection I as -> _; apply N; reflexivity|exact (F r' I)].
        * destruct a as [|y a]; cbn [app] in E; [injection E as -> _; contradiction|]. injection E as _ E. exists a, b. split; [exact E|]. intros r' I. apply (F r'). right. exact I.
  Qed.
  Lemma read_files_parts (l : lake) p fs rows : read_files row l p fs = Some rows <-> exists parts, Forall2 (stored l p) fs parts /\ rows = concat parts.
  Proof.
    revert rows. induction fs as [|f fs IH]; intros rows; cbn [read_files].
    - split; [intros E; injection E as <-; exists []; split; [constructor|reflexivity]|]. intros (parts & F & ->). inversion F. reflexivity.
    - split.
      + destruct (object row l p f) as [r|] eqn:O; [|discriminate]. destruct (read_files row l p fs) as [rs|]; [|discriminate]. intros E. injection E as <-.
        destruct (IH rs) as [H _]. destruct (H eq_refl) as (parts & F & ->). exists (r :: parts). split; [constructor; [apply object_stored; exact O|exact F]|reflexivity].
      + intros (parts & F & ->). inversion F as [|? r ? ps S F' E1 E2]; subst. apply object_stored in S. rewrite S. destruct (IH (concat ps)) as [_ H]. rewrite H; [reflexivity|]. exists ps. split; [exact F'|reflexivity].
  Qed.
  Lemma read_holds (l : lake) p rows : read row l p = Some rows <-> holds l p rows.
  Proof.
    unfold read, holds. destruct (log l p) as [fs|].
    - rewrite read_files_parts. split; [intros (parts & H); exists fs, parts; split; [reflexivity|exact H]|]. intros (files & parts & E & H). injection E as <-. exists parts. exact H.
    - split; [discriminate|]. intros (files & parts & E & _). discriminate.
  Qed.
  (* A directory whose files and log are the same holds the same *)
  Lemma holds_local (l m : lake) q rows : objects l q = objects m q -> log l q = log m q -> (holds l q rows <-> holds m q rows).
  Proof. intros O L. unfold holds, stored. rewrite O, L. reflexivity. Qed.
  Lemma stored_put (l : lake) p f r g x : g <> f -> stored l p g x -> stored (put_object row l p f r) p g x.
  Proof.
    intros N (a & b & E & F). unfold stored, put_object. cbn [ExtModel.objects]. rewrite set_same. exists ((f, r) :: a), b. rewrite E. split; [reflexivity|].
    intros r' [I|I]; [injection I as -> _; apply N; reflexivity|exact (F r' I)].
  Qed.
  Lemma stored_new (l : lake) p f r : stored (put_object row l p f r) p f r.
  Proof. unfold stored, put_object. cbn [ExtModel.objects]. rewrite set_same. exists [], (objects l p). split; [reflexivity|intros r' []]. Qed.
  Lemma stored_in (l : lake) p f r : stored l p f r -> In (f, r) (objects l p).
  Proof. intros (a & b & E & _). rewrite E. apply in_or_app. right. left. reflexivity. Qed.
  Lemma stored_commit (l : lake) p fs q f r : stored (commit row l p fs) q f r <-> stored l q f r.
  Proof. reflexivity. Qed.
  Lemma holds_replaced (l : lake) p f r : holds (commit row (put_object row l p f r) p [f]) p r.
  Proof.
    exists [f], [r]. split; [cbn [ExtModel.log commit]; apply set_same|]. split; [|cbn [concat]; rewrite app_nil_r; reflexivity]. constructor; [|constructor].
    apply stored_commit, stored_new.
  Qed.
  Lemma holds_emptied (l : lake) p : holds (commit row l p []) p [].
  Proof. exists [], []. split; [cbn [ExtModel.log commit]; apply set_same|]. split; [constructor|reflexivity]. Qed.
  Lemma holds_appended (l : lake) p f r files old : log l p = Some files -> read_files row l p files = Some old -> no_file l p f ->
    holds (commit row (put_object row l p f r) p (files ++ [f])) p (old ++ r).
  Proof.
    intros L R N. apply read_files_parts in R. destruct R as (parts & F & ->). exists (files ++ [f]), (parts ++ [r]). split; [cbn [ExtModel.log commit]; apply set_same|]. split.
    - apply Forall2_app; [|constructor; [apply stored_commit, stored_new|constructor]]. clear L. induction F as [|g x gs xs S F IH]; [constructor|]. constructor; [|exact IH].
      apply stored_commit, stored_put; [|exact S]. intros ->. exact (N x (stored_in _ _ _ _ S)).
    - rewrite concat_app. cbn [concat]. rewrite app_nil_r. reflexivity.
  Qed.

  (* ---- The catalog ---- *)
  Lemma find_listed (s : session) schema table p : unique s -> (find_table row s schema table = Some p <-> lists s schema table p).
  Proof.
    unfold unique, lists, find_table. generalize (catalog row s). intros c U. induction c as [|[[a b] q] c IH]; cbn [find fst snd].
    - split; [discriminate|intros []].
    - cbn [map fst] in U. apply NoDup_cons_iff in U. destruct U as [U V]. destruct (String.eqb_spec a schema) as [->|N]; cbn [andb].
      + destruct (String.eqb_spec b table) as [->|N]; cbn [snd].
        * split; [intros E; injection E as ->; left; reflexivity|]. intros [I|I]; [injection I as ->; reflexivity|]. exfalso. apply U. exact (in_map fst _ _ I).
        * rewrite (IH V). split; [right; assumption|]. intros [I|I]; [injection I as E _; contradiction|exact I].
      + rewrite (IH V). split; [right; assumption|]. intros [I|I]; [injection I as E _; contradiction|exact I].
  Qed.
  Lemma provider_listed (s : session) schema table p rows : unique s -> lists s schema table p -> holds (data s) p rows ->
    exists fs, provider row s schema table = Some (p, fs) /\ log (data s) p = Some fs /\ read_files row (data s) p fs = Some rows.
  Proof.
    intros U L H. apply (find_listed s schema table p U) in L. apply read_holds in H. unfold provider, read in *. rewrite L. destruct (log (data s) p) as [fs|] eqn:E; [|discriminate].
    exists fs. split; [reflexivity|]. split; [reflexivity|exact H].
  Qed.
  Lemma provider_inv (s : session) schema table p fs : unique s -> provider row s schema table = Some (p, fs) -> lists s schema table p /\ log (data s) p = Some fs.
  Proof.
    intros U. unfold provider. destruct (find_table row s schema table) as [q|] eqn:F; [|discriminate]. destruct (log (data s) q) eqn:E; [|discriminate]. intros X. injection X as -> ->.
    split; [apply (find_listed s schema table p U); exact F|exact E].
  Qed.
  Lemma uuid_named p name : named p name -> uuid_of p = parse name.
  Proof. intros [d E]. unfold ExtModel.uuid_of. rewrite E, rev_app_distr. reflexivity. Qed.
  Lemma uuid_home u : readable_names parse print -> uuid_of (home u) = Some u.
  Proof. intros R. rewrite (uuid_named _ (print u)); [apply R|]. exists prefix. reflexivity. Qed.

  (* ---- C124: statements that are refused ---- *)
  (* Everything but TRUNCATE is refused (VACUUM DATABASE does nothing) *)
  Theorem c124_refused : forall (s : session) x, snd (run s x) = Refused \/ (exists schema table, x = Truncate _ schema table) \/ x = VacuumDatabase _ /\ fst (run s x) = s.
  Proof.
    intros s x. destruct x as [sc t rows f|sc t g f|sc t c f|sc t|sc t|sc|sc t|n| |]; cbn [ExtModel.run]; try (right; left; exists sc, t; reflexivity); try (left; reflexivity); try (right; right; split; reflexivity).
    - left. destruct (provider row s sc t) as [[p fs]|]; [|reflexivity]. destruct (uuid_of p); [|reflexivity]. destruct (configured row s); [|reflexivity]. destruct (log _ (home u)); reflexivity.
    - left. destruct (configured row s); [|reflexivity]. destruct (provider row s sc t) as [[p fs]|]; [|reflexivity]. destruct (uuid_of p); [|reflexivity]. destruct fs; [reflexivity|]. destruct (read row (data s) p); reflexivity.
    - left. destruct (configured row s); [|reflexivity]. destruct (provider row s sc t) as [[p fs]|]; [|reflexivity]. destruct (uuid_of p); [|reflexivity]. destruct c; [|reflexivity]. destruct fs; [reflexivity|]. destruct (read row (data s) p); reflexivity.
    - left. destruct (provider row s sc t) as [[p fs]|]; reflexivity.
    - left. destruct (find _ (catalog row s)) as [[[a t] z]|]; [|reflexivity]. destruct (provider row s sc t) as [[p fs]|]; reflexivity.
    - left. destruct (provider row s sc t) as [[p fs]|]; reflexivity.
  Qed.
  (* What names no table of the catalog changes nothing; CREATE FUNCTION aside *)
  Theorem c124_no_table_partial : forall (s : session) x, unique s -> (forall schema table p, names x schema table -> ~ lists s schema table p) -> (forall n, x <> CreateFunction _ n) -> fst (run s x) = s.
  Proof.
    intros s x U N C. assert (P : forall sc t, (forall p, ~ lists s sc t p) -> provider row s sc t = None).
    { intros sc t H. unfold provider. destruct (find_table row s sc t) as [p|] eqn:F; [|reflexivity]. apply (find_listed s sc t p U) in F. destruct (H p F). }
    destruct x as [sc t rows f|sc t g f|sc t c f|sc t|sc t|sc|sc t|n| |]; cbn [ExtModel.run]; try reflexivity; try (rewrite (P sc t) by (intros p; apply N; split; reflexivity)); try (destruct (configured row s); reflexivity); try reflexivity.
    - destruct (find _ (catalog row s)) as [[[a t] q]|] eqn:F; [|reflexivity]. apply find_some in F. destruct F as [I E]. cbn [fst] in E. apply String.eqb_eq in E. subst a. destruct (N sc t q eq_refl I).
    - destruct (C n eq_refl).
  Qed.
  (* Writes to a table whose directory is not called by a UUID change nothing *)
  Theorem c124_plain_name_partial : forall (s : session) x schema table p name, unique s -> writes x schema table -> lists s schema table p -> named p name -> parse name = None -> run s x = (s, Refused).
  Proof.
    intros s x sc0 t0 p name U W L N E. assert (P : forall q fs, provider row s sc0 t0 = Some (q, fs) -> uuid_of q = None).
    { intros q fs H. apply (provider_inv s sc0 t0 q fs U) in H. destruct H as [H _]. apply (find_listed s sc0 t0 _ U) in H, L. rewrite H in L. injection L as ->. rewrite (uuid_named p name N). exact E. }
    destruct x as [sc t rows f|sc t g f|sc t c f|sc t|sc t|sc|sc t|n| |]; cbn [writes] in W; try contradiction; destruct W as [-> ->]; cbn [ExtModel.run].
    - destruct (provider row s sc0 t0) as [[q fs]|]; [|reflexivity]. rewrite (P q fs eq_refl). reflexivity.
    - destruct (configured row s); [|reflexivity]. destruct (provider row s sc0 t0) as [[q fs]|]; [|reflexivity]. rewrite (P q fs eq_refl). reflexivity.
    - destruct (configured row s); [|reflexivity]. destruct (provider row s sc0 t0) as [[q fs]|]; [|reflexivity]. rewrite (P q fs eq_refl). reflexivity.
  Qed.
  (* In the directory of a UUID in the configured store the write is applied in full, though it is refused *)
  Theorem c124_write_refuted : forall (s : session) x schema table u old new, readable_names parse print -> unique s -> configured row s = true -> lists s schema table (home u) -> holds (data s) (home u) old ->
    writes x schema table -> (forall f, new_file x = Some f -> no_file (data s) (home u) f) -> asks schema table x old new -> snd (run s x) = Refused /\ holds (data (fst (run s x))) (home u) new.
  Proof.
    intros s x sc t u old new R U C L H W F A. destruct (provider_listed s sc t _ _ U L H) as (fs & P & G & Q). pose proof (uuid_home u R) as V. pose proof H as H'. apply read_holds in H'.
    destruct A as [old rows f|old g f|old c f|old f|old]; cbn [ExtModel.run writes] in *; try contradiction; rewrite ?C, P, V.
    - cbn zeta. assert (G' : log (put_object row (data s) (home u) f rows) (home u) = Some fs) by exact G. rewrite G'. cbn [fst snd with_data ExtModel.data]. split; [reflexivity|].
      apply holds_appended; [exact G|exact Q|]. apply F. reflexivity.
    - rewrite H'. destruct fs as [|f0 fs]; cbn [fst snd with_data ExtModel.data]; (split; [reflexivity|]); [|apply holds_replaced]. cbn [read_files] in Q. injection Q as <-. apply holds_emptied.
    - rewrite H'. destruct fs as [|f0 fs]; cbn [fst snd with_data ExtModel.data]; (split; [reflexivity|]); [|apply holds_replaced]. cbn [read_files] in Q. injection Q as <-. apply holds_emptied.
    - cbn [fst snd with_data ExtModel.data]. split; [reflexivity|]. apply holds_emptied.
  Qed.
  (* An INSERT that is tried again whenever it is refused: the rows are there as many times *)
  Theorem c124_retry_refuted : forall files (s : session) schema table u old rows, readable_names parse print -> unique s -> configured row s = true -> lists s schema table (home u) -> holds (data s) (home u) old ->
    NoDup files -> (forall f, In f files -> no_file (data s) (home u) f) ->
    holds (data (fold_left (fun s f => fst (run s (Insert _ schema table rows f))) files s)) (home u) (old ++ concat (repeat rows (length files))).
  Proof.
    induction files as [|f files IH]; intros s sc t u old rows R U C L H D N; cbn [fold_left length repeat concat]; [rewrite app_nil_r; exact H|]. apply NoDup_cons_iff in D. destruct D as [D D'].
    destruct (c124_write_refuted s (Insert _ sc t rows f) sc t u old (old ++ rows) R U C L H) as [_ K]; [split; reflexivity| |constructor|]. { intros g E. cbn [new_file] in E. injection E as <-. apply N. left. reflexivity. }
    rewrite app_assoc. assert (X : exists l, fst (run s (Insert _ sc t rows f)) = with_data row s l /\ objects l (home u) = (f, rows) :: objects (data s) (home u)).
    { cbn [ExtModel.run]. destruct (provider_listed s sc t _ _ U L H) as (fs & P & G & _). rewrite P, (uuid_home u R), C. cbn zeta. assert (G' : log (put_object row (data s) (home u) f rows) (home u) = Some fs) by exact G. rewrite G'.
      cbn [fst]. eexists. split; [reflexivity|]. cbn [commit put_object ExtModel.objects]. apply set_same. }
    destruct X as (l & X & O). rewrite X in *. apply IH; try assumption.
    intros g I r J. cbn [with_data ExtModel.data] in J. rewrite O in J. destruct J as [J|J]; [injection J as -> _; contradiction|]. exact (N g (or_intror I) r J).
  Qed.
  (* DROP TABLE is refused and the table is gone with all its files *)
  Lemma deleted (l : lake) p : unreadable (delete_all row l p) p /\ objects (delete_all row l p) p = [].
  Proof.
    split; [|unfold delete_all; cbn [ExtModel.objects]; apply set_same]. intros rows (fs & parts & E & _). unfold delete_all in E. cbn [ExtModel.log] in E. rewrite set_same in E. discriminate.
  Qed.
  Theorem c124_drop_refuted : forall (s : session) schema table p rows, unique s -> lists s schema table p -> holds (data s) p rows ->
    let (s', a) := run s (DropTable _ schema table) in a = Refused /\ lists s' schema table p /\ unreadable (data s') p /\ objects (data s') p = [].
  Proof.
    intros s sc t p rows U L H. destruct (provider_listed s sc t _ _ U L H) as (fs & P & _). cbn [ExtModel.run]. rewrite P. split; [reflexivity|]. split; [exact L|]. apply deleted.
  Qed.
  (* DROP SCHEMA is refused and one of its tables is gone *)
  Theorem c124_drop_schema_refuted : forall (s : session) schema, unique s -> (exists table p, lists s schema table p) -> (forall table p, lists s schema table p -> exists rows, holds (data s) p rows) ->
    let (s', a) := run s (DropSchema _ schema) in a = Refused /\ exists table p, lists s' schema table p /\ unreadable (data s') p /\ objects (data s') p = [].
  Proof.
    intros s sc U (t0 & p0 & L0) A. cbn [ExtModel.run]. destruct (find (fun e => String.eqb (fst (fst e)) sc) (catalog row s)) as [[[a t] q]|] eqn:F.
    - apply find_some in F. destruct F as [I E]. cbn [fst] in E. apply String.eqb_eq in E. subst a. destruct (A t q I) as [rows H]. destruct (provider_listed s sc t q rows U I H) as (fs & P & _). rewrite P.
      split; [reflexivity|]. exists t, q. split; [exact I|]. apply deleted.
    - exfalso. pose proof (find_none _ _ F _ L0) as X. cbn [fst] in X. rewrite String.eqb_refl in X. discriminate.
  Qed.
  (* VACUUM TABLE is refused and the files of older versions are gone; the rows of the table stay *)
  Theorem c124_vacuum_refuted : forall (s : session) schema table p rows f, unique s -> lists s schema table p -> holds (data s) p rows -> In f (tombstones row (data s) p) ->
    (forall fs, log (data s) p = Some fs -> ~ In f fs) -> let (s', a) := run s (Vacuum _ schema table) in a = Refused /\ no_file (data s') p f.
  Proof.
    intros s sc t p rows f U L H T N. destruct (provider_listed s sc t _ _ U L H) as (fs & P & G & _). cbn [ExtModel.run]. rewrite P. split; [reflexivity|]. intros r I. cbn [with_data ExtModel.data ExtModel.objects] in I. rewrite set_same in I.
    apply filter_In in I. destruct I as [_ I]. cbn [fst] in I. apply orb_true_iff in I. destruct I as [I|I].
    - apply existsb_exists in I. destruct I as (g & I & E). apply Nat.eqb_eq in E. subst g. exact (N fs G I).
    - apply negb_true_iff in I. assert (X : existsb (Nat.eqb f) (tombstones row (data s) p) = true) by (apply existsb_exists; exists f; split; [exact T|apply Nat.eqb_refl]). congruence.
  Qed.
  Lemma stored_vacuumed (os : list (nat * list row)) (keep : nat -> bool) f r : keep f = true ->
    (exists a b, os = a ++ (f, r) :: b /\ forall r', ~ In (f, r') a) -> exists a b, filter (fun o => keep (fst o)) os = a ++ (f, r) :: b /\ forall r', ~ In (f, r') a.
  Proof.
    intros K (a & b & -> & F). exists (filter (fun o => keep (fst o)) a), (filter (fun o => keep (fst o)) b). split.
    - rewrite filter_app. cbn [filter fst]. rewrite K. reflexivity.
    - intros r' I. apply filter_In in I. exact (F r' (proj1 I)).
  Qed.
  Theorem c124_vacuum_keeps_partial : forall (s : session) schema table q rows, unique s -> holds (data s) q rows -> holds (data (fst (run s (Vacuum _ schema table)))) q rows.
  Proof.
    intros s sc t q rows U H. cbn [ExtModel.run]. destruct (provider row s sc t) as [[p fs]|] eqn:P; [|exact H]. apply (provider_inv s sc t p fs U) in P. destruct P as [_ G]. cbn [fst with_data ExtModel.data].
    destruct (place_dec q p) as [->|N]; [|revert H; apply holds_local; cbn [ExtModel.objects ExtModel.log]; rewrite ?set_other by exact N; reflexivity].
    destruct H as (files & parts & E & F & R). rewrite G in E. injection E as <-. exists fs, parts. split; [exact G|]. split; [|exact R]. clear R. assert (K : forall f, In f fs -> existsb (Nat.eqb f) fs = true) by (intros f I; apply existsb_exists; exists f; split; [exact I|apply Nat.eqb_refl]).
    match goal with |- Forall2 (stored ?m p) _ _ => set (l' := m) end.
    assert (A : forall gs, (forall g, In g gs -> In g fs) -> forall ps, Forall2 (stored (data s) p) gs ps -> Forall2 (stored l' p) gs ps).
    { clear F. intros gs I ps F. induction F as [|f r gs rs S F IH]; [constructor|]. constructor; [|apply IH; intros g J; apply I; right; exact J].
      unfold stored, l'. cbn [ExtModel.objects]. rewrite set_same. apply (stored_vacuumed _ (fun g => (existsb (Nat.eqb g) fs || negb (existsb (Nat.eqb g) (tombstones row (data s) p)))%bool)); [|exact S].
      rewrite K by (apply I; left; reflexivity). reflexivity. }
    apply A; [intros g I; exact I|exact F].
  Qed.
  (* CREATE FUNCTION is refused and the function can be called *)
  Theorem c124_function_refuted : forall (s : session) name, let (s', a) := run s (CreateFunction _ name) in a = Refused /\ In name (functions row s').
  Proof. intros s n. split; [reflexivity|]. left. reflexivity. Qed.
  (* TRUNCATE is not refused, and it does what it says *)
  Theorem c124_truncate : forall (s : session) schema table p rows, unique s -> lists s schema table p -> holds (data s) p rows -> snd (run s (Truncate _ schema table)) = Done /\ holds (data (fst (run s (Truncate _ schema table)))) p [].
  Proof.
    intros s sc t p rows U L H. destruct (provider_listed s sc t _ _ U L H) as (fs & P & _). cbn [ExtModel.run]. rewrite P. cbn [fst snd with_data ExtModel.data]. split; [reflexivity|]. apply holds_emptied.
  Qed.

  (* ---- C125: where writes go ---- *)
  (* If the tables with UUIDs for names are those of the configured store, a statement changes no directory but that of the table that it names *)
  Theorem c125_others_partial : forall (s : session) x q rows, unique s -> (forall schema table p u, lists s schema table p -> uuid_of p = Some u -> p = home u) ->
    (forall schema table, names x schema table -> ~ lists s schema table q) -> (holds (data (fst (run s x))) q rows <-> holds (data s) q rows).
  Proof.
    intros s x q rows U T N.
    assert (P : forall sc t p fs, names x sc t -> provider row s sc t = Some (p, fs) -> q <> p).
    { intros sc t p fs A H ->. apply (provider_inv s sc t p fs U) in H. destruct H as [H _]. exact (N sc t A H). }
    assert (V : forall sc t p fs u, provider row s sc t = Some (p, fs) -> uuid_of p = Some u -> p = home u).
    { intros sc t p fs u H E. apply (provider_inv s sc t p fs U) in H. destruct H as [H _]. exact (T sc t p u H E). }
    destruct x as [sc t ins f|sc t g f|sc t c f|sc t|sc t|sc|sc t|n| |]; cbn [ExtModel.run names] in *; try reflexivity.
    - destruct (provider row s sc t) as [[p fs]|] eqn:E; [|reflexivity]. destruct (uuid_of p) as [u|] eqn:W; [|reflexivity]. destruct (configured row s); [|reflexivity]. cbn zeta.
      pose proof (P sc t p fs (conj eq_refl eq_refl) E) as Q. rewrite (V sc t p fs u E W) in Q.
      destruct (log _ (home u)) as [old|]; cbn [fst with_data ExtModel.data]; apply holds_local; cbn [commit put_object ExtModel.objects ExtModel.log]; rewrite ?set_other by exact Q; reflexivity.
    - destruct (configured row s); [|reflexivity]. destruct (provider row s sc t) as [[p fs]|] eqn:E; [|reflexivity]. destruct (uuid_of p) as [u|] eqn:W; [|reflexivity]. pose proof (P sc t p fs (conj eq_refl eq_refl) E) as Q. pose proof (V sc t p fs u E W) as Y. subst p.
      destruct fs; [|destruct (read row (data s) (home u)); [|reflexivity]]; cbn [fst with_data ExtModel.data]; apply holds_local; cbn [commit put_object ExtModel.objects ExtModel.log]; rewrite ?set_other by exact Q; reflexivity.
    - destruct (configured row s); [|reflexivity]. destruct (provider row s sc t) as [[p fs]|] eqn:E; [|reflexivity]. destruct (uuid_of p) as [u|] eqn:W; [|reflexivity]. pose proof (P sc t p fs (conj eq_refl eq_refl) E) as Q. pose proof (V sc t p fs u E W) as Y. subst p.
      destruct c as [c|]; [destruct fs; [|destruct (read row (data s) (home u)); [|reflexivity]]|]; cbn [fst with_data ExtModel.data]; apply holds_local; cbn [commit put_object ExtModel.objects ExtModel.log]; rewrite ?set_other by exact Q; reflexivity.
    - destruct (provider row s sc t) as [[p fs]|] eqn:E; [|reflexivity]. pose proof (P sc t p fs (conj eq_refl eq_refl) E) as Q. cbn [fst with_data ExtModel.data]. apply holds_local; cbn [commit ExtModel.objects ExtModel.log]; rewrite ?set_other by exact Q; reflexivity.
    - destruct (provider row s sc t) as [[p fs]|] eqn:E; [|reflexivity]. pose proof (P sc t p fs (conj eq_refl eq_refl) E) as Q. cbn [fst with_data ExtModel.data]. apply holds_local; cbn [delete_all ExtModel.objects ExtModel.log]; rewrite ?set_other by exact Q; reflexivity.
    - destruct (find _ (catalog row s)) as [[[a t] z]|] eqn:F; [|reflexivity]. destruct (provider row s sc t) as [[p fs]|] eqn:E; [|reflexivity]. pose proof (P sc t p fs eq_refl E) as Q.
      cbn [fst with_data ExtModel.data]. apply holds_local; cbn [delete_all ExtModel.objects ExtModel.log]; rewrite ?set_other by exact Q; reflexivity.
    - destruct (provider row s sc t) as [[p fs]|] eqn:E; [|reflexivity]. pose proof (P sc t p fs (conj eq_refl eq_refl) E) as Q. cbn [fst with_data ExtModel.data]. apply holds_local; cbn [ExtModel.objects ExtModel.log]; rewrite ?set_other by exact Q; reflexivity.
  Qed.
  (* An INSERT into a table elsewhere whose directory is called by a UUID goes into the table of that UUID in the configured store *)
  Theorem c125_insert_refuted : forall (s : session) schema table p u mine other rows f, unique s -> configured row s = true -> lists s schema table p -> uuid_of p = Some u -> p <> home u ->
    holds (data s) p mine -> holds (data s) (home u) other -> no_file (data s) (home u) f ->
    holds (data (fst (run s (Insert _ schema table rows f)))) p mine /\ holds (data (fst (run s (Insert _ schema table rows f)))) (home u) (other ++ rows).
  Proof.
    intros s sc t p u mine other rows f U C L V N H O F. destruct (provider_listed s sc t _ _ U L H) as (fs & P & _). cbn [ExtModel.run]. rewrite P, V, C. cbn zeta. pose proof O as O'. apply read_holds in O'. unfold read in O'.
    destruct (log (data s) (home u)) as [gs|] eqn:G; [|discriminate]. assert (G' : log (put_object row (data s) (home u) f rows) (home u) = Some gs) by exact G. rewrite G'. cbn [fst with_data ExtModel.data]. split.
    - revert H. apply holds_local; cbn [commit put_object ExtModel.objects ExtModel.log]; rewrite ?set_other by exact N; reflexivity.
    - apply holds_appended; assumption.
  Qed.
  (* and if there is none, its file stays behind there *)
  Theorem c125_stray_refuted : forall (s : session) schema table p u mine rows f, unique s -> configured row s = true -> lists s schema table p -> uuid_of p = Some u -> holds (data s) p mine -> log (data s) (home u) = None ->
    snd (run s (Insert _ schema table rows f)) = Refused /\ stored (data (fst (run s (Insert _ schema table rows f)))) (home u) f rows.
  Proof.
    intros s sc t p u mine rows f U C L V H O. destruct (provider_listed s sc t _ _ U L H) as (fs & P & _). cbn [ExtModel.run]. rewrite P, V, C. cbn zeta. assert (G' : log (put_object row (data s) (home u) f rows) (home u) = None) by exact O. rewrite G'.
    cbn [fst snd with_data ExtModel.data]. split; [reflexivity|]. apply stored_new.
  Qed.
  (* An UPDATE, or a DELETE with a condition, of a table elsewhere with files: afterwards nobody can read the table *)
  Theorem c125_update_refuted : forall (s : session) x schema table p u rows f, unique s -> configured row s = true -> lists s schema table p -> uuid_of p = Some u -> p <> home u ->
    holds (data s) p rows -> log (data s) p <> Some [] -> no_file (data s) p f -> ((exists g, x = Update _ schema table g f) \/ (exists c, x = Delete _ schema table (Some c) f)) ->
    snd (run s x) = Refused /\ unreadable (data (fst (run s x))) p.
  Proof.
    intros s x sc t p u rows f U C L V N H E F X. destruct (provider_listed s sc t _ _ U L H) as (fs & P & G & _). apply read_holds in H.
    assert (B : forall r, unreadable (commit row (put_object row (data s) (home u) f r) p [f]) p).
    { intros r rows' (files & parts & A & S & _). cbn [commit ExtModel.log] in A. rewrite set_same in A. injection A as <-. inversion S as [|? y ? ys S1 S2]; subst. apply stored_in in S1. cbn [commit put_object ExtModel.objects] in S1. rewrite set_other in S1 by exact N. exact (F y S1). }
    destruct fs as [|f0 fs]; [contradiction|]. destruct X as [[g ->]|[c ->]]; cbn [ExtModel.run]; rewrite C, P, V, H; cbn [fst snd with_data ExtModel.data]; (split; [reflexivity|apply B]).
  Qed.
End Ext.
Print Assumptions c124_refused.
Print Assumptions c124_no_table_partial.
Print Assumptions c124_plain_name_partial.
Print Assumptions c124_write_refuted.
Print Assumptions c124_retry_refuted.
Print Assumptions c124_drop_refuted.
Print Assumptions c124_drop_schema_refuted.
Print Assumptions c124_vacuum_refuted.
Print Assumptions c124_vacuum_keeps_partial.
Print Assumptions c124_function_refuted.
Print Assumptions c124_truncate.
Print Assumptions c125_others_partial.
Print Assumptions c125_insert_refuted.
Print Assumptions c125_stray_refuted.
Print Assumptions c125_update_refuted.

(* ---- Cases ---- *)
Open Scope string_scope.
Inductive id := A | B.
Definition ex_print (u : id) : string := match u with A => "4a1c" | B => "77fe" end.
Definition ex_parse (s : string) : option id := if String.eqb s "4a1c" then Some A else if String.eqb s "77fe" then Some B else None.
Definition ex_prefix := ["lake"].
Definition ex_here : place := {| site := 0; dir := ["lake"; "4a1c"] |}.
Definition ex_there : place := {| site := 1; dir := ["backup"; "4a1c"] |}.
Definition ex_plain : place := {| site := 1; dir := ["backup"; "people"] |}.
Definition ex_lake : lake nat :=
  {| objects := fun p => if place_dec p ex_here then [(1, [10; 20]); (0, [9])] else if place_dec p ex_there then [(2, [30])] else if place_dec p ex_plain then [(3, [40])] else [];
     log := fun p => if place_dec p ex_here then Some [1] else if place_dec p ex_there then Some [2] else if place_dec p ex_plain then Some [3] else None;
     tombstones := fun p => if place_dec p ex_here then [0] else [] |}.
Definition ex_session : session nat := {| catalog := [(("public", "here"), ex_here); (("public", "there"), ex_there); (("other", "plain"), ex_plain)]; data := ex_lake; functions := []; configured := true |}.
Notation ex_run := (run nat ex_prefix id ex_parse ex_print).

Example ex_names : readable_names ex_parse ex_print /\ unique ex_session /\ home ex_prefix id ex_print A = ex_here.
Proof.
  split; [intros []; reflexivity|]. split; [|reflexivity]. unfold unique. cbn. repeat (apply NoDup_cons; [cbn; intros H; repeat (destruct H as [H|H]; [discriminate H|]); exact H|]). apply NoDup_nil.
Qed.
Example ex_holds : holds ex_lake ex_here [10; 20] /\ holds ex_lake ex_there [30] /\ holds ex_lake ex_plain [40].
Proof. split; [|split]; apply read_holds; reflexivity. Qed.
(* Refused, and applied *)
Example c124_example : let s := fst (ex_run ex_session (Insert _ "public" "here" [5] 7)) in
  snd (ex_run ex_session (Insert _ "public" "here" [5] 7)) = Refused /\ holds (data _ s) ex_here [10; 20; 5] /\ holds (data _ (fst (ex_run s (Delete _ "public" "here" (Some (Nat.eqb 20)) 8)))) ex_here [10; 5].
Proof.
  split; [reflexivity|]. split; [|apply read_holds; reflexivity].
  destruct ex_names as (R & U & H). destruct ex_holds as (H1 & H2 & H3).
  refine (proj2 (c124_write_refuted (prefix := ex_prefix) ex_session (Insert _ "public" "here" [5] 7) "public" "here" A [10; 20] [10; 20; 5] R U eq_refl (or_introl eq_refl) H1 (conj eq_refl eq_refl) _ _)).
  - intros f E. injection E as <-. intros r [I|[I|[]]]; discriminate I.
  - apply (AInsert "public" "here" [10; 20] [5] 7).
Qed.
(* An UPDATE of the copy elsewhere ruins it; an INSERT into it goes to the other table *)
Example c125_example : snd (ex_run ex_session (Update _ "public" "there" S 7)) = Refused /\ unreadable (data _ (fst (ex_run ex_session (Update _ "public" "there" S 7)))) ex_there /\
  holds (data _ (fst (ex_run ex_session (Insert _ "public" "there" [6] 7)))) ex_here [10; 20; 6].
Proof.
  destruct ex_names as (R & U & H). destruct ex_holds as (H1 & H2 & H3). split; [reflexivity|]. split.
  - apply (c125_update_refuted ex_session (Update _ "public" "there" S 7) "public" "there" ex_there A [30] 7 U eq_refl); [right; left; reflexivity|reflexivity|discriminate|exact H2|discriminate| |left; exists S; reflexivity].
    intros r [I|[]]. discriminate I.
  - refine (proj2 (c125_insert_refuted (prefix := ex_prefix) (print := ex_print) (parse := ex_parse) ex_session "public" "there" ex_there A [30] [10; 20] [6] 7 U eq_refl (or_intror (or_introl eq_refl)) eq_refl _ H2 H1 _)).
    + discriminate.
    + intros r [I|[I|[]]]; discriminate I.
Qed.
(* A plain name: nothing happens *)
Example c124_plain_example : ex_run ex_session (Insert _ "other" "plain" [5] 7) = (ex_session, Refused).
Proof. apply (c124_plain_name_partial ex_session _ "other" "plain" ex_plain "people"); [apply ex_names|split; reflexivity|right; right; left; reflexivity|exists ["backup"]; reflexivity|reflexivity]. Qed.
