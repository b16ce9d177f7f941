(* Time travel. What the properties say is in TravelSpec.v, the code is in TravelModel.v. *)
From Coq Require Import Ascii String List Bool Arith Lia.
Import ListNotations.
From Verif Require Import DdlModel DdlSpec DdlProofs TravelModel TravelSpec TravelProofs.
Open Scope string_scope.
Open Scope list_scope.

Section Props.
Variable other : string -> list string.
Variable time : Type.
Variable datetime : string -> option time.
Variable load : nat -> time -> option nat.
Notation run := (run other time datetime load).
Notation run_disturbed := (run_disturbed other time datetime load).
Notation at_time := (at_time time datetime load).
Notation reads := (reads time datetime load).
Notation visit := (visit other).
Notation versions := (versions other).
Notation rewritten := (rewritten other).

Lemma versions_in D S0 q x : In x (versions D S0 q) <-> exists f, In f q /\ snd (visit D S0 f) = Some x.
Proof.
  induction q as [|f q IH]; cbn [TravelModel.versions]; [split; [intros []|intros (f & [] & _)]|].
  destruct (snd (visit D S0 f)) as [y|] eqn:E; cbn [In]; rewrite IH; split.
  - intros [<-|(g & I & G)]; [exists f; auto|exists g; auto].
  - intros (g & [<-|I] & G); [left; congruence|right; exists g; auto].
  - intros (g & I & G). exists g. auto.
  - intros (g & [<-|I] & G); [congruence|exists g; auto].
Qed.
Lemma planned_same D S n : S = default_schema \/ length n <> 1 -> planned D default_schema n = planned D S n.
Proof. intros [->|L]; [reflexivity|]. destruct n as [|i [|j [|k [|]]]]; cbn in L; try lia; reflexivity. Qed.
Lemma at_time_fun D m r v p p' : at_time D m r v p -> at_time D m r v p' -> p = p'.
Proof. intros (u & d & ver & H1 & H2 & H3 & ->) (u' & d' & ver' & H1' & H2' & H3' & ->). apply there_find in H1, H1'. congruence. Qed.
Lemma versioned_visit D S m f v : travels_well D S m f -> fargs f = Some [Literal v] ->
  exists r, planned D S (fname f) = Some r /\ good D m (r, v) /\
    visit D default_schema f = ({| fname := set_last (fname f) (with_version (called r) v); fargs := None; falias := falias f |}, Some (r, v)).
Proof.
  intros [W H] E. destruct (planned_wf D S (fname f) W) as (r & P). exists r. split; [exact P|]. destruct (proj1 (H r (proj2 (stands_planned _ _ _ _) P)) v (lower v) E (lower_spec v)) as (HS & W1 & W2 & W3 & N).
  split; [split; [exact W1|split; [exact W2|split; [exact W3|]]]|].
  - destruct (find_table D m (versioned (r, v))) as [p|] eqn:F; [|reflexivity]. exfalso. apply there_find in F. exact (N p F).
  - apply visit_version; [exact E|exact W|]. rewrite <- P. apply planned_same. exact HS.
Qed.
Section Well.
Variable D S : string.
Variable m : schema_map.
Variable q : list factor.
Hypothesis (fresh : no_versions m) (well : Forall (travels_well D S m) q) (times : same_times time datetime q).
Lemma versions_good x : In x (versions D default_schema q) -> good D m x /\ exists f, In f q /\ fargs f = Some [Literal (snd x)] /\ planned D S (fname f) = Some (fst x).
Proof.
  intros I. apply versions_in in I as (f & I & E). destruct (fargs f) as [[|[v|] [|]]|] eqn:A; try (rewrite visit_plain in E by (rewrite A; discriminate); discriminate).
  destruct (versioned_visit D S m f v (proj1 (Forall_forall _ _) well f I) A) as (r & P & G & V). rewrite V in E. injection E as <-. split; [exact G|]. exists f. auto.
Qed.
Lemma versions_agree : times_agree time datetime (versions D default_schema q).
Proof.
  intros x y Ix Iy L. apply versions_good in Ix as (_ & f & If & Ef & _). apply versions_good in Iy as (_ & g & Ig & Eg & _).
  apply (times g f (snd y) (snd x) (lower (snd y)) Ig If Eg Ef (lower_spec _)). rewrite L. apply lower_spec.
Qed.
Lemma plan_reads l m' f p : holds time datetime load D m l m' -> (forall x, In x (versions D default_schema q) -> In x l) -> In f q ->
  plan_factor D S m' (fst (visit D default_schema f)) = Some p <-> reads D S m f p.
Proof.
  intros [Hd Ho Hn Ha] Hl I. pose proof (proj1 (Forall_forall _ _) well f I) as Wf. destruct (planned_wf D S (fname f) (proj1 Wf)) as (r & P).
  pose proof (proj2 (stands_planned _ _ _ _) P) as St. unfold TravelSpec.reads.
  assert (U : forall r', stands_for D S (fname f) r' -> r' = r) by (intros r' H; apply stands_planned in H; congruence).
  destruct (fargs f) as [[|[v|] [|]]|] eqn:A.
  1,3,4,5: (rewrite visit_plain by (rewrite A; discriminate); unfold plan_factor; cbn [fst]; rewrite A; split; [discriminate|]; intros (r' & _ & [[C _]|(v' & C & _)]); congruence).
  - destruct (versioned_visit D S m f v Wf A) as (r0 & P0 & G & V). assert (r0 = r) by congruence. subst r0. rewrite V. unfold plan_factor. cbn [fst fargs fname].
    rewrite (planned_version D S (fname f) r v P (proj1 (lower_fix _) (proj2 (proj1 (proj2 (proj2 G)))))).
    destruct (Ha (r, v)) as (p' & F & T).
    { apply Hl. apply versions_in. exists f. split; [exact I|]. rewrite V. reflexivity. }
    unfold versioned in F. cbn [fst snd] in F, T. rewrite F. split.
    + intros E. injection E as <-. exists r. split; [exact St|]. right. exists v. auto.
    + intros (r' & Hr & [[C _]|(v' & C & T')]); [discriminate|]. rewrite (U r' Hr) in T'. injection C as <-. rewrite (at_time_fun D m r v _ _ T T'). reflexivity.
  - rewrite visit_plain by (rewrite A; discriminate). unfold plan_factor. cbn [fst]. rewrite A, P. split.
    + intros F. exists r. split; [exact St|]. left. split; [reflexivity|]. apply there_find. apply Hn in F as [F|(x & _ & -> & _)]; [exact F|]. exfalso.
      apply (with_version_colon (called (fst x)) (snd x)). exact (proj2 (proj2 Wf _ St) A).
    + intros (r' & Hr & [[_ H]|(v' & C & _)]); [|discriminate]. rewrite (U r' Hr) in H. apply Ho. apply there_find. exact H.
Qed.
Lemma plan_all_reads l m' : holds time datetime load D m l m' -> (forall x, In x (versions D default_schema q) -> In x l) -> forall q', incl q' q -> forall ps,
  plan_factors D S m' (map (fun f => fst (visit D default_schema f)) q') = Some ps <-> Forall2 (reads D S m) q' ps.
Proof.
  intros H Hl. induction q' as [|f q' IH]; intros I ps; cbn [map plan_factors].
  - split; [intros E; injection E as <-; constructor|intros F; inversion F; reflexivity].
  - pose proof (plan_reads l m' f) as PR. specialize (IH (fun x Hx => I x (or_intror Hx))).
    destruct (plan_factor D S m' (fst (visit D default_schema f))) as [p|] eqn:E1.
    + assert (R : reads D S m f p) by (apply (PR p H Hl (I f (or_introl eq_refl))); reflexivity).
      destruct (plan_factors D S m' (map _ q')) as [ps'|] eqn:E2.
      * split; [intros E; injection E as <-; constructor; [exact R|apply IH; reflexivity]|]. intros F. inversion F as [|? p' ? ps2 R' F']; subst.
        apply (PR p' H Hl (I f (or_introl eq_refl))) in R'. apply IH in F'. congruence.
      * split; [discriminate|]. intros F. inversion F as [|? p' ? ps2 R' F']; subst. apply IH in F'. discriminate.
    + split; [discriminate|]. intros F. inversion F as [|? p' ? ps2 R' F']; subst. apply (PR p' H Hl (I f (or_introl eq_refl))) in R'. discriminate.
Qed.
(* C53. Time travel reads the requested version of the requested table, for lower-case names of words, in the schema public or in the schema
   they name. Missing: all other names and search paths. *)
Theorem c53_partial order ps : walks order -> run D S order m q = Some ps <-> Forall2 (reads D S m) q ps.
Proof.
  intros Wk. unfold TravelModel.run. set (l := order (versions D default_schema q)).
  assert (G : forall x, In x (l ++ []) -> good D m x) by (intros x I; rewrite app_nil_r in I; apply (proj1 (Wk _ _)) in I; exact (proj1 (versions_good x I))).
  assert (T : times_agree time datetime (l ++ [])) by (intros x y Ix Iy; rewrite app_nil_r in Ix, Iy; apply (proj1 (Wk _ _)) in Ix, Iy; exact (versions_agree x y Ix Iy)).
  assert (Hl : forall x, In x (versions D default_schema q) -> In x (rev l ++ [])) by (intros x I; rewrite app_nil_r; apply -> in_rev; apply Wk; exact I).
  destruct (register_versions other time datetime load D S l m) as [m'|] eqn:E.
  - pose proof (register_all other time datetime load D S m fresh l [] m m' (holds_start time datetime load D m) G T E) as H.
    exact (plan_all_reads _ m' H Hl q (fun x I => I) ps).
  - split; [discriminate|]. intros F. exfalso.
    destruct (register_all_can other time datetime load D S m fresh l [] m (holds_start time datetime load D m) G T) as (m' & E'); [|congruence].
    intros x I. apply (proj1 (Wk _ _)) in I. apply versions_good in I as (_ & f & I & A & P).
    assert (X : exists p, In p ps /\ reads D S m f p).
    { clear - F I. induction F as [|g p q ps R F IH]; [destruct I|]. destruct I as [->|I]; [exists p; split; [left; reflexivity|exact R]|]. destruct (IH I) as (p' & I' & R'). exists p'. split; [right; exact I'|exact R']. }
    destruct X as (p & _ & r & St & [[C _]|(v & C & H)]); [congruence|]. rewrite A in C. injection C as <-. apply stands_planned in St. assert (r = fst x) by congruence. subst r. exists p. exact H.
Qed.
(* C86. Another query that reloads the catalog meanwhile makes a time-travel query fail at worst: it never reads anything else ... *)
Lemma disturbed_holds l : (forall x, In x (map snd l) -> good D m x) -> times_agree time datetime (versions D default_schema q) -> (forall x, In x (map snd l) -> In x (versions D default_schema q)) ->
  forall done m' m'', (forall x, In x done -> In x (versions D default_schema q)) -> holds time datetime load D m done m' ->
  register_disturbed other time datetime load D S m l m' = Some m'' -> exists done', (forall x, In x done' -> In x (versions D default_schema q)) /\ holds time datetime load D m done' m''.
Proof.
  induction l as [|[b x] l IH]; cbn [register_disturbed map]; intros G T Sub done m' m'' Sd H E; [injection E as <-; exists done; auto|].
  destruct (register_version other time datetime load D S x (if b then m else m')) as [m1|] eqn:E1; [|discriminate].
  assert (Gd : forall l', (forall y, In y l' -> In y (versions D default_schema q)) -> forall y, In y l' -> good D m y) by (intros l' Sl y I; exact (proj1 (versions_good y (Sl y I)))).
  assert (Ix : In x (versions D default_schema q)) by (apply Sub; left; reflexivity).
  assert (H1 : exists d1, (forall y, In y d1 -> In y (versions D default_schema q)) /\ holds time datetime load D m d1 m1).
  { destruct b.
    - exists [x]. split; [intros y [<-|[]]; exact Ix|]. eapply register_one; [exact fresh|apply holds_start|exact (proj1 (versions_good x Ix))|intros y []|intros y []|exact E1].
    - exists (x :: done). split; [intros y [<-|I]; auto|]. eapply register_one; [exact fresh|exact H|exact (proj1 (versions_good x Ix))|exact (Gd done Sd)|intros y I; apply T; auto|exact E1]. }
  destruct H1 as (d1 & S1 & H1). eapply IH; [| |intros y I; apply Sub; right; exact I|exact S1|exact H1|exact E]; [intros y I; apply G; right; exact I|exact T].
Qed.
Theorem c86_never_wrong l last ps : (forall x, In x (map snd l) -> In x (versions D default_schema q)) ->
  run_disturbed D S m l last q = Some ps -> Forall2 (reads D S m) q ps.
Proof.
  intros Sub. unfold TravelModel.run_disturbed. destruct (register_disturbed _ _ _ _ _ _ _ _ _) as [m1|] eqn:E; [|discriminate].
  destruct (disturbed_holds l (fun x I => proj1 (versions_good x (Sub x I))) versions_agree Sub [] m m1 (fun x (I : In x []) => match I with end) (holds_start time datetime load D m) E) as (done & Sd & H).
  assert (K : exists done' mm, (if last then m else m1) = mm /\ (forall x, In x done' -> In x (versions D default_schema q)) /\ holds time datetime load D m done' mm).
  { destruct last; [exists [], m; split; [reflexivity|split; [intros x []|apply holds_start]]|exists done, m1; auto]. }
  destruct K as (done' & mm & -> & Sd' & H'). clear H Sd done E. unfold TravelModel.rewritten.
  assert (X : forall q', incl q' q -> forall ps, plan_factors D S mm (map (fun f => fst (visit D default_schema f)) q') = Some ps -> Forall2 (reads D S m) q' ps); [|apply X; intros x I; exact I].
  induction q' as [|f q' IH]; intros I ps'; cbn [map plan_factors]; [intros E; injection E as <-; constructor|].
  destruct (plan_factor D S mm (fst (visit D default_schema f))) as [p|] eqn:E1; [|discriminate]. destruct (plan_factors _ _ _ _) as [ps2|] eqn:E2; [|discriminate]. intros E. injection E as <-.
  constructor; [|apply IH; [intros x Ix; apply I; right; exact Ix|reflexivity]]. clear IH E2 ps2. pose proof (I f (or_introl eq_refl)) as If. pose proof (proj1 (Forall_forall _ _) well f If) as Wf.
  destruct (planned_wf D S (fname f) (proj1 Wf)) as (r & P). pose proof (proj2 (stands_planned _ _ _ _) P) as St. destruct H' as [Hd Ho Hn Ha].
  destruct (fargs f) as [[|[v|] [|]]|] eqn:A.
  1,3,4,5: (rewrite visit_plain in E1 by (rewrite A; discriminate); unfold plan_factor in E1; cbn [fst] in E1; rewrite A in E1; discriminate).
  - destruct (versioned_visit D S m f v Wf A) as (r0 & P0 & G & V). assert (r0 = r) by congruence. subst r0. rewrite V in E1. unfold plan_factor in E1. cbn [fst fargs fname] in E1.
    rewrite (planned_version D S (fname f) r v P (proj1 (lower_fix _) (proj2 (proj1 (proj2 (proj2 G)))))) in E1. change (find_table D mm (versioned (r, v)) = Some p) in E1.
    exists r. split; [exact St|]. right. exists v. split; [exact A|]. apply Hn in E1 as [E1|([r' v'] & Ix & Ev & T)]; [rewrite (proj2 (proj2 (proj2 G))) in E1; discriminate|].
    pose proof (Sd' _ Ix) as Iv. apply versions_good in Iv as Gv. destruct Gv as ((_ & _ & [W' _] & _) & _). unfold versioned in Ev. cbn [fst snd] in *. injection Ev as C1 C2 C3.
    apply with_version_inj in C3 as [C3 C4]; [|apply word_no_colon, G|apply word_no_colon, W']. assert (r' = r) by (destruct r, r'; cbn in *; congruence). subst r'.
    assert (Et : datetime v' = datetime v).
    { apply (versions_agree (r, v) (r, v')); [|exact Iv|symmetry; exact C4]. apply versions_in. exists f. split; [exact If|]. rewrite V. reflexivity. }
    destruct T as (u & d & ver & T1 & T2 & T3 & ->). exists u, d, ver. split; [exact T1|]. split; [congruence|auto].
  - rewrite visit_plain in E1 by (rewrite A; discriminate). unfold plan_factor in E1. cbn [fst] in E1. rewrite A, P in E1. exists r. split; [exact St|]. left. split; [exact A|]. apply there_find.
    apply Hn in E1 as [F|(x & _ & -> & _)]; [exact F|]. exfalso. apply (with_version_colon (called (fst x)) (snd x)). exact (proj2 (proj2 Wf _ St) A).
Qed.
(* ... but fail it does. *)
Theorem c86_refuted l f v : (forall x, In x (map snd l) -> In x (versions D default_schema q)) -> In f q -> fargs f = Some [Literal v] -> run_disturbed D S m l true q = None.
Proof.
  intros Sub I A. unfold TravelModel.run_disturbed. destruct (register_disturbed _ _ _ _ _ _ _ _ _) as [m1|]; [|reflexivity]. pose proof (proj1 (Forall_forall _ _) well f I) as Wf.
  destruct (versioned_visit D S m f v Wf A) as (r & P & G & V).
  assert (E : plan_factor D S m (fst (visit D default_schema f)) = None).
  { rewrite V. unfold plan_factor. cbn [fst fargs fname]. rewrite (planned_version D S (fname f) r v P (proj1 (lower_fix _) (proj2 (proj1 (proj2 (proj2 G)))))). exact (proj2 (proj2 (proj2 G))). }
  unfold TravelModel.rewritten. clear - I E. induction q as [|g q' IH]; [destruct I|]. cbn [map plan_factors]. destruct I as [->|I]; [rewrite E; reflexivity|].
  rewrite (IH I). destruct (plan_factor D S m (fst (visit D default_schema g))); reflexivity.
Qed.
End Well.

(* Where time travel goes wrong: *)
Lemma one_order order (x : table * string) : walks order -> forall y, In y (order [x]) <-> y = x.
Proof. intros W y. rewrite (W [x] y). cbn. split; [intros [<-|[]]; reflexivity|intros ->; left; reflexivity]. Qed.
Lemma set_last_one t q x : set_last [(t, q)] x = [(x, q)]. Proof. reflexivity. Qed.
(* - in a session with a search path, for names without a schema: refused *)
Theorem c53_search_path_refuted D S order m t v al : walks order -> S <> "public" -> word t -> lower_case t t -> no_versions m ->
  (forall v' p, lower_case v v' -> ~ there D m {| in_catalog := D; in_schema := S; called := t ++ String ":"%char v' |} p) -> lower_word D ->
  run D S order m [{| fname := [(t, false)]; fargs := Some [Literal v]; falias := al |}] = None.
Proof.
  intros Wk NS Wt Lt Fr N LD. set (f := {| fname := [(t, false)]; fargs := Some [Literal v]; falias := al |}).
  assert (W : wf (fname f)) by (split; [repeat constructor; exact Wt|cbn; lia]).
  assert (V : visit D default_schema f = ({| fname := [(with_version t v, false)]; fargs := None; falias := al |}, Some ({| in_catalog := D; in_schema := default_schema; called := t |}, v))).
  { rewrite (visit_version other D default_schema f v {| in_catalog := D; in_schema := default_schema; called := t |} eq_refl W); [reflexivity|]. cbn. unfold normal. cbn. rewrite (proj1 (lower_fix t) Lt). reflexivity. }
  unfold TravelModel.run, TravelModel.rewritten. cbn [TravelModel.versions map]. rewrite V. cbn [snd fst]. set (x := ({| in_catalog := D; in_schema := default_schema; called := t |}, v)).
  destruct (register_versions _ _ _ _ _ _ (order [x]) m) as [m'|] eqn:E; [|reflexivity].
  assert (K : forall l m0 m1, (forall y, In y l -> y = x) -> register_versions other time datetime load D S l m0 = Some m1 -> m1 S = m0 S).
  { induction l as [|y l IH]; cbn [register_versions]; intros m0 m1 Hy E0; [injection E0 as <-; reflexivity|].
    destruct (register_version other time datetime load D S y m0) as [m2|] eqn:E2; [|discriminate]. rewrite (IH m2 m1 (fun z Hz => Hy z (or_intror Hz)) E0).
    rewrite (Hy y (or_introl eq_refl)) in E2. unfold TravelModel.register_version, x in E2. cbv zeta in E2. rewrite (lower_words_back other {| in_catalog := D; in_schema := default_schema; called := t |}) in E2.
    - cbn [in_catalog in_schema called] in E2. destruct (find_table D m0 _) as [[u|u w|]|]; try discriminate; (destruct (datetime v); [|discriminate]); (destruct (load u _); [|discriminate]);
        (destruct (find_table D m0 _); injection E2 as <-; [reflexivity|]); unfold add_table; cbn [in_schema]; (destruct (String.eqb_spec S default_schema); [contradiction|reflexivity]).
    - exact LD.
    - split; [|apply lower_fix; reflexivity]. apply word_bool. reflexivity.
    - split; assumption. }
  cbn [plan_factors plan_factor fargs fname planned map resolve]. unfold plan_factor. cbn [fargs fname planned map resolve].
  assert (Ln : normal (with_version t v, false) = with_version t v).
  { unfold normal, with_version. cbn [fst snd]. rewrite lower_app, (proj1 (lower_fix t) Lt). cbn. rewrite lower_idem. reflexivity. }
  rewrite Ln. unfold find_table, find_schema. cbn [in_catalog in_schema called]. rewrite String.eqb_refl, (K _ m m' (fun y Hy => proj1 (one_order order x Wk y) Hy) E).
  destruct (m S) as [ts|] eqn:Em; [|reflexivity]. destruct (ts (with_version t v)) as [p|] eqn:Et; [|reflexivity]. exfalso. apply (N (lower v) p (lower_spec v)). split; [reflexivity|]. exists ts. auto.
Qed.
(* - for quoted names with capitals: the table whose name is that in lower case is read, or the query is refused *)
Theorem c53_quoted_refuted D order m t t' v al ps : walks order -> word t -> ~ lower_case t t -> lower_case t t' -> no_versions m -> lower_word D ->
  (forall v' p, lower_case v v' -> ~ there D m {| in_catalog := D; in_schema := "public"; called := t ++ String ":"%char v' |} p) ->
  run D "public" order m [{| fname := [(t, true)]; fargs := Some [Literal v]; falias := al |}] = Some ps <->
  exists p, ps = [p] /\ at_time D m {| in_catalog := D; in_schema := "public"; called := t' |} v p.
Proof.
  intros Wk Wt NL Lt Fr LD N. change "public" with default_schema in *. set (f := {| fname := [(t, true)]; fargs := Some [Literal v]; falias := al |}).
  assert (W : wf (fname f)).
  { split; [|cbn; lia]. repeat constructor. unfold wf_ident. cbn. apply (word_no t """"%char Wt). reflexivity. }
  pose (r := {| in_catalog := D; in_schema := default_schema; called := t |}). pose (r' := {| in_catalog := D; in_schema := default_schema; called := t' |}).
  assert (V : visit D default_schema f = ({| fname := [(with_version t v, true)]; fargs := None; falias := al |}, Some (r, v))) by (exact (visit_version other D default_schema f v r eq_refl W eq_refl)).
  assert (Back : resolve D default_schema (from_text other (print_name [(D, false); (default_schema, false); (t, false)])) (print_name [(D, false); (default_schema, false); (t, false)]) = r').
  { rewrite from_name; [|repeat constructor; [exact (proj1 LD)| |exact Wt]|discriminate].
    - unfold normal. cbn [map fst snd resolve]. rewrite (proj1 (lower_fix _) (proj2 LD)), (lower_case_lower _ _ Lt). reflexivity.
    - apply word_bool. reflexivity. }
  assert (Nv : find_table D m (versioned (r, v)) = None).
  { destruct (find_table D m (versioned (r, v))) as [p|] eqn:F; [|reflexivity]. exfalso. apply there_find in F. exact (N (lower v) p (lower_spec v) F). }
  unfold TravelModel.run, TravelModel.rewritten. cbn [TravelModel.versions map]. rewrite V. cbn [snd fst]. set (x := (r, v)).
  assert (One : forall p, at_time D m r' v p -> forall m0, find_table D m0 r' = find_table D m r' ->
    (find_table D m0 (versioned x) = None -> register_version other time datetime load D default_schema x m0 = Some (add_table m0 (versioned x) p)) /\
    (forall p0, find_table D m0 (versioned x) = Some p0 -> register_version other time datetime load D default_schema x m0 = Some m0)).
  { intros p (u & d & ver & H1 & H2 & H3 & ->) m0 F0. apply there_find in H1. unfold TravelModel.register_version, x. cbv zeta. change (in_catalog r) with D; change (in_schema r) with default_schema; change (called r) with t. rewrite Back, F0, H1, H2, H3.
    change {| in_catalog := in_catalog r'; in_schema := in_schema r'; called := with_version t v |} with (versioned (r, v)).
    split; [intros Z|intros p0 Z]; (change (find_table D m0 (versioned (r, v))) with (find_table D m0 (versioned (r, v))) in Z; rewrite Z; reflexivity). }
  assert (Fail : (forall p, ~ at_time D m r' v p) -> register_version other time datetime load D default_schema x m = None).
  { intros NA. unfold TravelModel.register_version, x. cbv zeta. change (in_catalog r) with D; change (in_schema r) with default_schema; change (called r) with t. rewrite Back. destruct (find_table D m r') as [[u|u w|]|] eqn:F; try reflexivity.
    - destruct (datetime v) as [d|] eqn:Ed; [|reflexivity]. destruct (load u d) as [ver|] eqn:El; [|reflexivity]. exfalso. apply (NA (AtVersion u ver)). exists u, d, ver. rewrite there_find. auto.
    - exfalso. apply there_find in F as (_ & ts & F1 & F2). exact (Fr _ _ _ _ _ F1 F2). }
  assert (Hx : forall y, In y (order [x]) <-> y = x) by (apply one_order; exact Wk).
  assert (Hne : exists l, order [x] = x :: l /\ forall y, In y l -> y = x).
  { destruct (order [x]) as [|y l] eqn:Eo; [exfalso; exact (proj2 (Hx x) eq_refl)|]. exists l. split; [rewrite (proj1 (Hx y) (or_introl eq_refl)); reflexivity|]. intros z I. exact (proj1 (Hx z) (or_intror I)). }
  destruct Hne as (l & -> & Hl). cbn [register_versions].
  assert (Dec : (exists p, at_time D m r' v p) \/ forall p, ~ at_time D m r' v p).
  { destruct (find_table D m r') as [[u|u w|]|] eqn:F; try (right; intros p (u' & d & ver & H1 & _); apply there_find in H1; rewrite F in H1; discriminate).
    destruct (datetime v) as [d|] eqn:Ed; [|right; intros p (u' & d & ver & _ & H2 & _); congruence].
    destruct (load u d) as [ver|] eqn:El; [left; exists (AtVersion u ver), u, d, ver; rewrite there_find; auto|right; intros p (u' & d' & ver & H1 & H2 & H3 & _); apply there_find in H1; congruence]. }
  destruct Dec as [(p & A)|NA].
  - rewrite (proj1 (One p A m eq_refl) Nv). set (m1 := add_table m (versioned x) p).
    assert (F1 : find_table D m1 (versioned x) = Some p).
    { unfold m1. rewrite find_add by reflexivity. destruct A as (u & d & ver & H1 & _). apply there_find in H1. unfold find_table in H1.
      change (find_schema D m (versioned x)) with (find_schema D m r'). destruct (find_schema D m r'); [|discriminate]. rewrite !String.eqb_refl. reflexivity. }
    assert (F2 : find_table D m1 r' = find_table D m r').
    { unfold m1. rewrite find_add by reflexivity. unfold find_table. destruct (find_schema D m r') as [ts|]; [|reflexivity].
      destruct (String.eqb_spec (called r') (called (versioned x))) as [C|C]; [|rewrite andb_false_r; reflexivity]. exfalso. apply (with_version_colon t v). change (t' = with_version t v) in C. rewrite <- C.
      intros Ic. rewrite <- (lower_case_lower _ _ Lt) in Ic. apply (word_no_colon t Wt). clear - Ic. induction t as [|a t IH]; cbn in *; [exact Ic|]. destruct Ic as [E|Ic]; [|right; exact (IH Ic)].
      left. unfold lower_ascii in E. destruct (Nat.leb 65 (nat_of_ascii a) && Nat.leb (nat_of_ascii a) 90) eqn:B; [|exact E]. exfalso. apply andb_true_iff in B as [B1 B2]. apply Nat.leb_le in B1, B2.
      apply (f_equal nat_of_ascii) in E. rewrite nat_ascii_embedding in E by lia. cbn in E. lia. }
    assert (K : register_versions other time datetime load D default_schema l m1 = Some m1).
    { clear - Hl One A F1 F2. induction l as [|y l IH]; [reflexivity|]. cbn [register_versions]. rewrite (Hl y (or_introl eq_refl)), (proj2 (One p A m1 F2) p F1). apply IH. intros z I. apply Hl. right. exact I. }
    rewrite K. cbn [plan_factors]. unfold plan_factor. cbn [fargs fname planned map resolve]. unfold normal. cbn [fst snd]. change {| in_catalog := D; in_schema := default_schema; called := with_version t v |} with (versioned x). rewrite F1.
    split; [intros E; injection E as <-; exists p; auto|]. intros (p' & -> & A'). rewrite (at_time_fun D m r' v p p' A A'). reflexivity.
  - rewrite (Fail NA). split; [discriminate|]. intros (p & _ & A). exact (False_ind _ (NA p A)).
Qed.
(* - in a database whose name has capitals: refused *)
Lemma register_fails D S x l m : In x l -> (forall m0, register_version other time datetime load D S x m0 = None) -> register_versions other time datetime load D S l m = None.
Proof.
  intros I F. revert m. induction l as [|y l IH]; intros m; [destruct I|]. cbn [register_versions]. destruct I as [->|I]; [rewrite F; reflexivity|].
  destruct (register_version other time datetime load D S y m) as [m1|]; [apply (IH I)|reflexivity].
Qed.
Theorem c53_database_refuted D S order m q f t v : walks order -> word D -> ~ lower_case D D -> In f q -> fname f = [(t, false)] -> word t -> fargs f = Some [Literal v] -> run D S order m q = None.
Proof.
  intros Wk WD ND I En Wt A. assert (W : wf (fname f)) by (rewrite En; split; [repeat constructor; exact Wt|cbn; lia]).
  pose (r := {| in_catalog := D; in_schema := default_schema; called := lower t |}).
  assert (V : snd (visit D default_schema f) = Some (r, v)) by (rewrite (visit_version other D default_schema f v r A W); [reflexivity|rewrite En; reflexivity]).
  unfold TravelModel.run. rewrite (register_fails D S (r, v)); [reflexivity| |].
  - apply Wk. apply versions_in. exists f. auto.
  - intros m0. unfold TravelModel.register_version. cbv zeta. change (in_catalog r) with D; change (in_schema r) with default_schema; change (called r) with (lower t).
    rewrite from_name; [|repeat constructor; [exact WD|apply word_bool; reflexivity|]|discriminate].
    + unfold normal. cbn [map fst snd resolve]. unfold find_table at 1, find_schema at 1. cbn [in_catalog]. destruct (String.eqb_spec (lower D) D) as [C|_]; [|reflexivity]. exfalso. apply ND, lower_fix, C.
    + unfold wf_ident. cbn [fst snd]. apply word_bool. apply word_inner in Wt as (a & s & -> & Ha & Fs). cbn [lower list_ascii_of_string].
      assert (L1 : forall b, word_ascii b = true -> word_ascii (lower_ascii b) = true).
      { intros b Hb. unfold lower_ascii. destruct (Nat.leb 65 (nat_of_ascii b) && Nat.leb (nat_of_ascii b) 90) eqn:B; [|exact Hb]. apply andb_true_iff in B as [B1 B2]. apply Nat.leb_le in B1, B2.
        unfold word_ascii. rewrite nat_ascii_embedding by lia. replace (Nat.leb 97 (nat_of_ascii b + 32)) with true by (symmetry; apply Nat.leb_le; lia).
        replace (Nat.leb (nat_of_ascii b + 32) 122) with true by (symmetry; apply Nat.leb_le; lia). rewrite orb_true_r. reflexivity. }
      assert (L2 : forall b, digit b = true -> lower_ascii b = b).
      { intros b Hb. apply digit_spec in Hb. unfold digital in Hb. unfold lower_ascii. replace (Nat.leb 65 (nat_of_ascii b)) with false by (symmetry; apply Nat.leb_gt; lia). reflexivity. }
      rewrite (L1 a Ha). cbn [andb]. clear - Fs L1 L2. induction s as [|b s IH]; [reflexivity|]. inversion Fs as [|? ? Fb Fs']; subst. cbn [lower list_ascii_of_string forallb]. rewrite (IH Fs'), andb_true_r.
      unfold inner in *. apply orb_true_iff in Fb as [Fb|Fb]; [rewrite (L1 b Fb); reflexivity|rewrite (L2 b Fb), Fb; apply orb_true_r].
Qed.
(* - if there is a table with the name that the version is registered under: that table is read *)
Theorem c53_collision_refuted D order m t v v' al p p0 : walks order -> lower_word t -> lower_word D -> no_versions m -> lower_case v v' ->
  at_time D m {| in_catalog := D; in_schema := "public"; called := t |} v p -> there D m {| in_catalog := D; in_schema := "public"; called := t ++ String ":"%char v' |} p0 ->
  run D "public" order m [{| fname := [(t, false)]; fargs := Some [Literal v]; falias := al |}] = Some [p0].
Proof.
  intros Wk Wt WD Fr Lv (u & d & ver & H1 & H2 & H3 & ->) H0. rewrite <- (lower_case_lower _ _ Lv) in H0. change "public" with default_schema in *. set (f := {| fname := [(t, false)]; fargs := Some [Literal v]; falias := al |}).
  pose (r := {| in_catalog := D; in_schema := default_schema; called := t |}).
  assert (Lt : lower t = t) by (apply lower_fix, Wt). assert (P : planned D default_schema (fname f) = Some r) by (cbn; unfold normal; cbn; rewrite Lt; reflexivity).
  assert (V : visit D default_schema f = ({| fname := set_last (fname f) (with_version t v); fargs := None; falias := al |}, Some (r, v))).
  { apply (visit_version other D default_schema f v r eq_refl); [split; [repeat constructor; exact (proj1 Wt)|cbn; lia]|exact P]. }
  unfold TravelModel.run, TravelModel.rewritten. cbn [TravelModel.versions map]. rewrite V. cbn [snd fst]. apply there_find in H1, H0.
  assert (R : register_version other time datetime load D default_schema (r, v) m = Some m).
  { unfold TravelModel.register_version. cbv zeta. rewrite (lower_words_back other r WD (conj (word_bool default_schema eq_refl) (proj2 (lower_fix default_schema) eq_refl)) Wt D default_schema).
    change (find_table D m r = Some (Latest u)) in H1. rewrite H1, H2, H3. change (find_table D m {| in_catalog := in_catalog r; in_schema := in_schema r; called := with_version (called r) v |} = Some p0) in H0. rewrite H0. reflexivity. }
  assert (K : forall l, (forall y, In y l -> y = (r, v)) -> register_versions other time datetime load D default_schema l m = Some m).
  { induction l as [|y l IH]; intros Hy; [reflexivity|]. cbn [register_versions]. rewrite (Hy y (or_introl eq_refl)), R. apply IH. intros z I. apply Hy. right. exact I. }
  rewrite K by (intros y I; apply (one_order order (r, v) Wk); exact I). cbn [plan_factors]. unfold plan_factor. cbn [fargs fname].
  pose proof (planned_version D default_schema _ r v P Lt) as Pv. change (called r) with t in Pv. rewrite Pv. change (find_table D m {| in_catalog := in_catalog r; in_schema := in_schema r; called := with_version t v |} = Some p0) in H0. rewrite H0. reflexivity.
Qed.

(* C87. A table reference with an alias keeps it; one without can no longer be referred to by the name of the table. *)
Theorem c87_alias_partial D f x : falias f <> None -> reference_name (fst (visit D default_schema f)) x <-> reference_name f x.
Proof.
  intros N. destruct (fargs f) as [[|[v|] [|]]|] eqn:A; try (rewrite visit_plain by (rewrite A; discriminate); reflexivity). unfold TravelModel.visit. rewrite A. cbn [fst]. unfold reference_name. cbn [falias].
  destruct (falias f); [reflexivity|contradiction].
Qed.
Theorem c87_refuted D f v x : falias f = None -> fargs f = Some [Literal v] -> wf (fname f) -> reference_name f x -> ~ reference_name (fst (visit D default_schema f)) x.
Proof.
  intros E A W. destruct (planned_wf D default_schema (fname f) W) as (r & P). rewrite (visit_version other D default_schema f v r A W P). cbn [fst]. unfold reference_name. cbn [falias fname]. rewrite E.
  rewrite !says_normal. intros ->.
  assert (X : called r = normal (last (fname f) (EmptyString, true)) /\ exists q, last (set_last (fname f) (with_version (called r) v)) (EmptyString, true) = (with_version (called r) v, q)).
  { destruct (fname f) as [|[a qa] [|[b qb] [|[c qc] [|]]]]; cbn in P; try discriminate; injection P as <-; cbn; (split; [reflexivity|eexists; reflexivity]). }
  destruct X as [X (q & Y)]. rewrite Y, <- X. intros C. apply (f_equal String.length) in C.
  assert (Len : forall s, String.length (lower s) = String.length s) by (induction s; cbn; congruence).
  assert (Lv : String.length (normal (with_version (called r) v, q)) = String.length (with_version (called r) v)) by (unfold normal; cbn [fst snd]; destruct q; [reflexivity|apply Len]).
  rewrite Lv in C. unfold with_version in C. assert (La : forall a b : string, String.length (a ++ b) = String.length a + String.length b) by (induction a; intros; cbn; [reflexivity|rewrite IHa; reflexivity]).
  rewrite La in C. cbn in C. lia.
Qed.
End Props.
Print Assumptions c53_partial.
Print Assumptions c53_search_path_refuted.
Print Assumptions c53_quoted_refuted.
Print Assumptions c53_database_refuted.
Print Assumptions c53_collision_refuted.
Print Assumptions c86_never_wrong.
Print Assumptions c86_refuted.
Print Assumptions c87_alias_partial.
Print Assumptions c87_refuted.

(* Examples: table 1 is public.t, table 2 is public."T" and table 3 is s.t; time is a number and version n is that of time n. *)
Definition ex_map : schema_map := fun s =>
  if String.eqb s "public" then Some (fun t => if String.eqb t "t" then Some (Latest 1) else if String.eqb t "T" then Some (Latest 2) else None)
  else if String.eqb s "s" then Some (fun t => if String.eqb t "t" then Some (Latest 3) else None) else None.
Definition ex_datetime (v : string) : option nat := if String.eqb (lower v) "2022-01-01t00:00:00z" then Some 5 else None.
Notation ex_run := (TravelModel.run (fun _ => []) nat ex_datetime (fun _ d => Some d) "db").
Definition ex_versioned (n : name) (v : string) : factor := {| fname := n; fargs := Some [Literal v]; falias := None |}.
Definition ex_query : list factor := [ex_versioned [("t", false)] "2022-01-01T00:00:00Z"; {| fname := [("s", false); ("t", false)]; fargs := None; falias := None |}; ex_versioned [("s", false); ("t", true)] "2022-01-01t00:00:00Z"].
Example ex_travel : ex_run "public" (fun l => l) ex_map ex_query = Some [AtVersion 1 5; Latest 3; AtVersion 3 5].
Proof. vm_compute. reflexivity. Qed.
Example ex_meets : no_versions ex_map /\ Forall (travels_well "db" "public" ex_map) ex_query /\ same_times nat ex_datetime ex_query /\ walks (fun l => l).
Proof.
  assert (NV : no_versions ex_map).
  { intros s ts t u v. unfold ex_map. destruct (String.eqb s "public"); [|destruct (String.eqb s "s"); [|discriminate]]; intros E; injection E as <-; (destruct (String.eqb t "t"); [discriminate|]); [destruct (String.eqb t "T")|]; discriminate. }
  assert (NC : forall s t v' p, ~ there "db" ex_map {| in_catalog := "db"; in_schema := s; called := t ++ String ":"%char v' |} p).
  { intros s t v' p (_ & ts & E & F). cbn [in_schema called] in *.
    assert (X : forall w, no_colon w -> (t ++ String ":"%char v')%string <> w) by (intros w N C; apply N; rewrite <- C, list_app; apply in_or_app; right; left; reflexivity).
    unfold ex_map in E. destruct (String.eqb s "public"); [|destruct (String.eqb s "s"); [|discriminate]]; injection E as <-.
    - destruct (String.eqb_spec (t ++ String ":"%char v') "t") as [C|_]; [exact (X "t" ltac:(intros [H|[]]; discriminate H) C)|]. destruct (String.eqb_spec (t ++ String ":"%char v') "T") as [C|_]; [exact (X "T" ltac:(intros [H|[]]; discriminate H) C)|discriminate].
    - destruct (String.eqb_spec (t ++ String ":"%char v') "t") as [C|_]; [exact (X "t" ltac:(intros [H|[]]; discriminate H) C)|discriminate]. }
  assert (LW : forall w, lower w = w -> (match w with String a s => word_ascii a && forallb inner (list_ascii_of_string s) | EmptyString => false end)%bool = true -> lower_word w) by (intros w E B; split; [apply word_bool, B|apply lower_fix, E]).
  split; [exact NV|]. split; [|split; [|intros l x; reflexivity]].
  - repeat apply Forall_cons; [| | |constructor]; (split; [split; [repeat constructor; unfold wf_ident; cbn; try (apply word_bool; reflexivity); intros [C|[]]; discriminate C|cbn; lia]|]);
      intros r St; apply stands_planned in St; cbn in St; injection St as <-; cbn [in_catalog in_schema called fargs]; (split; [intros v v' E _; try discriminate E|intros E; try discriminate E; intros [C|[]]; discriminate C]);
      (split; [auto; right; discriminate|]); (split; [apply LW; reflexivity|]); (split; [apply LW; reflexivity|]); (split; [apply LW; reflexivity|]); intros p; apply NC.
  - intros f f' v v' x I I' A A' L L'. apply lower_case_lower in L, L'. unfold ex_datetime. rewrite L, L'. reflexivity.
Qed.
Example ex_search_path : ex_run "s" (fun l => l) ex_map [ex_versioned [("t", false)] "2022-01-01T00:00:00Z"] = None.
Proof. vm_compute. reflexivity. Qed.
Example ex_quoted : ex_run "public" (fun l => l) ex_map [ex_versioned [("T", true)] "2022-01-01T00:00:00Z"] = Some [AtVersion 1 5].
Proof. vm_compute. reflexivity. Qed.
