(* Lemmas about time travel. *)
From Coq Require Import Ascii String List Bool Arith Lia.
Import ListNotations.
From Verif Require Import DdlModel DdlSpec DdlProofs TravelModel TravelSpec.
Open Scope string_scope.
Open Scope list_scope.

(* Strings *)
Lemma app_nil_s (s : string) : (s ++ "")%string = s. Proof. induction s; cbn; congruence. Qed.
Lemma app_assoc_s (a b c : string) : ((a ++ b) ++ c)%string = (a ++ (b ++ c))%string. Proof. induction a; cbn; congruence. Qed.
Lemma snoc_app s a r : (snoc s a ++ r)%string = (s ++ String a r)%string. Proof. unfold snoc. rewrite app_assoc_s. reflexivity. Qed.
Lemma lower_app a b : lower (a ++ b) = (lower a ++ lower b)%string. Proof. induction a; cbn; congruence. Qed.
Lemma list_app (a b : string) : list_ascii_of_string (a ++ b) = list_ascii_of_string a ++ list_ascii_of_string b. Proof. induction a; cbn; congruence. Qed.
Lemma lower_fix s : lower_case s s <-> lower s = s.
Proof. split; [apply lower_case_lower|]. intros E. pose proof (lower_spec s) as H. rewrite E in H. exact H. Qed.
Lemma lower_ascii_idem a : lower_ascii (lower_ascii a) = lower_ascii a.
Proof.
  unfold lower_ascii at 2 3. destruct (Nat.leb 65 (nat_of_ascii a) && Nat.leb (nat_of_ascii a) 90) eqn:E; [|unfold lower_ascii; rewrite E; reflexivity].
  apply andb_true_iff in E as [E1 E2]. apply Nat.leb_le in E1, E2. unfold lower_ascii. rewrite nat_ascii_embedding by lia.
  replace (Nat.leb (nat_of_ascii a + 32) 90) with false by (symmetry; apply Nat.leb_gt; lia). rewrite andb_false_r. reflexivity.
Qed.
Lemma lower_idem s : lower (lower s) = lower s. Proof. induction s; cbn; [reflexivity|]. rewrite lower_ascii_idem, IHs. reflexivity. Qed.
Lemma digit_spec a : digit a = true <-> digital a.
Proof. unfold digit, digital. rewrite andb_true_iff, !Nat.leb_le. reflexivity. Qed.
Definition inner (a : ascii) : bool := (word_ascii a || digit a)%bool.
Lemma inner_spec a : inner a = true <-> wordy a \/ digital a.
Proof. unfold inner, wordy. rewrite orb_true_iff, word_ascii_spec, digit_spec. reflexivity. Qed.
Lemma word_inner w : word w -> exists a s, w = String a s /\ word_ascii a = true /\ Forall (fun b => inner b = true) (list_ascii_of_string s).
Proof. intros (a & s & -> & H & F). exists a, s. split; [reflexivity|]. split; [apply word_ascii_spec; exact H|]. eapply Forall_impl; [|exact F]. intros b. apply inner_spec. Qed.
Lemma word_bool w : (match w with String a s => word_ascii a && forallb inner (list_ascii_of_string s) | EmptyString => false end)%bool = true -> word w.
Proof.
  destruct w as [|a s]; [discriminate|]. intros H. apply andb_true_iff in H as [H1 H2]. exists a, s. split; [reflexivity|]. split; [apply word_ascii_spec, H1|].
  rewrite Forall_forall. rewrite forallb_forall in H2. intros b I. apply inner_spec, H2, I.
Qed.
Lemma word_chars w a : word w -> In a (list_ascii_of_string w) -> inner a = true.
Proof.
  intros H I. apply word_inner in H as (x & s & -> & X & F). cbn in I. destruct I as [->|I]; [unfold inner; rewrite X; reflexivity|]. rewrite Forall_forall in F. exact (F a I).
Qed.
Lemma word_no w a : word w -> inner a = false -> ~ In a (list_ascii_of_string w).
Proof. intros H F I. rewrite (word_chars w a H I) in F. discriminate. Qed.
Definition no_colon (s : string) : Prop := ~ In ":"%char (list_ascii_of_string s).
Lemma word_no_colon w : word w -> no_colon w. Proof. intros H. apply (word_no w ":"%char H). reflexivity. Qed.

(* Reading a name back *)
Lemma scan_word w s rest : Forall (fun b => inner b = true) (list_ascii_of_string s) -> scan (InWord w) (s ++ rest) = scan (InWord (w ++ s)) rest.
Proof.
  revert w. induction s as [|a s IH]; intros w F; [rewrite app_nil_s; reflexivity|]. inversion F as [|? ? Fa Fs]; subst. cbn [scan append].
  unfold inner in Fa. rewrite Fa. rewrite IH by exact Fs. rewrite snoc_app. reflexivity.
Qed.
Lemma scan_quotes w s rest : ~ In quote (list_ascii_of_string s) -> scan (InQuotes w) (s ++ String quote rest) = scan (AfterQuotes (w ++ s)) rest.
Proof.
  revert w. induction s as [|a s IH]; intros w F; [rewrite app_nil_s; reflexivity|]. cbn [scan append]. destruct (Ascii.eqb_spec a quote) as [->|N]; [exfalso; apply F; left; reflexivity|].
  rewrite IH by (intros C; apply F; right; exact C). rewrite snoc_app. reflexivity.
Qed.
Lemma scan_ident i rest : wf_ident i -> scan Start (print_ident i ++ rest) = scan (if snd i then AfterQuotes (fst i) else InWord (fst i)) rest.
Proof.
  destruct i as [v []]; unfold wf_ident, print_ident; cbn [fst snd]; intros H.
  - cbn [append scan]. change (Ascii.eqb quote quote) with true. cbn match. rewrite app_assoc_s. cbn [append]. rewrite scan_quotes by exact H. reflexivity.
  - apply word_inner in H as (a & s & -> & Ha & Fs). cbn [append scan]. destruct (Ascii.eqb_spec a quote) as [->|N]; [discriminate Ha|]. rewrite Ha. rewrite scan_word by exact Fs. reflexivity.
Qed.
Lemma scan_name n : Forall wf_ident n -> n <> [] -> scan Start (print_name n) = Some (map normal n).
Proof.
  induction n as [|i n IH]; intros F N; [contradiction|]. inversion F as [|? ? Fi Fn]; subst. destruct n as [|j n].
  - cbn [print_name]. rewrite <- (app_nil_s (print_ident i)), (scan_ident i "" Fi). unfold normal. destruct i as [v []]; reflexivity.
  - change (print_name (i :: j :: n)) with (print_ident i ++ String "."%char (print_name (j :: n)))%string. rewrite (scan_ident i _ Fi).
    specialize (IH Fn ltac:(discriminate)). unfold normal at 1. destruct i as [v []]; cbn [fst snd scan]; rewrite IH; reflexivity.
Qed.
Lemma says_normal i x : says i x <-> x = normal i.
Proof.
  destruct i as [v []]; unfold says, normal; cbn [fst snd]; [reflexivity|]. split; [intros H; symmetry; apply lower_case_lower, H|intros ->; apply lower_spec].
Qed.
Lemma stands_planned D S n r : stands_for D S n r <-> planned D S n = Some r.
Proof.
  destruct r as [c s t]. destruct n as [|i [|j [|k [|]]]]; cbn [stands_for planned map resolve in_catalog in_schema called]; rewrite ?says_normal; try (split; [intros []|discriminate]);
    (split; [intros (-> & -> & ->); reflexivity|intros E; injection E as <- <- <-; auto]).
Qed.
Lemma planned_wf D S n : wf n -> exists r, planned D S n = Some r.
Proof. intros [_ L]. destruct n as [|i [|j [|k [|]]]]; cbn in L; try lia; eexists; reflexivity. Qed.

Lemma with_version_inj t t' v v' : no_colon t -> no_colon t' -> with_version t v = with_version t' v' -> t = t' /\ lower v = lower v'.
Proof.
  unfold with_version, no_colon. revert t'. induction t as [|a t IH]; intros [|a' t'] N N' E; cbn in E.
  - injection E as E. auto.
  - injection E as <- _. exfalso. apply N'. left. reflexivity.
  - injection E as -> _. exfalso. apply N. left. reflexivity.
  - injection E as <- E. destruct (IH t') as [-> H]; auto; intros C; [apply N|apply N']; right; exact C.
Qed.
Lemma with_version_colon t v : ~ no_colon (with_version t v).
Proof. unfold no_colon, with_version. rewrite list_app. intros C. apply C. apply in_or_app. right. left. reflexivity. Qed.
Lemma set_last_map n x : n <> [] -> map normal (set_last n x) = map normal (removelast n) ++ [normal (x, snd (last n (EmptyString, true)))].
Proof.
  induction n as [|[v q] n IH]; intros N; [contradiction|]. destruct n as [|j n]; [reflexivity|]. change (set_last ((v, q) :: j :: n) x) with ((v, q) :: set_last (j :: n) x).
  cbn [map]. rewrite IH by discriminate. reflexivity.
Qed.

Section Travel.
Variable other : string -> list string.
Variable time : Type.
Variable datetime : string -> option time.
Variable load : nat -> time -> option nat.
Notation visit := (visit other).
Notation from_text := (from_text other).
Notation register_version := (register_version other time datetime load).
Notation register_versions := (register_versions other time datetime load).
Notation versions := (versions other).
Notation at_time := (at_time time datetime load).
Notation reads := (reads time datetime load).

Lemma from_name n : Forall wf_ident n -> n <> [] -> from_text (print_name n) = map normal n.
Proof. intros F N. unfold TravelModel.from_text. rewrite (scan_name n F N). reflexivity. Qed.
Lemma resolve_planned D S n text r : planned D S n = Some r -> resolve D S (map normal n) text = r.
Proof. destruct n as [|i [|j [|k [|]]]]; cbn; intros E; try discriminate; injection E as <-; reflexivity. Qed.
Lemma visit_version D S f v r : fargs f = Some [Literal v] -> wf (fname f) -> planned D S (fname f) = Some r ->
  visit D S f = ({| fname := set_last (fname f) (with_version (called r) v); fargs := None; falias := falias f |}, Some (r, v)).
Proof.
  intros E [F L] P. unfold TravelModel.visit. rewrite E. rewrite from_name; [|exact F|intros C; rewrite C in L; cbn in L; lia]. rewrite (resolve_planned D S _ _ r P). reflexivity.
Qed.
Lemma visit_plain D S f : (forall v, fargs f <> Some [Literal v]) -> visit D S f = (f, None).
Proof. intros H. unfold TravelModel.visit. destruct (fargs f) as [[|[v|] [|]]|]; try reflexivity. exfalso. exact (H v eq_refl). Qed.
(* the name with the version, planned *)
Lemma planned_version D S n r v : planned D S n = Some r -> lower (called r) = called r ->
  planned D S (set_last n (with_version (called r) v)) = Some {| in_catalog := in_catalog r; in_schema := in_schema r; called := with_version (called r) v |}.
Proof.
  intros P L. assert (X : forall q, normal (with_version (called r) v, q) = with_version (called r) v).
  { intros []; [reflexivity|]. unfold normal, with_version. cbn [fst snd]. rewrite lower_app, L. cbn. rewrite lower_idem. reflexivity. }
  destruct n as [|[a qa] [|[b qb] [|[c qc] [|]]]]; cbn in P; try discriminate; injection P as <-; cbn [set_last planned map called] in *; rewrite X; reflexivity.
Qed.
Lemma lower_words_back r : lower_word (in_catalog r) -> lower_word (in_schema r) -> lower_word (called r) -> forall D S,
  resolve D S (from_text (print_name [(in_catalog r, false); (in_schema r, false); (called r, false)])) (print_name [(in_catalog r, false); (in_schema r, false); (called r, false)]) = r.
Proof.
  intros [W1 L1] [W2 L2] [W3 L3] D S. rewrite from_name; [|repeat constructor; assumption|discriminate]. unfold normal. cbn [map fst snd resolve].
  rewrite (proj1 (lower_fix _) L1), (proj1 (lower_fix _) L2), (proj1 (lower_fix _) L3). destruct r; reflexivity.
Qed.
Lemma there_find D m r p : there D m r p <-> find_table D m r = Some p.
Proof.
  unfold there, find_table, find_schema. destruct (String.eqb_spec (in_catalog r) D) as [E|N].
  - split; [intros (_ & ts & -> & H); exact H|]. destruct (m (in_schema r)) as [ts|]; [|discriminate]. intros H. split; [exact E|]. exists ts. auto.
  - split; [intros (C & _); contradiction|discriminate].
Qed.
Lemma find_add D m r p r' : in_catalog r = D -> find_table D (add_table m r p) r' =
  match find_schema D m r' with
  | None => None
  | Some ts => if (String.eqb (in_schema r') (in_schema r) && String.eqb (called r') (called r))%bool then Some p else ts (called r')
  end.
Proof.
  intros _. unfold find_table, find_schema, add_table. destruct (String.eqb (in_catalog r') D); [|reflexivity].
  destruct (String.eqb_spec (in_schema r') (in_schema r)) as [E|N]; [|destruct (m (in_schema r')); reflexivity].
  destruct (m (in_schema r')) as [ts|]; [|reflexivity]. cbn [andb]. reflexivity.
Qed.
Lemma find_schema_add D m r p r' : (find_schema D (add_table m r p) r' = None <-> find_schema D m r' = None).
Proof.
  unfold find_schema, add_table. destruct (String.eqb (in_catalog r') D); [|reflexivity]. destruct (String.eqb (in_schema r') (in_schema r)); [|reflexivity].
  destruct (m (in_schema r')); [split; discriminate|reflexivity].
Qed.

(* The tables that come from a reload and the versions in l *)
Section Registering.
Variable D S : string.
Variable m : schema_map.
Hypothesis fresh : no_versions m.
Definition versioned (x : table * string) : table := {| in_catalog := in_catalog (fst x); in_schema := in_schema (fst x); called := with_version (called (fst x)) (snd x) |}.
Definition good (x : table * string) : Prop := lower_word (in_catalog (fst x)) /\ lower_word (in_schema (fst x)) /\ lower_word (called (fst x)) /\ find_table D m (versioned x) = None.
Record holds (l : list (table * string)) (m' : schema_map) : Prop := {
  h_dom : forall r, find_schema D m' r = None <-> find_schema D m r = None;
  h_old : forall r p, find_table D m r = Some p -> find_table D m' r = Some p;
  h_new : forall r p, find_table D m' r = Some p -> find_table D m r = Some p \/ exists x, In x l /\ r = versioned x /\ at_time D m (fst x) (snd x) p;
  h_all : forall x, In x l -> exists p, find_table D m' (versioned x) = Some p /\ at_time D m (fst x) (snd x) p }.
Lemma find_latest r p : find_table D m r = Some p -> forall u v, p <> AtVersion u v.
Proof.
  unfold find_table, find_schema. destruct (String.eqb (in_catalog r) D); [|discriminate]. destruct (m (in_schema r)) as [ts|] eqn:E; [|discriminate]. intros H u v ->. exact (fresh _ _ _ _ _ E H).
Qed.
Lemma register_one l m' x m'' : holds l m' -> good x -> (forall y, In y l -> good y) -> (forall y, In y l -> lower (snd y) = lower (snd x) -> datetime (snd y) = datetime (snd x)) ->
  register_version D S x m' = Some m'' -> holds (x :: l) m''.
Proof.
  intros [Hd Ho Hn Ha] (W1 & W2 & W3 & Nv) G T E. destruct x as [r v]. cbn [fst snd] in *. unfold TravelModel.register_version in E. cbv zeta in E. rewrite (lower_words_back r W1 W2 W3 D S) in E.
  assert (Er : forall p, find_table D m' r = Some p -> find_table D m r = Some p).
  { intros p H. apply Hn in H as [H|(y & _ & -> & _)]; [exact H|]. exfalso. cbn in W3. exact (with_version_colon _ _ (word_no_colon _ (proj1 W3))). }
  destruct (find_table D m' r) as [p|] eqn:F; [|discriminate]. specialize (Er p eq_refl).
  assert (exists u, p = Latest u) as [u ->].
  { destruct p as [u|u w|]; [exists u; reflexivity| |discriminate]. exfalso. exact (find_latest _ _ Er u w eq_refl). }
  destruct (datetime v) as [d|] eqn:Ed; [|discriminate]. destruct (load u d) as [ver|] eqn:El; [|discriminate].
  assert (A : at_time D m r v (AtVersion u ver)) by (exists u, d, ver; split; [apply there_find; exact Er|auto]).
  change {| in_catalog := in_catalog r; in_schema := in_schema r; called := with_version (called r) v |} with (versioned (r, v)) in E.
  destruct (find_table D m' (versioned (r, v))) as [p|] eqn:Fv.
  - injection E as <-. constructor; [exact Hd|exact Ho| |].
    + intros r' p' H. apply Hn in H as [H|(y & I & -> & H)]; [left; exact H|right; exists y; split; [right; exact I|auto]].
    + intros y [<-|I]; [|exact (Ha y I)]. cbn [fst snd]. exists p. split; [exact Fv|]. apply Hn in Fv as [Fv|(y & I & Ey & H)]; [rewrite Fv in Nv; discriminate|].
      destruct (G y I) as (_ & _ & [Wy _] & _). unfold versioned in Ey. cbn [fst snd] in Ey. injection Ey as E1 E2 E3. apply with_version_inj in E3 as [E3 E4]; [|apply word_no_colon, W3|apply word_no_colon, Wy].
      destruct y as [ry vy]. cbn [fst snd] in *. assert (ry = r) by (destruct ry, r; cbn in *; congruence). subst ry.
      destruct H as (u' & d' & ver' & H1 & H2 & H3 & ->). pose proof (T _ I (eq_sym E4)) as X. cbn in X. exists u', d', ver'. split; [exact H1|]. split; [congruence|]. split; [exact H3|reflexivity].
  - injection E as <-. assert (Ec : in_catalog r = D) by (apply there_find in Er as (Ec & _); exact Ec).
    assert (Es : find_schema D m' (versioned (r, v)) <> None).
    { intros C. assert (C2 : find_schema D m' r = None) by (unfold find_schema, versioned in C; cbn [fst in_catalog in_schema] in C; exact C). unfold find_table in F. rewrite C2 in F. discriminate. }
    constructor.
    + intros r'. rewrite find_schema_add. apply Hd.
    + intros r' p' H. rewrite find_add by exact Ec. pose proof (Ho _ _ H) as H'. unfold find_table in H'. destruct (find_schema D m' r') as [ts|] eqn:Ef; [|discriminate].
      destruct (String.eqb_spec (in_schema r') (in_schema (versioned (r, v)))) as [E1|N]; [|exact H']. destruct (String.eqb_spec (called r') (called (versioned (r, v)))) as [E2|N]; [|exact H'].
      exfalso. cbn in E1, E2. assert (r' = versioned (r, v)).
      { unfold versioned. cbn [fst snd]. apply there_find in H as (Ec' & _). destruct r'; cbn in *; congruence. } subst r'. rewrite H in Nv. discriminate.
    + intros r' p'. rewrite find_add by exact Ec. destruct (find_schema D m' r') as [ts|] eqn:Ef; [|discriminate].
      destruct (String.eqb_spec (in_schema r') (in_schema (versioned (r, v)))) as [E1|N].
      * destruct (String.eqb_spec (called r') (called (versioned (r, v)))) as [E2|N]; cbn [andb].
        -- intros H. injection H as <-. right. exists (r, v). split; [left; reflexivity|]. split; [|exact A].
           unfold find_schema in Ef. destruct (String.eqb_spec (in_catalog r') D) as [E3|]; [|discriminate]. destruct r'; unfold versioned in *; cbn in *. congruence.
        -- intros H. assert (H' : find_table D m' r' = Some p') by (unfold find_table; rewrite Ef; exact H). apply Hn in H' as [H'|(y & I & -> & H')]; [left; exact H'|right; exists y; split; [right; exact I|auto]].
      * cbn [andb]. intros H. assert (H' : find_table D m' r' = Some p') by (unfold find_table; rewrite Ef; exact H). apply Hn in H' as [H'|(y & I & -> & H')]; [left; exact H'|right; exists y; split; [right; exact I|auto]].
    + intros y [<-|I].
      * exists (AtVersion u ver). split; [|exact A]. rewrite find_add by exact Ec. destruct (find_schema D m' (versioned (r, v))) as [ts|]; [|contradiction]. rewrite !String.eqb_refl. reflexivity.
      * destruct (Ha y I) as (p & H & H'). exists p. split; [|exact H']. rewrite find_add by exact Ec. unfold find_table in H. destruct (find_schema D m' (versioned y)) as [ts|] eqn:Ef; [|discriminate].
        destruct (String.eqb_spec (in_schema (versioned y)) (in_schema (versioned (r, v)))) as [E1|N]; [|exact H].
        destruct (String.eqb_spec (called (versioned y)) (called (versioned (r, v)))) as [E2|N]; [|exact H]. exfalso.
        assert (versioned y = versioned (r, v)).
        { unfold find_schema in Ef. destruct (String.eqb_spec (in_catalog (versioned y)) D) as [E3|]; [|discriminate]. destruct (versioned y), (versioned (r, v)) eqn:Ev. cbn in *. unfold versioned in Ev. cbn in Ev. injection Ev as <- <- <-. congruence. }
        rewrite <- H0 in Fv. unfold find_table in Fv. rewrite Ef in Fv. rewrite H in Fv. discriminate.
Qed.
Lemma register_can l m' x p : holds l m' -> good x -> at_time D m (fst x) (snd x) p -> exists m'', register_version D S x m' = Some m''.
Proof.
  intros [Hd Ho Hn Ha] (W1 & W2 & W3 & Nv) (u & d & ver & H1 & H2 & H3 & _). destruct x as [r v]. cbn [fst snd] in *. unfold TravelModel.register_version. cbv zeta. rewrite (lower_words_back r W1 W2 W3 D S).
  apply there_find in H1. rewrite (Ho _ _ H1), H2, H3. destruct (find_table D m' _); eexists; reflexivity.
Qed.
Lemma holds_start : holds [] m.
Proof. constructor; [reflexivity|auto|auto|intros x []]. Qed.
Definition times_agree (l : list (table * string)) : Prop := forall x y, In x l -> In y l -> lower (snd y) = lower (snd x) -> datetime (snd y) = datetime (snd x).
Lemma register_all todo : forall l m' m'', holds l m' -> (forall x, In x (todo ++ l) -> good x) -> times_agree (todo ++ l) -> register_versions D S todo m' = Some m'' ->
  holds (rev todo ++ l) m''.
Proof.
  induction todo as [|x todo IH]; cbn [TravelModel.register_versions]; intros l m' m'' H G T E; [injection E as <-; exact H|].
  destruct (register_version D S x m') as [m1|] eqn:E1; [|discriminate].
  assert (H1 : holds (x :: l) m1).
  { eapply register_one; [exact H|apply G; left; reflexivity| | |exact E1].
    - intros y I. apply G. right. apply in_or_app. right. exact I.
    - intros y I. apply T; [left; reflexivity|right; apply in_or_app; right; exact I]. }
  cbn [rev]. rewrite <- app_assoc. cbn [app]. eapply IH; [exact H1| | |exact E].
  - intros y I. apply G. apply in_app_or in I as [I|[->|I]]; [right; apply in_or_app; left; exact I|left; reflexivity|right; apply in_or_app; right; exact I].
  - intros y z Iy Iz. apply T; (apply in_app_or in Iy as [I|[->|I]]; [right; apply in_or_app; left; exact I|left; reflexivity|right; apply in_or_app; right; exact I]) || (apply in_app_or in Iz as [I|[->|I]]; [right; apply in_or_app; left; exact I|left; reflexivity|right; apply in_or_app; right; exact I]).
Qed.
Lemma register_all_can todo : forall l m', holds l m' -> (forall x, In x (todo ++ l) -> good x) -> times_agree (todo ++ l) -> (forall x, In x todo -> exists p, at_time D m (fst x) (snd x) p) ->
  exists m'', register_versions D S todo m' = Some m''.
Proof.
  induction todo as [|x todo IH]; cbn [TravelModel.register_versions]; intros l m' H G T A; [eexists; reflexivity|].
  destruct (A x (or_introl eq_refl)) as (p & Ap). destruct (register_can l m' x p H (G x (or_introl eq_refl)) Ap) as (m1 & E1). rewrite E1.
  eapply IH; [eapply register_one; [exact H|apply G; left; reflexivity| | |exact E1]| | |].
  - intros y I. apply G. right. apply in_or_app. right. exact I.
  - intros y I. apply T; [left; reflexivity|right; apply in_or_app; right; exact I].
  - intros y I. apply G. apply in_app_or in I as [I|[->|I]]; [right; apply in_or_app; left; exact I|left; reflexivity|right; apply in_or_app; right; exact I].
  - intros y z Iy Iz. apply T; (apply in_app_or in Iy as [I|[->|I]]; [right; apply in_or_app; left; exact I|left; reflexivity|right; apply in_or_app; right; exact I]) || (apply in_app_or in Iz as [I|[->|I]]; [right; apply in_or_app; left; exact I|left; reflexivity|right; apply in_or_app; right; exact I]).
  - intros y I. apply A. right. exact I.
Qed.
End Registering.
End Travel.
