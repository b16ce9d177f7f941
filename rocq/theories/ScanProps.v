(* C155: what a scan of a remote table returns.
   Specification: ScanSpec.v. Model: ScanModel.v. *)
From Coq Require Import List Arith Bool Lia.
From Verif Require Import ScanModel ScanSpec.
Import ListNotations.

Lemma all_nth : forall {A B} (f : A -> option B) l ys, all f l = Some ys ->
  length ys = length l /\ forall k x, nth_error l k = Some x -> exists y, nth_error ys k = Some y /\ f x = Some y.
Proof.
  intros A B f l. induction l as [|x l IH]; intros ys H; cbn in H.
  - injection H as <-. split; [reflexivity|]. intros [|k] x H; discriminate H.
  - destruct (f x) as [y|] eqn:F; [|discriminate H]. destruct (all f l) as [zs|]; [|discriminate H]. injection H as <-. destruct (IH zs eq_refl) as [L N]. split; [cbn; lia|].
    intros [|k] z H; cbn in H |- *; [injection H as <-; eauto|exact (N k z H)].
Qed.
Lemma all_some : forall {A B} (f : A -> option B) l, (forall x, In x l -> f x <> None) -> exists ys, all f l = Some ys.
Proof.
  intros A B f l. induction l as [|x l IH]; intros H; [exists []; reflexivity|]. cbn. destruct (f x) as [y|] eqn:F; [|destruct (H x (or_introl eq_refl) F)].
  destruct IH as [ys E]; [intros z Z; apply H; right; exact Z|]. rewrite E. eauto.
Qed.
Lemma all_none : forall {A B} (f : A -> option B) l x, In x l -> f x = None -> all f l = None.
Proof.
  intros A B f l. induction l as [|y l IH]; intros x [] F; cbn; [subst; rewrite F; reflexivity|]. rewrite (IH x H F). destruct (f y); reflexivity.
Qed.
Lemma index_of_nth : forall l k n, NoDup l -> nth_error l k = Some n -> index_of n l = Some k.
Proof.
  induction l as [|x l IH]; intros k n U H; [destruct k; discriminate H|]. inversion U as [|? ? U1 U2]; subst. destruct k as [|k]; cbn in H |- *.
  - injection H as ->. rewrite Nat.eqb_refl. reflexivity.
  - destruct (Nat.eqb_spec x n) as [->|_]; [destruct U1; exact (nth_error_In _ _ H)|]. rewrite (IH k n U2 H). reflexivity.
Qed.
Lemma index_of_some : forall l n i, index_of n l = Some i -> nth_error l i = Some n.
Proof.
  induction l as [|x l IH]; intros n i H; cbn in H; [discriminate H|]. destruct (Nat.eqb_spec x n) as [->|_]; [injection H as <-; reflexivity|].
  destruct (index_of n l) as [j|] eqn:E; [|discriminate H]. injection H as <-. cbn. exact (IH n j E).
Qed.
Lemma index_of_none : forall l n, index_of n l = None -> ~ In n l.
Proof.
  induction l as [|x l IH]; intros n H; cbn in H; [intros []|]. destruct (Nat.eqb_spec x n) as [->|N]; [discriminate H|].
  destruct (index_of n l) as [j|] eqn:E; [discriminate H|]. intros [X|X]; [contradiction|]. exact (IH n E X).
Qed.
Lemma field_eqb_eq : forall a b, field_eqb a b = true -> a = b.
Proof.
  intros [a1 a2 a3] [b1 b2 b3] H. unfold field_eqb in H. cbn in H. apply andb_true_iff in H as [H H3]. apply andb_true_iff in H as [H1 H2].
  apply Nat.eqb_eq in H1, H2. apply eqb_prop in H3. subst. reflexivity.
Qed.
Lemma fields_eqb_eq : forall a b, fields_eqb a b = true -> a = b.
Proof.
  induction a as [|x a IH]; intros [|y b] H; cbn in H; try discriminate H; [reflexivity|]. apply andb_true_iff in H as [H1 H2]. rewrite (field_eqb_eq _ _ H1), (IH b H2). reflexivity.
Qed.
Lemma Forall2_nth : forall {A B} (R : A -> B -> Prop) l m, length l = length m ->
  (forall k x y, nth_error l k = Some x -> nth_error m k = Some y -> R x y) -> Forall2 R l m.
Proof.
  intros A B R l. induction l as [|x l IH]; intros [|y m] L H; try discriminate L; constructor.
  - exact (H 0 x y eq_refl eq_refl).
  - apply IH; [cbn in L; lia|]. intros k. exact (H (S k)).
Qed.
Lemma nth_combine : forall {A B} (l : list A) (m : list B) k x y, nth_error l k = Some x -> nth_error m k = Some y -> nth_error (combine l m) k = Some (x, y).
Proof.
  intros A B l. induction l as [|a l IH]; intros [|b m] [|k] x y H1 H2; cbn in *; try discriminate; [injection H1 as ->; injection H2 as ->; reflexivity|]. exact (IH m k x y H1 H2).
Qed.
Lemma nth_is : forall (r : list (option nat)) i, i < length r -> nth_error r i = Some (nth i r None).
Proof. intros r i H. apply nth_error_nth'. exact H. Qed.

Section P.
Variable lenient : bool.
Variable text_type : nat.
Variable text_of : nat -> nat.
Variable can_cast : nat -> nat -> bool.
Variable convert : nat -> nat -> nat -> option nat.
Variable keep : list (option nat) -> bool.
Notation item := (item lenient text_type text_of).
Notation answer := (answer lenient text_type text_of keep).
Notation scan := (scan lenient text_type text_of can_cast convert keep).
Notation cast_expr := (cast_expr can_cast).
Notation eval := (eval convert).
Notation as_type := (as_type convert).
Notation shows := (shows convert).
Notation offers := (offers can_cast).
Notation kept t limit := (selected keep t limit).
Lemma answer_rows : forall t names limit, answer t names limit =
  match names with
  | None => Some (map described (r_columns t), kept t limit)
  | Some ns => match all (item t) ns with
               | Some items => Some (map fst items, map (fun r => map (fun x => snd x r) items) (kept t limit))
               | None => None
               end
  end.
Proof. intros t names limit. unfold ScanModel.answer, limited, selected. destruct limit; reflexivity. Qed.

(* the second half of a scan *)
Definition turned (schema src : list field) (rows : list (list (option nat))) : option (list field * list (list (option nat))) :=
  if fields_eqb src schema then Some (schema, rows)
  else match all (fun p => cast_expr schema src (fst p) (snd p)) (combine schema src) with
       | None => None
       | Some es => match all (fun r => all (fun e => eval e r) es) rows with None => None | Some out => Some (map fst (combine schema src), out) end
       end.
Lemma scan_turned : forall declared t projection limit,
  scan declared t projection limit =
    match (match projection with None => Some declared | Some is => project declared is end) with
    | None => None
    | Some schema => match answer t (match projection with None => None | Some _ => Some (map f_name schema) end) limit with
                     | None => None
                     | Some (src, rows) => turned schema src rows
                     end
    end.
Proof. reflexivity. Qed.

Lemma cast_at : forall schema src k f s e, NoDup (map f_name schema) -> nth_error schema k = Some f -> nth_error src k = Some s ->
  cast_expr schema src f s = Some e -> forall r v, nth_error r k = Some v -> eval e r = as_type (f_type s) (f_type f) v.
Proof.
  intros schema src k f s e U F S C r v V. unfold ScanModel.cast_expr in C.
  rewrite (index_of_nth _ k _ U (map_nth_error f_name k schema F)) in C. destruct (field_eqb s f) eqn:E.
  - injection C as <-. apply field_eqb_eq in E. subst s. unfold ScanModel.eval. cbn [e_index e_cast]. rewrite V. unfold ScanSpec.as_type. destruct v; [|reflexivity]. rewrite Nat.eqb_refl. reflexivity.
  - rewrite S in C. destruct (Nat.eqb (f_type s) (f_type f)) eqn:T; [|destruct (can_cast (f_type s) (f_type f)); [|discriminate C]]; injection C as <-;
      unfold ScanModel.eval; cbn [e_index e_cast]; rewrite V; unfold ScanSpec.as_type; destruct v; try reflexivity; rewrite T; [reflexivity|]. destruct (convert _ _ _); reflexivity.
Qed.
Lemma cast_ok : forall schema src k f s, NoDup (map f_name schema) -> nth_error schema k = Some f -> nth_error src k = Some s ->
  (f_type s = f_type f \/ can_cast (f_type s) (f_type f) = true) -> cast_expr schema src f s <> None.
Proof.
  intros schema src k f s U F S H. unfold ScanModel.cast_expr. rewrite (index_of_nth _ k _ U (map_nth_error f_name k schema F)). destruct (field_eqb s f); [discriminate|].
  rewrite S. destruct (Nat.eqb_spec (f_type s) (f_type f)); [discriminate|]. destruct H as [H|H]; [contradiction|]. rewrite H. discriminate.
Qed.

(* by position *)
Lemma turned_at : forall schema src rows fs out, NoDup (map f_name schema) -> Forall (fun r => length r = length src) rows ->
  turned schema src rows = Some (fs, out) ->
  fs = map fst (combine schema src) /\ length out = length rows /\
  forall j r o, nth_error rows j = Some r -> nth_error out j = Some o ->
    length o = length fs /\
    forall k f s v, nth_error schema k = Some f -> nth_error src k = Some s -> nth_error r k = Some v -> exists w, nth_error o k = Some w /\ as_type (f_type s) (f_type f) v = Some w.
Proof.
  intros schema src rows fs out U L H. unfold turned in H. destruct (fields_eqb src schema) eqn:E.
  - injection H as <- <-. apply fields_eqb_eq in E. subst src. split.
    + clear. induction schema as [|x l IH]; [reflexivity|]. cbn. rewrite <- IH. reflexivity.
    + split; [reflexivity|]. intros j r o R O. rewrite R in O. injection O as <-. split; [rewrite Forall_forall in L; exact (L r (nth_error_In _ _ R))|].
      intros k f s v F S V. rewrite F in S. injection S as <-. exists v. split; [exact V|]. unfold ScanSpec.as_type. destruct v; [|reflexivity]. rewrite Nat.eqb_refl. reflexivity.
  - destruct (all _ (combine schema src)) as [es|] eqn:ES; [|discriminate H]. destruct (all _ rows) as [out'|] eqn:OUT; [|discriminate H]. injection H as <- <-.
    destruct (all_nth _ _ _ ES) as [L1 N1]. destruct (all_nth _ _ _ OUT) as [L2 N2]. split; [reflexivity|]. split; [exact L2|]. intros j r o R O.
    destruct (N2 j r R) as (o' & O' & EO). rewrite O in O'. injection O' as <-. destruct (all_nth _ _ _ EO) as [L3 N3]. split; [rewrite L3, L1, map_length; reflexivity|].
    intros k f s v F S V. destruct (N1 k (f, s) (nth_combine _ _ _ _ _ F S)) as (e & Ek & C). destruct (N3 k e Ek) as (w & W & EV). exists w. split; [exact W|].
    rewrite <- EV. symmetry. exact (cast_at schema src k f s e U F S C r v V).
Qed.
Lemma turned_ok : forall schema src rows, NoDup (map f_name schema) -> length src = length schema -> Forall (fun r => length r = length src) rows ->
  (forall k f s, nth_error schema k = Some f -> nth_error src k = Some s -> f_type s = f_type f \/ can_cast (f_type s) (f_type f) = true) ->
  (forall r k f s v, In r rows -> nth_error schema k = Some f -> nth_error src k = Some s -> nth_error r k = Some v -> as_type (f_type s) (f_type f) v <> None) ->
  exists out, turned schema src rows = Some (schema, out).
Proof.
  intros schema src rows U Ls L T V. unfold turned. destruct (fields_eqb src schema); [eauto|].
  assert (K : forall p, In p (combine schema src) -> exists k, nth_error schema k = Some (fst p) /\ nth_error src k = Some (snd p)).
  { clear. revert src. induction schema as [|x l IH]; intros [|y m] p H; cbn in H; try contradiction. destruct H as [<-|H]; [exists 0; auto|]. destruct (IH m p H) as [k K]. exists (S k). exact K. }
  destruct (all_some (fun p => cast_expr schema src (fst p) (snd p)) (combine schema src)) as [es ES].
  { intros p P. destruct (K p P) as (k & K1 & K2). exact (cast_ok schema src k _ _ U K1 K2 (T k _ _ K1 K2)). }
  rewrite ES. destruct (all_some (fun r => all (fun e => eval e r) es) rows) as [out OUT].
  { intros r R. destruct (all_nth _ _ _ ES) as [L1 N1].
    destruct (all_some (fun e => eval e r) es) as [o O]; [|rewrite O; discriminate]. intros e Ein. apply In_nth_error in Ein as [k Ek].
    assert (Hk : k < length (combine schema src)) by (rewrite <- L1; apply nth_error_Some; rewrite Ek; discriminate).
    destruct (nth_error (combine schema src) k) as [p|] eqn:P; [|apply nth_error_Some in Hk; contradiction].
    assert (Hk2 : k < length schema /\ k < length src) by (rewrite combine_length in Hk; lia).
    destruct (nth_error schema k) as [f|] eqn:F; [|apply nth_error_None in F; lia]. destruct (nth_error src k) as [s|] eqn:S; [|apply nth_error_None in S; lia].
    pose proof (nth_combine _ _ _ _ _ F S) as C. destruct (N1 k (f, s) C) as (e' & E' & CE). rewrite Ek in E'. injection E' as <-.
    destruct (nth_error r k) as [v|] eqn:RV; [|apply nth_error_None in RV; rewrite Forall_forall in L; rewrite (L r R) in RV; lia].
    cbn [fst snd] in CE. rewrite (cast_at schema src k f s e U F S CE r v RV). exact (V r k f s v R F S RV). }
  rewrite OUT. exists out. do 2 f_equal. clear - Ls. revert src Ls. induction schema as [|x l IH]; intros [|y m] H; try discriminate H; [reflexivity|]. cbn. rewrite IH; [reflexivity|]. cbn in H. lia.
Qed.

Lemma item_known : forall t n, regular t -> In n (map fst (r_columns t)) -> exists i ty, nth_error (r_columns t) i = Some (n, ty) /\
  item t n = Some (described (n, ty), fun r => nth i r None).
Proof.
  intros t n [U _] H. unfold ScanModel.item. destruct (index_of n (map fst (r_columns t))) as [i|] eqn:E; [|destruct (index_of_none _ _ E H)].
  apply index_of_some in E. destruct (nth_error (r_columns t) i) as [[m ty]|] eqn:C.
  - rewrite (map_nth_error fst i _ C) in E. cbn in E. injection E as ->. exists i, ty. auto.
  - apply nth_error_None in C. assert (i < length (map fst (r_columns t))) by (apply nth_error_Some; rewrite E; discriminate). rewrite map_length in H0. lia.
Qed.
Lemma project_nodup : forall declared is fs, NoDup (map f_name declared) -> NoDup is -> project declared is = Some fs -> NoDup (map f_name fs).
Proof.
  intros declared is. unfold project. induction is as [|i is IH]; intros fs U N H; cbn in H; [injection H as <-; constructor|].
  destruct (nth_error declared i) as [f|] eqn:F; [|discriminate H]. destruct (all (nth_error declared) is) as [gs|] eqn:G; [|discriminate H]. injection H as <-.
  inversion N as [|? ? N1 N2]; subst. cbn. constructor; [|exact (IH gs U N2 eq_refl)]. intros X. apply in_map_iff in X as (g & E & X). apply In_nth_error in X as [k K].
  destruct (all_nth _ _ _ G) as [L1 G1]. assert (Hk : k < length is) by (rewrite <- L1; apply nth_error_Some; rewrite K; discriminate).
  destruct (nth_error is k) as [j|] eqn:J; [|apply nth_error_Some in Hk; contradiction]. destruct (G1 k j J) as (g' & K' & D). rewrite K in K'. injection K' as <-.
  apply N1. replace i with j; [exact (nth_error_In _ _ J)|]. rewrite NoDup_nth_error in U. apply U.
  - rewrite map_length. apply nth_error_Some. rewrite D. discriminate.
  - rewrite (map_nth_error f_name _ _ D), (map_nth_error f_name _ _ F), E. reflexivity.
Qed.
(* the answer to a query for columns that are there *)
Lemma answer_known : forall t fs limit, regular t -> (forall f, In f fs -> In (f_name f) (map fst (r_columns t))) ->
  exists src rows, answer t (Some (map f_name fs)) limit = Some (src, rows) /\ length src = length fs /\ length rows = length (kept t limit) /\
    Forall (fun r => length r = length src) rows /\
    forall k f, nth_error fs k = Some f -> exists i ty, nth_error (r_columns t) i = Some (f_name f, ty) /\ nth_error src k = Some (described (f_name f, ty)) /\
      forall j r r', nth_error (kept t limit) j = Some r -> nth_error rows j = Some r' -> nth_error r' k = Some (nth i r None).
Proof.
  intros t fs limit R H. rewrite answer_rows. destruct (all_some (item t) (map f_name fs)) as [items E].
  { intros n X. apply in_map_iff in X as (f & <- & X). destruct (item_known t (f_name f) R (H f X)) as (i & ty & _ & Y). rewrite Y. discriminate. }
  rewrite E. destruct (all_nth _ _ _ E) as [L N]. exists (map fst items), (map (fun r => map (fun x => snd x r) items) (kept t limit)). split; [reflexivity|].
  split; [rewrite map_length, L, map_length; reflexivity|]. split; [apply map_length|]. split.
  - apply Forall_forall. intros r X. apply in_map_iff in X as (x & <- & _). rewrite !map_length. reflexivity.
  - intros k f F. destruct (N k (f_name f) (map_nth_error f_name k fs F)) as (it & I & Y). destruct (item_known t (f_name f) R (H f (nth_error_In _ _ F))) as (i & ty & C & Z).
    rewrite Y in Z. injection Z as ->. exists i, ty. split; [exact C|]. split; [exact (map_nth_error fst k items I)|]. intros j r r' J J'.
    rewrite (map_nth_error _ j _ J) in J'. injection J' as <-. exact (map_nth_error (fun x => snd x r) k items I).
Qed.
Lemma in_kept : forall t limit r, In r (kept t limit) -> In r (r_rows t) /\ keep r = true.
Proof.
  intros t limit r H. apply filter_In. unfold selected in H. destruct limit as [n|]; [|exact H].
  rewrite <- (firstn_skipn n (filter keep (r_rows t))). apply in_or_app. left. exact H.
Qed.

(* C155: a scan for some of the declared columns returns, for every row that the filter keeps and in their order, the values of the
   remote columns with those names, converted to the declared types. *)
Theorem c155_values_partial : forall declared t is limit fs out,
  regular t -> NoDup (map f_name declared) -> NoDup is ->
  lenient = false \/ (forall f, In f fs -> In (f_name f) (map fst (r_columns t))) ->
  scan declared t (Some is) limit = Some (fs, out) ->
  project declared is = Some fs /\ Forall2 (shows t fs) (kept t limit) out.
Proof.
  intros declared t is limit fs out R U N K H. rewrite scan_turned in H. destruct (project declared is) as [schema|] eqn:P; [|discriminate H].
  pose proof (project_nodup _ _ _ U N P) as US.
  destruct (answer t (Some (map f_name schema)) limit) as [[src rows]|] eqn:A; [|discriminate H].
  assert (Ksrc : length src = length schema).
  { rewrite answer_rows in A. destruct (all (item t) (map f_name schema)) as [items|] eqn:E; [|discriminate A]. injection A as <- _. rewrite map_length. destruct (all_nth _ _ _ E) as [L _]. rewrite L. apply map_length. }
  assert (Same : forall src' rows' fs' out', length src' = length schema -> turned schema src' rows' = Some (fs', out') -> fs' = schema).
  { intros src' rows' fs' out' L T. unfold turned in T. destruct (fields_eqb src' schema); [injection T as <- _; reflexivity|]. destruct (all _ (combine schema src')); [|discriminate T].
    destruct (all _ rows'); [|discriminate T]. injection T as <- _. clear - L. revert src' L. induction schema as [|x l IH]; intros [|y m] H; try discriminate H; [reflexivity|]. cbn. rewrite IH; [reflexivity|]. cbn in H. lia. }
  pose proof (Same _ _ _ _ Ksrc H) as ->.
  assert (Known : forall f, In f schema -> In (f_name f) (map fst (r_columns t))).
  { destruct K as [K|K]; [|exact K]. intros f F. rewrite answer_rows in A. destruct (all (item t) (map f_name schema)) as [items|] eqn:E; [|discriminate A].
    apply In_nth_error in F as [k F]. destruct (all_nth _ _ _ E) as [_ X]. destruct (X k (f_name f) (map_nth_error f_name k schema F)) as (y & _ & Y).
    unfold ScanModel.item in Y. destruct (index_of (f_name f) (map fst (r_columns t))) as [i|] eqn:I; [exact (nth_error_In _ _ (index_of_some _ _ _ I))|]. rewrite K in Y. discriminate Y. }
  destruct (answer_known t schema limit R Known) as (src' & rows' & A' & L1 & L2 & L3 & V). rewrite A in A'. injection A' as <- <-.
  destruct (turned_at schema src rows schema out US L3 H) as (_ & Lo & T). split; [reflexivity|].
  apply Forall2_nth; [lia|]. intros j r o J O.
  destruct (nth_error rows j) as [r'|] eqn:J'; [|apply nth_error_None in J'; assert (j < length (kept t limit)) by (apply nth_error_Some; rewrite J; discriminate); lia].
  destruct (T j r' o J' O) as [Lo' T']. apply Forall2_nth; [symmetry; exact Lo'|]. intros k f w F W.
  destruct (V k f F) as (i & ty & C & S & G). specialize (G j r r' J J'). destruct (T' k f _ _ F S G) as (w' & W' & E). rewrite W in W'. injection W' as <-.
  exists ty, (nth i r None). split; [|exact E]. exists i. split; [exact C|]. apply nth_is. destruct R as [_ R]. rewrite Forall_forall in R. rewrite (R r).
  - apply nth_error_Some. rewrite C. discriminate.
  - apply (in_kept t limit). exact (nth_error_In _ _ J).
Qed.

(* C155: the scan succeeds if the remote table has the columns, of types that can be converted, and the values can be converted. *)
Theorem c155_succeeds : forall declared t is limit fs,
  regular t -> NoDup (map f_name declared) -> NoDup is -> project declared is = Some fs -> offers t fs ->
  (forall r f ty v, In r (kept t limit) -> In f fs -> holds t r (f_name f) ty v -> as_type ty (f_type f) v <> None) ->
  exists out, scan declared t (Some is) limit = Some (fs, out).
Proof.
  intros declared t is limit fs R U N P O V. rewrite scan_turned, P. pose proof (project_nodup _ _ _ U N P) as US.
  assert (Known : forall f, In f fs -> In (f_name f) (map fst (r_columns t))).
  { intros f F. unfold ScanSpec.offers in O. rewrite Forall_forall in O. destruct (O f F) as (ty & X & _). exact (in_map fst _ _ X). }
  destruct (answer_known t fs limit R Known) as (src & rows & A & L1 & L2 & L3 & G). rewrite A. apply turned_ok; auto.
  - intros k f s F S. destruct (G k f F) as (i & ty & C & S' & _). rewrite S in S'. injection S' as ->. cbn [described f_type snd].
    unfold ScanSpec.offers in O. rewrite Forall_forall in O. destruct (O f (nth_error_In _ _ F)) as (ty' & X & Y). replace ty with ty'; [exact Y|].
    apply In_nth_error in X as [i' X]. destruct R as [R _]. rewrite NoDup_nth_error in R. assert (i = i') as <-.
    { apply R; [rewrite map_length; apply nth_error_Some; rewrite C; discriminate|]. rewrite (map_nth_error fst _ _ C), (map_nth_error fst _ _ X). reflexivity. }
    rewrite C in X. injection X as ->. reflexivity.
  - intros r k f s v Hr F S W. apply In_nth_error in Hr as [j J]. destruct (G k f F) as (i & ty & C & S' & X). rewrite S in S'. injection S' as ->. cbn [described f_type snd].
    destruct (nth_error (kept t limit) j) as [q|] eqn:Q; [|apply nth_error_None in Q; assert (j < length rows) by (apply nth_error_Some; rewrite J; discriminate); lia].
    specialize (X j q r Q J). rewrite W in X. injection X as ->. apply (V q f ty _ (nth_error_In _ _ Q) (nth_error_In _ _ F)). exists i. split; [exact C|]. apply nth_is.
    destruct R as [_ R]. rewrite Forall_forall in R. rewrite (R q); [apply nth_error_Some; rewrite C; discriminate|]. apply (in_kept t limit). exact (nth_error_In _ _ Q).
Qed.

(* C155: a column that the remote table does not have is an error, where the database says so. *)
Theorem c155_absent : forall declared t is limit fs f,
  lenient = false -> project declared is = Some fs -> In f fs -> ~ In (f_name f) (map fst (r_columns t)) -> scan declared t (Some is) limit = None.
Proof.
  intros declared t is limit fs f Le P F X. rewrite scan_turned, P. rewrite answer_rows.
  rewrite (all_none (item t) (map f_name fs) (f_name f)); [reflexivity|apply in_map; exact F|]. unfold ScanModel.item.
  destruct (index_of (f_name f) (map fst (r_columns t))) as [i|] eqn:I; [destruct (X (nth_error_In _ _ (index_of_some _ _ _ I)))|]. rewrite Le. reflexivity.
Qed.
(* C155, refuted for SQLite: there a declared column that the table does not have has its own name as its value in every row. *)
Theorem c155_absent_refuted : forall declared t i limit f,
  lenient = true -> nth_error declared i = Some f -> f_type f = text_type -> ~ In (f_name f) (map fst (r_columns t)) ->
  scan declared t (Some [i]) limit = Some ([f], map (fun _ => [Some (text_of (f_name f))]) (kept t limit)).
Proof.
  intros declared t i limit f Le F T X. rewrite scan_turned. unfold project. cbn [all]. rewrite F. rewrite answer_rows. cbn [map all]. unfold ScanModel.item at 1.
  destruct (index_of (f_name f) (map fst (r_columns t))) as [j|] eqn:I; [destruct (X (nth_error_In _ _ (index_of_some _ _ _ I)))|]. rewrite Le. cbn [map fst snd].
  set (rows := map (fun _ : list (option nat) => [Some (text_of (f_name f))]) (kept t limit)).
  unfold turned. destruct (fields_eqb _ _); [reflexivity|]. cbn [combine all fst snd]. unfold ScanModel.cast_expr. cbn [map index_of]. rewrite Nat.eqb_refl.
  assert (E : forall e, e_index e = 0 -> e_cast e = None -> all (fun r => all (fun x => eval x r) [e]) rows = Some rows).
  { intros e E1 E2. unfold rows. induction (kept t limit) as [|r l IH]; [reflexivity|]. cbn [map]. cbn [all] in *. unfold ScanModel.eval at 1. rewrite E1, E2. cbn [nth_error]. rewrite IH. reflexivity. }
  destruct (field_eqb _ f).
  - rewrite E by reflexivity. reflexivity.
  - cbn [nth_error f_type]. rewrite T, Nat.eqb_refl. rewrite E by reflexivity. reflexivity.
Qed.

(* C155, refuted: NOT NULL of a declared column is not checked: the NULLs of the remote column are returned. *)
Theorem c155_not_null_refuted : forall declared t i f r,
  regular t -> nth_error declared i = Some f -> f_nullable f = false -> In (f_name f, f_type f) (r_columns t) ->
  In r (r_rows t) -> keep r = true -> holds t r (f_name f) (f_type f) None ->
  exists out, scan declared t (Some [i]) None = Some ([f], out) /\ ~ Forall (respects [f]) out.
Proof.
  intros declared t i f r R F NN C Hr Kr Hv.
  assert (Known : forall g, In g [f] -> In (f_name g) (map fst (r_columns t))) by (intros g [<-|[]]; exact (in_map fst _ _ C)).
  destruct (answer_known t [f] None R Known) as (src & rows & A & L1 & L2 & L3 & G).
  assert (US : NoDup (map f_name [f])) by (cbn; constructor; [intros []|constructor]).
  assert (Typ : forall j ty, nth_error (r_columns t) j = Some (f_name f, ty) -> ty = f_type f).
  { intros j ty X. apply In_nth_error in C as [m C]. destruct R as [R _]. rewrite NoDup_nth_error in R. assert (j = m) as ->.
    { apply R; [rewrite map_length; apply nth_error_Some; rewrite X; discriminate|]. rewrite (map_nth_error fst _ _ X), (map_nth_error fst _ _ C). reflexivity. }
    rewrite X in C. injection C as ->. reflexivity. }
  destruct (G 0 f eq_refl) as (j & ty & X & S & W). rewrite (Typ j ty X) in *.
  destruct (turned_ok [f] src rows US L1 L3) as [out O].
  - intros [|k] g s Gk Sk; [|destruct k; discriminate Gk]. cbn in Gk. injection Gk as <-. rewrite S in Sk. injection Sk as <-. left. reflexivity.
  - intros q [|k] g s v _ Gk Sk _; [|destruct k; discriminate Gk]. cbn in Gk. injection Gk as <-. rewrite S in Sk. injection Sk as <-. cbn [described f_type snd].
    unfold ScanSpec.as_type. destruct v; [rewrite Nat.eqb_refl|]; discriminate.
  - exists out. split; [rewrite scan_turned; unfold project; cbn [all]; rewrite F; cbn [map] in A |- *; rewrite A; exact O|].
    intros B. destruct (turned_at [f] src rows [f] out US L3 O) as (_ & Lo & T).
    assert (Hk : In r (kept t None)) by (apply filter_In; auto). apply In_nth_error in Hk as [n Hn].
    assert (Hlt : n < length (kept t None)) by (apply nth_error_Some; rewrite Hn; discriminate).
    destruct (nth_error rows n) as [q|] eqn:Q; [|apply nth_error_None in Q; lia]. destruct (nth_error out n) as [o|] eqn:On; [|apply nth_error_None in On; lia].
    destruct (T n q o Q On) as [_ T']. destruct (T' 0 f _ _ eq_refl S (W n r q Hn Q)) as (w & Ww & E).
    destruct Hv as (m & M & V). assert (m = j) as ->.
    { destruct R as [R _]. rewrite NoDup_nth_error in R. apply R; [rewrite map_length; apply nth_error_Some; rewrite M; discriminate|]. rewrite (map_nth_error fst _ _ M), (map_nth_error fst _ _ X). reflexivity. }
    rewrite (nth_error_nth r j None V) in E. injection E as <-. rewrite Forall_forall in B. specialize (B o (nth_error_In _ _ On)).
    unfold respects in B. destruct o as [|w o]; [discriminate Ww|]. cbn in Ww. injection Ww as ->. inversion B as [|? ? ? ? B1 _]; subst. exact (B1 NN eq_refl).
Qed.

(* C155: a scan for all columns, without a list of them, takes the remote columns by their positions, whatever their names
   are. *)
Theorem c155_star_positions : forall declared t limit fs out,
  regular t -> NoDup (map f_name declared) -> scan declared t None limit = Some (fs, out) ->
  length out = length (kept t limit) /\
  forall j r o k f n ty v, nth_error (kept t limit) j = Some r -> nth_error out j = Some o ->
    nth_error declared k = Some f -> nth_error (r_columns t) k = Some (n, ty) -> nth_error r k = Some v ->
    exists w, nth_error o k = Some w /\ as_type ty (f_type f) v = Some w.
Proof.
  intros declared t limit fs out R U H. rewrite scan_turned in H. rewrite answer_rows in H.
  destruct (turned_at declared (map described (r_columns t)) (kept t limit) fs out U) as (_ & L & T); [|exact H|].
  - apply Forall_forall. intros r X. rewrite map_length. destruct R as [_ R]. rewrite Forall_forall in R. apply R. apply (in_kept t limit). exact X.
  - split; [exact L|]. intros j r o k f n ty v J O F C V. destruct (T j r o J O) as [_ T']. exact (T' k f (described (n, ty)) v F (map_nth_error described k _ C) V).
Qed.
(* C155, refuted: so where another remote column, with other values, is at the place of a declared one, its values are returned. *)
Theorem c155_star_refuted : forall declared t limit fs out r k m f n v v',
  regular t -> NoDup (map f_name declared) -> scan declared t None limit = Some (fs, out) ->
  In r (kept t limit) -> nth_error declared k = Some f ->
  nth_error (r_columns t) k = Some (n, f_type f) -> nth_error (r_columns t) m = Some (f_name f, f_type f) ->
  nth_error r k = Some v -> nth_error r m = Some v' -> v <> v' ->
  ~ Forall2 (shows t declared) (kept t limit) out.
Proof.
  intros declared t limit fs out r k m f n v v' R U H Hr F C C' V V' D X. destruct (c155_star_positions declared t limit fs out R U H) as [L T].
  apply In_nth_error in Hr as [j J]. assert (Hj : j < length out) by (rewrite L; apply nth_error_Some; rewrite J; discriminate).
  destruct (nth_error out j) as [o|] eqn:O; [|apply nth_error_None in O; lia]. destruct (T j r o k f n _ v J O F C V) as (w & W & E).
  assert (Y : forall {A B} (P : A -> B -> Prop) l l' i a b, Forall2 P l l' -> nth_error l i = Some a -> nth_error l' i = Some b -> P a b).
  { clear. intros A B P l l' i a b H. revert i. induction H as [|x y l l' H0 _ IH]; intros [|i] H1 H2; try discriminate; cbn in *; [injection H1 as ->; injection H2 as ->; exact H0|exact (IH i H1 H2)]. }
  pose proof (Y _ _ _ _ _ j r o X J O) as Z. pose proof (Y _ _ _ _ _ k f w Z F W) as (ty & u & (i & I1 & I2) & A).
  assert (i = m) as ->. { destruct R as [R _]. rewrite NoDup_nth_error in R. apply R; [rewrite map_length; apply nth_error_Some; rewrite I1; discriminate|]. rewrite (map_nth_error fst _ _ I1), (map_nth_error fst _ _ C'). reflexivity. }
  rewrite C' in I1. injection I1 as <-. rewrite V' in I2. injection I2 as <-.
  assert (Id : forall x, as_type (f_type f) (f_type f) x = Some x) by (intros [x|]; [unfold ScanSpec.as_type; rewrite Nat.eqb_refl|]; reflexivity).
  rewrite Id in A, E. congruence.
Qed.
(* C155: it is right when the columns are declared in the order of the remote table. *)
Theorem c155_star_partial : forall declared t limit fs out,
  regular t -> map f_name declared = map fst (r_columns t) -> scan declared t None limit = Some (fs, out) ->
  fs = declared /\ Forall2 (shows t fs) (kept t limit) out.
Proof.
  intros declared t limit fs out R M H. pose proof R as [U RR]. rewrite <- M in U. rewrite scan_turned in H. rewrite answer_rows in H.
  assert (L0 : length declared = length (r_columns t)) by (rewrite <- (map_length f_name), M; apply map_length).
  destruct (turned_at declared (map described (r_columns t)) (kept t limit) fs out U) as (E & L & T); [|exact H|].
  - apply Forall_forall. intros r X. rewrite map_length. rewrite Forall_forall in RR. apply RR. apply (in_kept t limit). exact X.
  - assert (fs = declared) as ->.
    { rewrite E. assert (L1 : length (map described (r_columns t)) = length declared) by (rewrite map_length; lia). clear - L1. revert L1. generalize (map described (r_columns t)).
      induction declared as [|x l IH]; intros [|y m] H; try discriminate H; [reflexivity|]. cbn. rewrite IH; [reflexivity|]. cbn in H. lia. }
    split; [reflexivity|]. apply Forall2_nth; [lia|]. intros j r o J O. destruct (T j r o J O) as [Lo T']. apply Forall2_nth; [lia|]. intros k f w F W.
    assert (Hk : k < length (r_columns t)) by (rewrite <- L0; apply nth_error_Some; rewrite F; discriminate).
    destruct (nth_error (r_columns t) k) as [[n ty]|] eqn:C; [|apply nth_error_None in C; lia].
    assert (n = f_name f) as ->. { pose proof (map_nth_error f_name k _ F) as X. rewrite M, (map_nth_error fst k _ C) in X. injection X as ->. reflexivity. }
    assert (Hr : k < length r). { rewrite Forall_forall in RR. rewrite (RR r); [exact Hk|]. apply (in_kept t limit). exact (nth_error_In _ _ J). }
    destruct (T' k f _ _ F (map_nth_error described k _ C) (nth_is r k Hr)) as (w' & W' & A). rewrite W in W'. injection W' as <-.
    exists ty, (nth k r None). split; [|exact A]. exists k. split; [exact C|]. apply nth_is. exact Hr.
Qed.

(* C155: a table without declared columns has those of the remote table, and can be read at once. *)
Theorem c155_introspected : forall t is limit,
  regular t -> NoDup is -> (forall i, In i is -> i < length (r_columns t)) ->
  exists fs out, scan (introspect [] t) t (Some is) limit = Some (fs, out) /\ Forall2 (shows t fs) (kept t limit) out /\
    map (fun f => (f_name f, f_type f)) fs = map (fun i => nth i (r_columns t) (0, 0)) is.
Proof.
  intros t is limit R N B. cbn [introspect].
  assert (U : NoDup (map f_name (map described (r_columns t)))) by (rewrite map_map; exact (proj1 R)).
  destruct (all_some (nth_error (map described (r_columns t))) is) as [fs P]; [intros i Hi; apply nth_error_Some; rewrite map_length; exact (B i Hi)|].
  assert (O : forall f, In f fs -> In (f_name f, f_type f) (r_columns t)).
  { intros f F. apply In_nth_error in F as [k F]. destruct (all_nth _ _ _ P) as [L X]. assert (Hk : k < length is) by (rewrite <- L; apply nth_error_Some; rewrite F; discriminate).
    destruct (nth_error is k) as [i|] eqn:I; [|apply nth_error_Some in Hk; contradiction]. destruct (X k i I) as (f' & F' & D). rewrite F in F'. injection F' as <-.
    apply nth_error_In in D. apply in_map_iff in D as ([a b] & <- & D). exact D. }
  destruct (c155_succeeds (map described (r_columns t)) t is limit fs R U N P) as [out S].
  - apply Forall_forall. intros f F. exists (f_type f). split; [exact (O f F)|left; reflexivity].
  - intros r f ty v _ F (i & C & _). assert (ty = f_type f) as ->.
    { specialize (O f F). apply In_nth_error in O as [m O]. destruct R as [R _]. rewrite NoDup_nth_error in R. assert (i = m) as ->.
      { apply R; [rewrite map_length; apply nth_error_Some; rewrite C; discriminate|]. rewrite (map_nth_error fst _ _ C), (map_nth_error fst _ _ O). reflexivity. }
      rewrite C in O. injection O as ->. reflexivity. }
    unfold ScanSpec.as_type. destruct v; [rewrite Nat.eqb_refl|]; discriminate.
  - exists fs, out. split; [exact S|]. split.
    + apply (c155_values_partial (map described (r_columns t)) t is limit fs out R U N); [|exact S]. right. intros f F. exact (in_map fst _ _ (O f F)).
    + clear - P B. revert fs P B. induction is as [|i is IH]; intros fs P B; cbn in P; [injection P as <-; reflexivity|].
      destruct (nth_error (map described (r_columns t)) i) as [f|] eqn:F; [|discriminate P]. destruct (all _ is) as [gs|]; [|discriminate P]. injection P as <-.
      cbn [map]. rewrite (IH gs eq_refl); [|intros j Hj; apply B; right; exact Hj]. f_equal.
      assert (Hi : i < length (r_columns t)) by (apply B; left; reflexivity). rewrite (map_nth_error described i _ (nth_error_nth' _ (0, 0) Hi)) in F. injection F as <-.
      destruct (nth i (r_columns t) (0, 0)); reflexivity.
Qed.
End P.
Print Assumptions c155_values_partial.
Print Assumptions c155_succeeds.
Print Assumptions c155_introspected.
Print Assumptions c155_absent.
Print Assumptions c155_absent_refuted.
Print Assumptions c155_not_null_refuted.
Print Assumptions c155_star_partial.
Print Assumptions c155_star_positions.
Print Assumptions c155_star_refuted.

(* a remote table with the columns 1 (type 5) and 2 (type 6), declared in the other order and with another type *)
Definition ex_remote : remote := {| r_columns := [(1, 5); (2, 6)]; r_rows := [[Some 10; Some 20]; [None; Some 21]; [Some 12; None]] |}.
Definition ex_declared : list field := [{| f_name := 2; f_type := 6; f_nullable := true |}; {| f_name := 1; f_type := 7; f_nullable := false |}].
Definition ex_convert (a b v : nat) : option nat := Some (100 + v).
Example ex_regular : regular ex_remote /\ NoDup (map f_name ex_declared).
Proof. split; [split|]; cbn; repeat (constructor; [cbn; intros X; repeat destruct X as [X|X]; try discriminate X; exact X|]); repeat constructor. Qed.
Example ex_scan :
  scan false 9 (fun n => n) (fun _ _ => true) ex_convert (fun _ => true) ex_declared ex_remote (Some [0; 1]) (Some 2) =
    Some (ex_declared, [[Some 20; Some 110]; [Some 21; None]]).
Proof. reflexivity. Qed.
(* c155_star_refuted: two columns of one type in the other order *)
Example ex_swapped :
  scan false 9 (fun n => n) (fun _ _ => true) ex_convert (fun _ => true) [{| f_name := 2; f_type := 5; f_nullable := true |}; {| f_name := 1; f_type := 5; f_nullable := true |}]
    {| r_columns := [(1, 5); (2, 5)]; r_rows := [[Some 10; Some 20]] |} None None =
    Some ([{| f_name := 2; f_type := 5; f_nullable := true |}; {| f_name := 1; f_type := 5; f_nullable := true |}], [[Some 10; Some 20]]).
Proof. reflexivity. Qed.
(* the same table without a list of columns: the values of 1 under the name 2 *)
Example ex_star :
  scan false 9 (fun n => n) (fun _ _ => true) ex_convert (fun _ => true) ex_declared ex_remote None (Some 1) = Some (ex_declared, [[Some 110; Some 120]]).
Proof. reflexivity. Qed.
Example ex_absent :
  scan true 9 (fun n => 1000 + n) (fun _ _ => true) ex_convert (fun _ => true) [{| f_name := 3; f_type := 9; f_nullable := true |}] ex_remote (Some [0]) (Some 2) =
    Some ([{| f_name := 3; f_type := 9; f_nullable := true |}], [[Some 1003]; [Some 1003]]).
Proof. reflexivity. Qed.
