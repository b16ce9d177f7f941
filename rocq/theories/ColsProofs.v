(* Proofs for C136 and C137. *)
Require Import Coq.Strings.Ascii Coq.Strings.String Coq.Lists.List Coq.Bool.Bool Coq.Arith.Arith Coq.Sorting.Permutation Coq.micromega.Lia.
Require Import Verif.ColsModel Verif.ColsSpec.
Import ListNotations.
Open Scope string_scope.
Open Scope list_scope.

Lemma role_eqb_spec a b : reflect (a = b) (role_eqb a b).
Proof. destruct a, b; constructor; congruence. Qed.

(* ---- types ---- *)
Fixpoint dtype_eqb_eq a : forall b, dtype_eqb a b = true -> a = b.
Proof.
  destruct a as [|n|fs|n t|v]; intros [|m|gs|m u|w]; cbn; try discriminate; try reflexivity.
  - intros H. apply Nat.eqb_eq in H. congruence.
  - intros H. f_equal. revert gs H. induction fs as [|[n t] fs IH]; intros [|[m u] gs]; try discriminate; [reflexivity|].
    intros H. apply andb_true_iff in H as [H K]. apply andb_true_iff in H as [N T].
    apply String.eqb_eq in N. apply dtype_eqb_eq in T. f_equal; [congruence|apply IH, K].
  - intros H. apply andb_true_iff in H as [N T]. apply String.eqb_eq in N. apply dtype_eqb_eq in T. congruence.
  - intros H. apply dtype_eqb_eq in H. congruence.
Qed.
Fixpoint dtype_eqb_refl a : dtype_eqb a a = true.
Proof.
  destruct a as [|n|fs|n t|v]; cbn; try reflexivity.
  - apply Nat.eqb_refl.
  - induction fs as [|[n t] fs IH]; [reflexivity|]. rewrite String.eqb_refl, dtype_eqb_refl. exact IH.
  - rewrite String.eqb_refl, dtype_eqb_refl. reflexivity.
  - apply dtype_eqb_refl.
Qed.
Lemma types_eqb_eq a : forall b, types_eqb a b = true -> a = b.
Proof.
  induction a as [|x a IH]; intros [|y b]; cbn; try discriminate; [reflexivity|].
  intros H. apply andb_true_iff in H as [X H]. apply dtype_eqb_eq in X. apply IH in H. congruence.
Qed.
Lemma types_eqb_refl a : types_eqb a a = true.
Proof. induction a as [|x a IH]; cbn; [reflexivity|]. rewrite dtype_eqb_refl. exact IH. Qed.

(* ---- flattened fields ---- *)
Lemma first_inside_iff t g : first_inside t g <-> exists r, children t = g :: r.
Proof.
  split.
  - induction 1 as [f fs|n t|v g H IH]; [exists (children (snd f) ++ flat_map (fun f => f :: children (snd f)) fs); reflexivity|eexists; reflexivity|exact IH].
  - induction t as [|n|fs|n t IH|v IH]; cbn; intros [r H]; try discriminate.
    + destruct fs as [|f fs]; [discriminate|]. injection H as <- _. constructor.
    + injection H as <- _. constructor.
    + constructor. apply IH. exists r. exact H.
Qed.
Lemma nested_children f : nested f <-> children (snd f) <> [].
Proof.
  unfold nested. split.
  - intros [g H]. apply first_inside_iff in H as [r H]. rewrite H. discriminate.
  - destruct (children (snd f)) as [|g r] eqn:E; [intros H; contradiction H; reflexivity|]. intros _. exists g. apply first_inside_iff. exists r. exact E.
Qed.
Lemma flattened_length s : length s <= length (flattened s).
Proof. induction s as [|f s IH]; cbn; [lia|]. rewrite app_length. cbn in *. unfold flattened in *. lia. Qed.
Lemma flattened_longer s f : In f s -> nested f -> length s < length (flattened s).
Proof.
  induction s as [|g s IH]; cbn; [contradiction|]. intros [->|H] N; rewrite app_length; cbn.
  - apply nested_children in N. pose proof (flattened_length s). unfold flattened in *. destruct (children (snd f)) eqn:K; [contradiction (N eq_refl)|cbn]. lia.
  - specialize (IH H N). unfold flattened in *. lia.
Qed.
Lemma flattened_flat s : flat s -> flattened s = s.
Proof.
  induction s as [|f s IH]; intros H; [reflexivity|]. cbn.
  assert (children (snd f) = []) as ->.
  { specialize (H f (or_introl eq_refl)). rewrite nested_children in H. destruct (children (snd f)); [reflexivity|]. exfalso. apply H. discriminate. }
  cbn. f_equal. apply IH. intros g G. apply H. right. exact G.
Qed.
Lemma flattened_perm s : Permutation (flattened s) (s ++ flat_map (fun f => children (snd f)) s).
Proof.
  induction s as [|f s IH]; [constructor|]. cbn. constructor. unfold flattened in IH. rewrite IH.
  rewrite !app_assoc. apply Permutation_app_tail. apply Permutation_app_comm.
Qed.

(* ---- names ---- *)
Lemma nodupb_spec l : nodupb l = true <-> NoDup l.
Proof.
  induction l as [|x l IH]; cbn; [split; [constructor|reflexivity]|].
  rewrite andb_true_iff, negb_true_iff, IH. split.
  - intros [H K]. constructor; [|exact K]. intros X.
    assert (existsb (String.eqb x) l = true) as Y; [apply existsb_exists; exists x; split; [exact X|apply String.eqb_refl]|congruence].
  - intros H. inversion H as [|? ? N K]; subst. split; [|exact K].
    destruct (existsb (String.eqb x) l) eqn:E; [|reflexivity]. apply existsb_exists in E as (y & Y & Z). apply String.eqb_eq in Z. subst. contradiction.
Qed.
Lemma count_one l n : NoDup l -> In n l -> length (filter (String.eqb n) l) = 1.
Proof.
  induction l as [|x l IH]; [contradiction|]. intros H. inversion H as [|? ? N K]; subst. cbn. intros [->|I].
  - rewrite String.eqb_refl. cbn. f_equal.
    assert (filter (String.eqb n) l = []) as ->; [|reflexivity].
    clear -N. induction l as [|y l IH]; [reflexivity|]. cbn. destruct (String.eqb_spec n y) as [->|_]; [exfalso; apply N; left; reflexivity|].
    apply IH. intros H. apply N. right. exact H.
  - destruct (String.eqb_spec n x) as [->|_]; [contradiction|]. apply IH; assumption.
Qed.
Lemma count_in l n : length (filter (String.eqb n) l) = 1 -> In n l.
Proof.
  intros H. destruct (filter (String.eqb n) l) as [|x r] eqn:E; [discriminate|].
  assert (In x (filter (String.eqb n) l)) as I; [rewrite E; left; reflexivity|]. apply filter_In in I as [I J]. apply String.eqb_eq in J. congruence.
Qed.

Lemma canonical_inj r n r' n' : canonical r n = canonical r' n' -> r = r' /\ n = n'.
Proof. destruct r, r'; cbn; intros H; try discriminate; inversion H; split; reflexivity. Qed.
Lemma upsert_not_canonical r n : canonical r n <> upsert_col.
Proof. destruct r; cbn; discriminate. Qed.
Lemma plain_word n : plain n = true -> all_word n = true.
Proof. destruct n as [|a n]; cbn; [discriminate|]. intros H. apply andb_true_iff in H as [A B]. rewrite A, B. reflexivity. Qed.
Lemma canonical_lower r n : lower_case n -> lower_case (canonical r n).
Proof.
  intros [P L]. split.
  - destruct r; cbn; apply plain_word, P.
  - destruct r; cbn; rewrite L; reflexivity.
Qed.

Section Plan.
  Variable parse_other : string -> option string * string.
  Notation resolve := (resolve parse_other).
  Notation plan := (plan parse_other).

  Lemma resolve_lower rel fs n : lower_case n -> NoDup fs -> In n fs -> resolve rel fs n = Some n.
  Proof. intros [P L] N I. unfold ColsModel.resolve, ident. rewrite P, L. cbn. rewrite (count_one fs n N I). reflexivity. Qed.
  Lemma resolve_in rel fs s n : resolve rel fs s = Some n -> In n fs.
  Proof.
    unfold ColsModel.resolve. destruct (ident parse_other s) as [q m].
    destruct (_ && _) eqn:E; [|discriminate]. intros H. injection H as <-. apply andb_true_iff in E as [_ E]. apply Nat.eqb_eq in E. apply count_in, E.
  Qed.
  Lemma resolve_plain rel fs s n : plain s = true -> resolve rel fs s = Some n -> n = lower s.
  Proof. unfold ColsModel.resolve, ident. intros ->. cbn. destruct (Nat.eqb _ 1); congruence. Qed.

  Lemma collect_map {A B} (f : A -> option B) (g : A -> B) l : (forall x, In x l -> f x = Some (g x)) -> collect f l = Some (map g l).
  Proof.
    induction l as [|x l IH]; intros H; [reflexivity|]. cbn. rewrite (H x (or_introl eq_refl)), IH; [reflexivity|]. intros y Y. apply H. right. exact Y.
  Qed.
  Lemma collect_some {A B} (f : A -> option B) l r : collect f l = Some r -> forall x, In x l -> f x <> None.
  Proof.
    revert r. induction l as [|x l IH]; intros r; [contradiction|]. cbn. destruct (f x) eqn:E; [|discriminate]. destruct (collect f l) as [s|] eqn:C; [|discriminate].
    intros _ y [->|Y]; [congruence|]. exact (IH s eq_refl y Y).
  Qed.
  Lemma collect_each {A B} (f : A -> option B) l : forall r, collect f l = Some r -> Forall2 (fun x y => f x = Some y) l r.
  Proof.
    induction l as [|x l IH]; intros r; cbn; [intros H; injection H as <-; constructor|]. destruct (f x) eqn:E; [|discriminate].
    destruct (collect f l) as [s|]; [|discriminate]. intros H. injection H as <-. constructor; [exact E|]. apply IH. reflexivity.
  Qed.

  (* ---- which plans fail ---- *)
  Lemma plan_some table hv cs out : plan table hv cs = Some out ->
    types_of OldPk cs = types_of NewPk cs /\ prune_ok parse_other table hv cs = true /\
    (exists l, normalize parse_other cs = Some l) /\ NoDup (names (flattened table)) /\
    (forall f, In f (flattened table) -> In (fst f) (names table)).
  Proof.
    unfold ColsModel.plan, squash_ok. destruct (types_eqb _ _) eqn:S; [cbn [negb andb]|discriminate]. apply types_eqb_eq in S.
    destruct (forallb _ cs); [cbn [negb]|discriminate].
    destruct (prune_ok _ _ _ _) eqn:P; [cbn [negb]|discriminate].
    destruct (normalize _ _) as [l|] eqn:N; [|discriminate].
    destruct (forallb _ (key_names l)); [cbn [negb]|discriminate].
    destruct (nodupb _) eqn:D; [cbn [negb]|discriminate]. apply nodupb_spec in D.
    intros C. repeat split; try assumption; [exists l; reflexivity|].
    intros f F. pose proof (collect_some _ _ _ C f F) as H. unfold apply_one in H.
    destruct (existsb (String.eqb (fst f)) (names table)) eqn:E; [|contradiction H; reflexivity].
    apply existsb_exists in E as (x & X & Y). apply String.eqb_eq in Y. congruence.
  Qed.

  Lemma nested_table_fails table hv cs f : In f table -> nested f -> plan table hv cs = None.
  Proof.
    intros I N. destruct (plan table hv cs) as [out|] eqn:E; [|reflexivity]. exfalso.
    apply plan_some in E as (_ & _ & _ & D & A).
    apply nested_children in N. destruct (children (snd f)) as [|g r] eqn:K; [contradiction N; reflexivity|].
    assert (In g (flat_map (fun f => children (snd f)) table)) as G.
    { apply in_flat_map. exists f. split; [exact I|]. rewrite K. left. reflexivity. }
    assert (In g (flattened table)) as G'.
    { apply (Permutation_in g (Permutation_sym (flattened_perm table))). apply in_or_app. right. exact G. }
    specialize (A g G'). unfold names in D.
    pose proof (Permutation_NoDup (Permutation_map fst (flattened_perm table)) D) as D'. rewrite map_app in D'.
    apply (in_map fst) in G. clear -D' A G. unfold names in A. set (b := map fst (flat_map _ table)) in *. clearbody b.
    induction (map fst table) as [|x l IH]; [contradiction|]. cbn in D'. inversion D' as [|? ? X Y]; subst.
    destruct A as [->|A]; [apply X; apply in_or_app; right; exact G|apply IH; assumption].
  Qed.

  Lemma key_fails table hv cs c : In c cs -> is_key c -> hv (c_name c) = true ->
    resolve lower_rel (names table) (c_name c) = None -> plan table hv cs = None.
  Proof.
    intros I K V R. destruct (plan table hv cs) as [out|] eqn:E; [|reflexivity]. exfalso.
    apply plan_some in E as (_ & P & _). unfold prune_ok in P. rewrite forallb_forall in P. specialize (P c I).
    unfold ColsModel.resolve in *. rewrite R in P. destruct K as [K|K]; rewrite K, V in P; discriminate.
  Qed.

  Lemma capital_key_fails table hv cs c : In c cs -> is_key c -> hv (c_name c) = true -> plain (c_name c) = true ->
    ~ In (lower (c_name c)) (map fst table) -> plan table hv cs = None.
  Proof.
    intros I K V P N. apply (key_fails table hv cs c I K V).
    destruct (resolve lower_rel (names table) (c_name c)) as [m|] eqn:E; [|reflexivity]. exfalso. apply N.
    pose proof (resolve_plain _ _ _ _ P E) as ->. exact (resolve_in _ _ _ _ E).
  Qed.

  Lemma capital_field_fails table hv cs c : In c cs -> c_role c <> NewPk -> plain (field_name c) = true ->
    ~ In (lower (field_name c)) (map field_name cs) -> plan table hv cs = None.
  Proof.
    intros I K P N. destruct (plan table hv cs) as [out|] eqn:E; [|reflexivity]. exfalso.
    apply plan_some in E as (_ & _ & (l & L) & _). unfold normalize in L.
    destruct (nodupb _); [cbn [negb] in L|discriminate]. destruct (collect _ cs) as [x|] eqn:C; [|discriminate].
    pose proof (collect_some _ _ _ C c I) as H. apply H. clear H C L.
    assert (resolve lower_rel (map (fun c => fst (c_field c)) cs) (fst (c_field c)) = None) as R.
    { destruct (resolve lower_rel _ _) as [m|] eqn:E; [|reflexivity]. exfalso. apply N.
      pose proof (resolve_plain _ _ _ _ P E) as ->. exact (resolve_in _ _ _ _ E). }
    unfold normalize_one. rewrite R. destruct (c_role c); try reflexivity; [|contradiction K; reflexivity].
    destruct (column_of _ _ _); reflexivity.
  Qed.

  Lemma same_field_fails table hv cs : ~ NoDup (map field_name cs) -> plan table hv cs = None.
  Proof.
    intros N. destruct (plan table hv cs) as [out|] eqn:E; [|reflexivity]. exfalso. apply N.
    apply plan_some in E as (_ & _ & (l & L) & _). unfold normalize in L. destruct (nodupb _) eqn:D; [|discriminate].
    apply nodupb_spec in D. exact D.
  Qed.

  (* ---- accepted messages ---- *)
  Definition names_of (r : role) (cs : list column) : list string := map c_name (filter (fun c => role_eqb (c_role c) r) cs).
  Lemma names_types r cs : length (names_of r cs) = length (types_of r cs).
  Proof. unfold names_of, types_of. rewrite !map_length. reflexivity. Qed.
  Lemma names_of_in r cs n : In n (names_of r cs) <-> exists c, In c cs /\ tag c = (r, n).
  Proof.
    unfold names_of. rewrite in_map_iff. split.
    - intros (c & N & I). apply filter_In in I as [I R]. destruct (role_eqb_spec (c_role c) r); [|discriminate]. exists c. split; [exact I|]. unfold tag. congruence.
    - intros (c & I & T). injection T as <- <-. exists c. split; [reflexivity|]. apply filter_In. split; [exact I|]. destruct (role_eqb_spec (c_role c) (c_role c)); congruence.
  Qed.

  Definition good (z : list (desc * (string * dtype))) : Prop := forall x, In x z -> d_role (fst x) <> None.
  Lemma keys_names r z : good z -> map fst (keys r z) = names_of r (map to_column z).
  Proof.
    unfold keys, names_of. induction z as [|x z IH]; intros G; [reflexivity|]. cbn.
    assert (has_role r (fst x) = role_eqb (c_role (to_column x)) r) as E.
    { unfold has_role. cbn. specialize (G x (or_introl eq_refl)). destruct (d_role (fst x)); [reflexivity|congruence]. }
    rewrite E. cbn. specialize (IH (fun y Y => G y (or_intror Y))).
    match goal with |- context [if ?b then _ else _] => destruct b end; cbn; rewrite IH; reflexivity.
  Qed.
  Lemma subset_names a b : subset a b = true -> incl (map fst a) (map fst b).
  Proof.
    unfold subset. rewrite forallb_forall. intros H n N. apply in_map_iff in N as (x & <- & X). specialize (H x X). apply existsb_exists in H as (y & Y & E).
    unfold key_eqb in E. apply andb_true_iff in E as [E _]. apply String.eqb_eq in E. rewrite E. apply in_map, Y.
  Qed.

  Lemma accepted descs fields cs : try_new descs fields true = Some cs ->
    map c_field cs = fields /\ length descs = length (flattened fields) /\
    cs = map to_column (combine descs fields) /\ good (combine descs fields) /\
    incl (names_of OldPk cs) (names_of NewPk cs) /\ incl (names_of NewPk cs) (names_of OldPk cs) /\ names_of OldPk cs <> [] /\
    (forall c, In c cs -> c_role c = Changed -> exists d, In d descs /\ d_role d = Some Value /\ d_name d = c_name c).
  Proof.
    unfold try_new. set (z := combine descs fields).
    destruct (Nat.eqb_spec (length descs) (length (flattened fields))) as [L|]; [cbn [negb]|discriminate].
    destruct (forallb _ z) eqn:F; [cbn [negb]|discriminate]. rewrite forallb_forall in F.
    destruct (is_nil (keys OldPk z)) eqn:NO; [discriminate|]. destruct (is_nil (keys NewPk z)) eqn:NN; [discriminate|].
    destruct (subset (keys OldPk z) (keys NewPk z)) eqn:S1; [|discriminate]. destruct (subset (keys NewPk z) (keys OldPk z)) eqn:S2; [|discriminate].
    cbn. intros H. injection H as <-.
    assert (good z) as G.
    { intros x X. specialize (F x X). destruct x as [d [n t]]. cbn in *. intros E. rewrite E in F. discriminate. }
    split; [|split; [exact L|split; [reflexivity|split; [exact G|]]]].
    - rewrite map_map. cbn. change (map (fun x : desc * (string * dtype) => snd x) z = fields). unfold z.
      pose proof (flattened_length fields) as X. rewrite <- L in X. clear -X. revert descs X.
      induction fields as [|f fs IH]; intros [|d ds] X; cbn in *; try reflexivity; [lia|]. f_equal. apply IH. lia.
    - apply subset_names in S1, S2. rewrite !keys_names in S1 by exact G. rewrite !keys_names in S2 by exact G.
      split; [exact S1|split; [exact S2|split]].
      + rewrite <- keys_names by exact G. destruct (keys OldPk z); cbn; [discriminate|discriminate].
      + intros c C R. apply in_map_iff in C as (x & <- & X). specialize (F x X). specialize (G x X). destruct x as [d [n t]]. cbn in *.
        destruct (d_role d) as [r|]; [|congruence]. subst r. apply andb_true_iff in F as [_ F]. apply existsb_exists in F as (o & O & E).
        apply andb_true_iff in E as [E H]. apply String.eqb_eq in E. exists o. split; [exact O|]. unfold has_role in H.
        destruct (d_role o) as [q|]; [|discriminate]. destruct (role_eqb_spec q Value); [|discriminate]. split; congruence.
  Qed.

  (* ---- the normalized columns ---- *)
  Definition emit (c : column) : list (role * string) :=
    match c_role c with OldPk => [(NewPk, c_name c)] | NewPk => [] | r => [(r, c_name c)] end.
  Definition canon (t : role * string) : string := canonical (fst t) (snd t).
  Lemma canon_inj t u : canon t = canon u -> t = u.
  Proof. destruct t, u. unfold canon. cbn. intros H. apply canonical_inj in H as [-> ->]. reflexivity. Qed.

  Lemma emit_names r cs : NoDup (flat_map emit cs) -> r <> NewPk -> NoDup (names_of r cs).
  Proof.
    intros H R. induction cs as [|c cs IH]; [constructor|]. cbn in H. unfold names_of. cbn.
    assert (NoDup (flat_map emit cs)) as H'. { revert H. unfold emit at 1. destruct (c_role c); cbn; intros H; try exact H; inversion H; assumption. }
    destruct (role_eqb_spec (c_role c) r) as [E|_]; [|exact (IH H')]. cbn. constructor; [|exact (IH H')].
    intros I. fold (names_of r cs) in I. apply names_of_in in I as (d & D & T). unfold tag in T. injection T as T1 T2.
    assert (exists t, emit c = [t] /\ In t (emit d)) as (t & X & Y).
    { unfold emit. rewrite E, T1, T2. destruct r; try (eexists; split; [reflexivity|left; reflexivity]). congruence. }
    rewrite X in H. cbn in H. inversion H as [|? ? N _]; subst. apply N. apply in_flat_map. exists d. split; assumption.
  Qed.
  Lemma tags_names cs : (forall r, NoDup (names_of r cs)) -> NoDup (map tag cs).
  Proof.
    induction cs as [|c cs IH]; intros H; [constructor|]. cbn. constructor.
    - intros I. apply in_map_iff in I as (d & T & D). specialize (H (c_role c)). unfold names_of in H. cbn in H.
      destruct (role_eqb_spec (c_role c) (c_role c)); [|congruence]. cbn in H. inversion H as [|? ? N _]; subst. apply N.
      apply (proj2 (names_of_in (c_role c) cs (c_name c))). exists d. split; [exact D|exact T].
    - apply IH. intros r. specialize (H r). unfold names_of in *. cbn in H. destruct (role_eqb (c_role c) r); [|exact H]. cbn in H. inversion H; assumption.
  Qed.
  Lemma tags_emit cs : NoDup (map tag cs) -> NoDup (flat_map emit cs).
  Proof.
    induction cs as [|c cs IH]; intros H; [constructor|]. cbn in *. inversion H as [|? ? N K]; subst. specialize (IH K).
    assert (forall t, In t (emit c) -> ~ In t (flat_map emit cs)) as D.
    { intros t T I. apply N. apply in_flat_map in I as (d & D & E). apply in_map_iff. exists d. split; [|exact D].
      unfold emit in *. unfold tag. destruct (c_role c), (c_role d); cbn in *; intuition congruence. }
    unfold emit in *. destruct (c_role c); cbn in *; try exact IH; (constructor; [apply D; left; reflexivity|exact IH]).
  Qed.

  Lemma normalize_tags cs l : normalize parse_other cs = Some l -> map fst l = flat_map emit cs /\ NoDup (flat_map emit cs).
  Proof.
    unfold normalize. destruct (nodupb _) eqn:D0; [cbn [negb]|discriminate].
    destruct (collect _ cs) as [ll|] eqn:C; [|discriminate]. destruct (nodupb (map _ (concat ll))) eqn:D; [|discriminate].
    intros H. injection H as <-. apply nodupb_spec in D.
    assert (map fst (concat ll) = flat_map emit cs) as E.
    { clear D D0. apply collect_each in C. set (fs := map _ cs) in C. set (all := cs) in C at 1. clearbody fs all.
      induction C as [|c y cs ll X _ IH]; [reflexivity|]. cbn. rewrite map_app, IH. f_equal. clear -X. unfold normalize_one in X. unfold emit.
      destruct (c_role c).
      - destruct (column_of _ _ _); [|discriminate]. destruct (ColsModel.resolve _ _ _ _); [|discriminate]. destruct (ColsModel.resolve _ _ _ _); [|discriminate].
        injection X as <-. reflexivity.
      - injection X as <-. reflexivity.
      - destruct (ColsModel.resolve _ _ _ _); [|discriminate]. injection X as <-. reflexivity.
      - destruct (ColsModel.resolve _ _ _ _); [|discriminate]. injection X as <-. reflexivity. }
    split; [exact E|]. rewrite <- E.
    assert (map (fun x : role * string * source => canonical (fst (fst x)) (snd (fst x))) (concat ll) = map canon (map fst (concat ll))) as M.
    { rewrite map_map. reflexivity. }
    rewrite M in D. apply NoDup_map_inv in D. exact D.
  Qed.

  Lemma same_tag_fails descs fields table hv cs : try_new descs fields true = Some cs -> ~ NoDup (map tag cs) -> plan table hv cs = None.
  Proof.
    intros A N. destruct (plan table hv cs) as [out|] eqn:E; [|reflexivity]. exfalso. apply N.
    apply plan_some in E as (T & _ & (l & L) & _). apply normalize_tags in L as [_ L].
    apply accepted in A as (_ & _ & _ & _ & I1 & I2 & _).
    apply tags_names. intros r. destruct (role_eqb_spec r NewPk) as [->|R]; [|exact (emit_names r cs L R)].
    apply (NoDup_incl_NoDup (l := names_of OldPk cs)).
    - apply emit_names; [exact L|discriminate].
    - rewrite !names_types, T. reflexivity.
    - exact I1.
  Qed.

  (* ---- orderly messages are written ---- *)
  Lemma find_unique {A K} (key : A -> K) (p : A -> bool) l x : In x l -> p x = true -> (forall y, In y l -> p y = true -> key y = key x) ->
    NoDup (map key l) -> find p l = Some x.
  Proof.
    induction l as [|a l IH]; [contradiction|]. intros I P U N. cbn in *. inversion N as [|? ? N1 N2]; subst.
    destruct (p a) eqn:E.
    - f_equal. destruct I as [->|I]; [reflexivity|]. exfalso. apply N1. rewrite (U a (or_introl eq_refl) E). apply in_map, I.
    - destruct I as [->|I]; [congruence|]. apply IH; try assumption. intros y Y. apply U. right. exact Y.
  Qed.
  Lemma find_rev_unique {A K} (key : A -> K) (p : A -> bool) l x : In x l -> p x = true -> (forall y, In y l -> p y = true -> key y = key x) ->
    NoDup (map key l) -> find p (rev l) = Some x.
  Proof.
    intros I P U N. apply (find_unique key); [apply -> in_rev; exact I|exact P| |rewrite map_rev; apply NoDup_rev, N].
    intros y Y. apply U. apply in_rev. exact Y.
  Qed.
  Lemma find_none_iff {A} (p : A -> bool) l : (forall x, In x l -> p x = false) -> find p l = None.
  Proof.
    induction l as [|a l IH]; intros H; [reflexivity|]. cbn. rewrite (H a (or_introl eq_refl)). apply IH. intros x X. apply H. right. exact X.
  Qed.
  Lemma is_column_tag r n c : is_column r n c = true <-> tag c = (r, n).
  Proof.
    unfold is_column, tag. rewrite andb_true_iff, String.eqb_eq. split.
    - intros [R ->]. destruct (role_eqb_spec (c_role c) r); congruence.
    - intros H. injection H as -> ->. split; [destruct r|]; reflexivity.
  Qed.
  Lemma column_of_tag cs r n c : NoDup (map tag cs) -> In c cs -> tag c = (r, n) -> column_of r n cs = Some c.
  Proof.
    intros N I T. unfold column_of. apply (find_rev_unique tag); [exact I|apply is_column_tag, T| |exact N].
    intros y _ Y. apply is_column_tag in Y. congruence.
  Qed.
  Lemma column_of_some cs r n c : column_of r n cs = Some c -> In c cs /\ tag c = (r, n).
  Proof. unfold column_of. intros H. apply find_some in H as [I P]. split; [apply in_rev; exact I|apply is_column_tag, P]. Qed.

  Definition norm_tag (x : role * string * source) : role * string := fst x.
  Lemma norm_of_tag l r n s : NoDup (map fst l) -> In (r, n, s) l -> norm_of r n l = Some s.
  Proof.
    intros N I. unfold norm_of. rewrite (find_rev_unique fst _ l (r, n, s) I); [reflexivity| | |exact N].
    - cbn. rewrite String.eqb_refl. destruct r; reflexivity.
    - intros [[r' n'] s'] _ H. cbn in *. apply andb_true_iff in H as [R E]. apply String.eqb_eq in E. destruct (role_eqb_spec r' r); [|discriminate]. congruence.
  Qed.
  Lemma norm_of_none l r n : ~ In (r, n) (map fst l) -> norm_of r n l = None.
  Proof.
    intros N. unfold norm_of. rewrite find_none_iff; [reflexivity|]. intros [[r' n'] s] I. apply in_rev in I. cbn.
    destruct (role_eqb_spec r' r) as [->|]; [|reflexivity]. destruct (String.eqb_spec n' n) as [->|]; [|reflexivity].
    exfalso. apply N. change (r, n) with (fst (r, n, s)). apply in_map, I.
  Qed.

  Definition gives (cs : list column) (c : column) : list (role * string * source) :=
    match c_role c with
    | OldPk => match column_of NewPk (c_name c) cs with Some k => [(NewPk, c_name c, Key (field_name c) (field_name k))] | None => [] end
    | NewPk => []
    | r => [(r, c_name c, Taken (field_name c))]
    end.

  Lemma orderly_plan descs fields table hv cs : try_new descs fields true = Some cs -> flat fields -> flat table -> NoDup (map fst table) ->
    orderly table cs ->
    exists out, plan table hv cs = Some out /\ map fst out = map fst table /\ forall n s, In (n, s) out -> right cs n s.
  Proof.
    intros A FM FT NT [OT OF OL OK OO OI].
    destruct (accepted _ _ _ A) as (AF & AL & AC & AG & AI1 & AI2 & _ & AV).
    assert (forall c, In c cs -> c_role c = OldPk -> exists k, In k cs /\ tag k = (NewPk, c_name c)) as HK.
    { intros c C R. apply names_of_in. apply AI1. apply (proj2 (names_of_in OldPk cs (c_name c))). exists c. split; [exact C|]. unfold tag. congruence. }
    assert (forall c, In c cs -> c_role c = NewPk -> exists k, In k cs /\ tag k = (OldPk, c_name c)) as HO.
    { intros c C R. apply names_of_in. apply AI2. apply (proj2 (names_of_in NewPk cs (c_name c))). exists c. split; [exact C|]. unfold tag. congruence. }
    assert (forall c, In c cs -> c_role c = Changed -> exists v, In v cs /\ tag v = (Value, c_name c)) as HV.
    { intros c C R. destruct (AV c C R) as (d & D & DR & DN). rewrite flattened_flat in AL by exact FM.
      destruct (In_nth_error _ _ D) as (i & Di).
      assert (exists f, nth_error fields i = Some f) as (f & Fi).
      { destruct (nth_error fields i) as [f|] eqn:E; [exists f; reflexivity|]. apply nth_error_None in E.
        assert (i < length descs) as Q by (apply nth_error_Some; congruence). lia. }
      exists (to_column (d, f)). split.
      - rewrite AC. apply in_map. clear -Di Fi. revert fields i Di Fi. induction descs as [|x l IH]; intros [|y m] [|i] Di Fi; cbn in *; try discriminate.
        + injection Di as ->. injection Fi as ->. left. reflexivity.
        + right. exact (IH m i Di Fi).
      - unfold tag. cbn. rewrite DR, DN. reflexivity. }
    assert (forall c, In c cs -> ColsModel.resolve parse_other lower_rel (map (fun c => fst (c_field c)) cs) (fst (c_field c)) = Some (field_name c)) as HR.
    { intros c C. apply resolve_lower; [exact (OL c C)|exact OF|]. apply (in_map (fun c => fst (c_field c))), C. }
    (* squash *)
    assert (squash_ok cs = true) as SQ.
    { unfold squash_ok. rewrite OO, types_eqb_refl. cbn. apply forallb_forall. intros c C. destruct (c_role c) eqn:R; try reflexivity.
      destruct (HV c C R) as (v & V & T). rewrite (column_of_tag cs Value (c_name c) v OT V T). reflexivity. }
    (* prune *)
    assert (forall c, In c cs -> is_key c -> ColsModel.resolve parse_other lower_rel (names table) (c_name c) = Some (c_name c)) as HP.
    { intros c C K. apply resolve_lower; [exact (OK c C K)|exact NT|exact (OI c C K)]. }
    assert (prune_ok parse_other table hv cs = true) as PR.
    { unfold prune_ok. apply forallb_forall. intros c C. destruct (c_role c) eqn:R; try reflexivity;
      (rewrite HP; [apply orb_true_r|exact C|unfold is_key; tauto]). }
    (* normalize *)
    assert (map fst (flat_map (gives cs) cs) = flat_map emit cs) as GT.
    { assert (forall c, In c cs -> map fst (gives cs c) = emit c) as G1.
      { intros c C. unfold gives, emit. destruct (c_role c) eqn:R; try reflexivity.
        destruct (HK c C R) as (k & K & T). rewrite (column_of_tag cs _ _ k OT K T). reflexivity. }
      revert G1. generalize (gives cs) as g. induction cs as [|c l IH]; intros g G1; [reflexivity|]. cbn. rewrite map_app, (G1 c (or_introl eq_refl)). f_equal.
      clear -G1. assert (forall x, In x l -> map fst (g x) = emit x) as G2 by (intros x X; apply G1; right; exact X). clear G1.
      induction l as [|x l IH]; [reflexivity|]. cbn. rewrite map_app, (G2 x (or_introl eq_refl)). f_equal. apply IH. intros y Y. apply G2. right. exact Y. }
    pose proof (tags_emit cs OT) as NE.
    assert (normalize parse_other cs = Some (flat_map (gives cs) cs)) as NM.
    { unfold normalize. replace (nodupb (map (fun c => fst (c_field c)) cs)) with true by (symmetry; apply nodupb_spec; exact OF). cbn [negb].
      rewrite (collect_map _ (gives cs)).
      - rewrite <- flat_map_concat_map.
        assert (nodupb (map (fun x : role * string * source => canonical (fst (fst x)) (snd (fst x))) (flat_map (gives cs) cs)) = true) as D.
        { apply nodupb_spec. replace (map _ (flat_map (gives cs) cs)) with (map canon (map fst (flat_map (gives cs) cs))) by (rewrite map_map; reflexivity).
          rewrite GT. apply FinFun.Injective_map_NoDup; [exact canon_inj|exact NE]. }
        rewrite D. reflexivity.
      - intros c C. unfold normalize_one, gives. rewrite (HR c C). destruct (c_role c) eqn:R; try reflexivity.
        destruct (HK c C R) as (k & K & T). rewrite (column_of_tag cs _ _ k OT K T). rewrite (HR k K). reflexivity. }
    set (l := flat_map (gives cs) cs) in *.
    assert (NoDup (map fst l)) as NL by (rewrite GT; exact NE).
    assert (forall r n s, In (r, n, s) l -> exists c, In c cs /\ In (r, n, s) (gives cs c)) as LI.
    { intros r n s H. apply in_flat_map in H. exact H. }
    (* join *)
    assert (forallb (join_pair parse_other table l) (key_names l) = true) as JN.
    { apply forallb_forall. intros n I. unfold key_names in I. apply in_map_iff in I as ([[r m] s] & E & I). cbn in E. subst m.
      apply filter_In in I as [I R]. cbn in R. destruct (role_eqb_spec r NewPk) as [->|]; [|discriminate].
      destruct (LI _ _ _ I) as (c & C & G). unfold gives in G. destruct (c_role c) eqn:R'.
      - destruct (column_of _ _ _) as [k|] eqn:Q; [|contradiction]. destruct G as [G|[]]. injection G as <- _.
        unfold join_pair. rewrite HP; [|exact C|left; exact R']. cbn [found].
        rewrite (resolve_lower upper_rel (norm_names l) (canonical NewPk (c_name c))); [reflexivity| | |].
        + apply canonical_lower, OK; [exact C|left; exact R'].
        + unfold norm_names. apply NoDup_rev in NL. apply (Permutation_NoDup (l := upsert_col :: map (fun x => canonical (fst (fst x)) (snd (fst x))) l)).
          { apply Permutation_cons_append. }
          constructor.
          * intros H. apply in_map_iff in H as (x & X & _). exact (upsert_not_canonical _ _ X).
          * replace (map _ l) with (map canon (map fst l)) by (rewrite map_map; reflexivity). rewrite GT. apply FinFun.Injective_map_NoDup; [exact canon_inj|exact NE].
        + unfold norm_names. apply in_or_app. left. apply in_map_iff. exists (NewPk, c_name c, s). split; [reflexivity|exact I].
      - contradiction.
      - destruct G as [G|[]]. discriminate.
      - destruct G as [G|[]]. discriminate. }
    (* apply *)
    assert (forall r n s, norm_of r n l = Some s -> exists c, In c cs /\ In (r, n, s) (gives cs c)) as NS.
    { intros r n s H. unfold norm_of in H. destruct (find _ (rev l)) as [x|] eqn:E; [|discriminate]. injection H as <-. apply find_some in E as [I P].
      apply in_rev in I. apply andb_true_iff in P as [P Q]. apply String.eqb_eq in Q. destruct x as [[r' n'] s]. cbn in *.
      destruct (role_eqb_spec r' r); [|discriminate]. subst. apply LI, I. }
    assert (forall c, In c cs -> forall r n s, In (r, n, s) (gives cs c) -> norm_of r n l = Some s) as SN.
    { intros c C r n s G. apply norm_of_tag; [exact NL|]. apply in_flat_map. exists c. split; assumption. }
    unfold ColsModel.plan. rewrite SQ, PR, NM, JN. cbn [negb]. rewrite (flattened_flat table FT).
    replace (nodupb (names table)) with true by (symmetry; apply nodupb_spec; exact NT). cbn [negb].
    assert (forall f, In f table -> existsb (String.eqb (fst f)) (names table) = true) as HE.
    { intros f F. apply existsb_exists. exists (fst f). split; [apply in_map, F|apply String.eqb_refl]. }
    set (src := fun n => match norm_of Value n l with
               | Some (Taken v) => match norm_of Changed n l with Some (Taken c) => TakenIf c v | _ => Taken v end
               | _ => match norm_of NewPk n l with
                      | Some (Key o k) => match norm_of Changed n l with Some (Taken c) => TakenIf c k | _ => Key o k end
                      | _ => Kept
                      end
               end).
    exists (map (fun f => (fst f, src (fst f))) table). split; [|split].
    - apply collect_map. intros f F. unfold apply_one. rewrite (HE f F). reflexivity.
    - rewrite map_map. reflexivity.
    - intros n s I. apply in_map_iff in I as (f & E & F). injection E as <- <-. set (n := fst f). unfold src.
      assert (forall d, In d cs -> tag d = (Value, n) -> norm_of Value n l = Some (Taken (field_name d))) as SV.
      { intros d D T. injection T as T1 T2. apply (SN d D). unfold gives. rewrite T1, T2. left. reflexivity. }
      assert (forall d, In d cs -> tag d = (Changed, n) -> norm_of Changed n l = Some (Taken (field_name d))) as SC.
      { intros d D T. injection T as T1 T2. apply (SN d D). unfold gives. rewrite T1, T2. left. reflexivity. }
      assert (forall r q, r <> NewPk -> norm_of r n l = Some q -> exists d, In d cs /\ tag d = (r, n) /\ q = Taken (field_name d)) as RV.
      { intros r q NR H. destruct (NS _ _ _ H) as (d & D & G). exists d. split; [exact D|]. unfold gives in G. unfold tag. destruct (c_role d) eqn:R.
        - destruct (column_of _ _ _); [|contradiction]. destruct G as [G|[]]. congruence.
        - contradiction.
        - destruct G as [G|[]]. split; congruence.
        - destruct G as [G|[]]. split; congruence. }
      destruct (norm_of Value n l) as [v|] eqn:EV.
      + destruct (RV Value v ltac:(discriminate) EV) as (d & D & T & ->).
        destruct (norm_of Changed n l) as [w|] eqn:EC.
        * destruct (RV Changed w ltac:(discriminate) EC) as (e & E & T' & ->). apply right_flag; assumption.
        * apply right_value; [exact D|exact T|]. intros e E T'. specialize (SC e E T'). discriminate.
      + assert (forall d, In d cs -> tag d <> (Value, n)) as NV by (intros d D T; specialize (SV d D T); discriminate).
        assert (norm_of Changed n l = None) as EC.
        { destruct (norm_of Changed n l) as [w|] eqn:EC; [|reflexivity]. exfalso. destruct (RV Changed w ltac:(discriminate) EC) as (e & E & T' & _).
          injection T' as R1 R2. destruct (HV e E R1) as (v & V & T). rewrite R2 in T. exact (NV v V T). }
        rewrite EC. destruct (norm_of NewPk n l) as [w|] eqn:EN.
        * destruct (NS _ _ _ EN) as (d & D & G). unfold gives in G. destruct (c_role d) eqn:R.
          -- destruct (column_of _ _ _) as [k|] eqn:Q; [|contradiction]. destruct G as [G|[]]. injection G as G1 <-.
             apply column_of_some in Q as [K T]. rewrite G1 in T. apply right_key; try assumption. unfold tag. congruence.
          -- contradiction.
          -- destruct G as [G|[]]. discriminate.
          -- destruct G as [G|[]]. discriminate.
        * apply right_kept. intros d D. split; [exact (NV d D)|]. intros T. injection T as R1 R2.
          destruct (HO d D R1) as (o & O & T). injection T as S1 S2.
          assert (norm_of NewPk n l = Some (Key (field_name o) (field_name d))) as X; [|congruence].
          apply (SN o O). unfold gives. rewrite S1, S2, R2. rewrite (column_of_tag cs NewPk n d OT D); [left; reflexivity|]. unfold tag. congruence.
  Qed.
End Plan.

(* ---- proper messages are accepted ---- *)
Lemma in_combine_nth {A B} (l : list A) (m : list B) x y : In (x, y) (combine l m) <-> exists i, nth_error l i = Some x /\ nth_error m i = Some y.
Proof.
  revert m. induction l as [|a l IH]; intros m.
  - cbn. split; [contradiction|]. intros ([|i] & H & _); discriminate.
  - destruct m as [|b m]; cbn.
    + split; [contradiction|]. intros ([|i] & _ & H); discriminate.
    + rewrite IH. split.
      * intros [H|(i & H & K)]; [injection H as -> ->; exists 0; split; reflexivity|exists (S i); split; assumption].
      * intros ([|i] & H & K); cbn in *; [left; congruence|right; exists i; split; assumption].
Qed.
Lemma keys_in r z n t : In (n, t) (keys r z) <-> exists d f, In (d, f) z /\ d_role d = Some r /\ d_name d = n /\ snd f = t.
Proof.
  unfold keys. rewrite in_map_iff. split.
  - intros ([d f] & E & I). apply filter_In in I as [I R]. cbn in *. exists d, f. split; [exact I|]. unfold has_role in R.
    destruct (d_role d) as [q|]; [|discriminate]. destruct (role_eqb_spec q r); [|discriminate]. split; [congruence|split; congruence].
  - intros (d & f & I & R & N & T). exists (d, f). cbn. split; [congruence|]. apply filter_In. split; [exact I|]. cbn. unfold has_role. rewrite R. destruct r; reflexivity.
Qed.
Lemma subset_true a b : incl a b -> subset a b = true.
Proof.
  intros H. unfold subset. apply forallb_forall. intros x X. apply existsb_exists. exists x. split; [apply H, X|]. unfold key_eqb. rewrite String.eqb_refl, dtype_eqb_refl. reflexivity.
Qed.
Lemma proper_accepted descs fields v : flat fields -> proper descs fields -> exists cs, try_new descs fields v = Some cs /\ described descs fields cs.
Proof.
  intros F [PL PR PF PS PK]. exists (map to_column (combine descs fields)). split.
  - unfold try_new. rewrite (flattened_flat fields F), PL, Nat.eqb_refl. cbn [negb].
    replace (forallb (check_one descs) (combine descs fields)) with true.
    2:{ symmetry. apply forallb_forall. intros [d [n t]] I. pose proof (in_combine_l _ _ _ _ I) as D. apply in_combine_nth in I as (i & Di & Fi). cbn.
        specialize (PR d D). destruct (d_role d) as [[| | |]|] eqn:R; try reflexivity; [|congruence].
        destruct (PF i d (n, t) Di Fi R) as [B (o & O & RO & N)]. cbn in B. subst t. cbn. apply existsb_exists. exists o. split; [exact O|].
        rewrite N, String.eqb_refl. unfold has_role. rewrite RO. reflexivity. }
    cbn [negb].
    assert (forall n t r, In (n, t) (keys r (combine descs fields)) <->
      exists i d f, nth_error descs i = Some d /\ nth_error fields i = Some f /\ d_role d = Some r /\ d_name d = n /\ snd f = t) as K.
    { intros n t r. rewrite keys_in. split.
      - intros (d & f & I & H). apply in_combine_nth in I as (i & A & B). exists i, d, f. tauto.
      - intros (i & d & f & A & B & H). exists d, f. split; [apply in_combine_nth; exists i; split; assumption|exact H]. }
    assert (incl (keys OldPk (combine descs fields)) (keys NewPk (combine descs fields))) as I1.
    { intros [n t] H. apply K. apply PK. apply K. exact H. }
    assert (incl (keys NewPk (combine descs fields)) (keys OldPk (combine descs fields))) as I2.
    { intros [n t] H. apply K. apply PK. apply K. exact H. }
    rewrite (subset_true _ _ I1), (subset_true _ _ I2). cbn [andb negb].
    assert (exists x, In x (keys OldPk (combine descs fields))) as (x & X).
    { destruct PS as (d & D & R). apply In_nth_error in D as (i & Di).
      destruct (nth_error fields i) as [f|] eqn:Fi.
      - exists (d_name d, snd f). apply K. exists i, d, f. repeat split; assumption.
      - apply nth_error_None in Fi. assert (i < length descs) by (apply nth_error_Some; congruence). lia. }
    pose proof (I1 x X) as Y. destruct (keys OldPk _); [contradiction|]. destruct (keys NewPk _); [contradiction|]. cbn. rewrite andb_false_r. reflexivity.
  - split; rewrite map_map; cbn.
    + clear -PL. revert fields PL. induction descs as [|d l IH]; intros [|f m] L; cbn in *; try discriminate; [reflexivity|]. f_equal. apply IH. lia.
    + revert PR. clear -PL. revert fields PL. induction descs as [|d l IH]; intros [|f m] L PR; cbn in *; try discriminate; [reflexivity|]. f_equal.
      * specialize (PR d (or_introl eq_refl)). destruct (d_role d); [reflexivity|congruence].
      * apply IH; [lia|]. intros e E. apply PR. right. exact E.
Qed.

Lemma combine_nth_error {A B} (l : list A) (m : list B) i x y : nth_error l i = Some x -> nth_error m i = Some y -> nth_error (combine l m) i = Some (x, y).
Proof.
  revert m i. induction l as [|a l IH]; intros [|b m] [|i]; cbn; try discriminate; [congruence|apply IH].
Qed.
Lemma shifted descs pre f g post v cs : try_new descs (pre ++ f :: g :: post) v = Some cs -> flat pre -> nested f ->
  exists child d c, nth_error (flattened (pre ++ f :: g :: post)) (S (length pre)) = Some child /\ nth_error (children (snd f)) 0 = Some child /\
    nth_error descs (S (length pre)) = Some d /\ nth_error cs (S (length pre)) = Some c /\
    c_field c = g /\ c_name c = d_name d /\ d_role d = Some (c_role c).
Proof.
  intros H F N. set (fields := pre ++ f :: g :: post) in *.
  assert (flattened fields = pre ++ f :: children (snd f) ++ flattened (g :: post)) as E.
  { unfold fields, flattened. rewrite flat_map_app. cbn. f_equal. apply (flattened_flat pre F). }
  apply nested_children in N. destruct (children (snd f)) as [|child r] eqn:K; [contradiction N; reflexivity|].
  assert (nth_error (flattened fields) (S (length pre)) = Some child) as C1.
  { rewrite E. rewrite nth_error_app2 by lia. replace (S (length pre) - length pre) with 1 by lia. reflexivity. }
  assert (nth_error fields (S (length pre)) = Some g) as C2.
  { unfold fields. rewrite nth_error_app2 by lia. replace (S (length pre) - length pre) with 1 by lia. reflexivity. }
  unfold try_new in H. destruct (Nat.eqb_spec (length descs) (length (flattened fields))) as [L|]; [cbn [negb] in H|discriminate].
  destruct (forallb _ _) eqn:FB; [cbn [negb] in H|discriminate]. destruct (_ && _); [discriminate|]. injection H as <-.
  destruct (nth_error descs (S (length pre))) as [d|] eqn:D.
  2:{ apply nth_error_None in D. assert (S (length pre) < length (flattened fields)) by (apply nth_error_Some; congruence). lia. }
  exists child, d, (to_column (d, g)). pose proof (combine_nth_error _ _ _ _ _ D C2) as Z.
  split; [exact C1|split; [reflexivity|split; [reflexivity|split; [apply map_nth_error, Z|split; [reflexivity|split; [reflexivity|]]]]]].
  cbn. rewrite forallb_forall in FB. specialize (FB _ (nth_error_In _ _ Z)). destruct g as [n t]. cbn in FB. destruct (d_role d); [reflexivity|discriminate].
Qed.
