(* Lemmas for OptsProps.v *)
From Coq Require Import Ascii String List Bool Permutation.
From Verif Require Import OptsModel OptsSpec.
Import ListNotations.
Open Scope string_scope.

Lemma s3_key_eqb_eq a b : s3_key_eqb a b = true <-> a = b.
Proof.
  split.
  - destruct a, b; cbn; try discriminate; auto. intros H; apply String.eqb_eq in H; now subst.
  - intros ->. destruct b; cbn; auto. apply String.eqb_refl.
Qed.
Lemma s3_key_eqb_refl a : s3_key_eqb a a = true.
Proof. now apply s3_key_eqb_eq. Qed.
Lemma gcs_key_eqb_eq a b : gcs_key_eqb a b = true <-> a = b.
Proof.
  split.
  - destruct a, b; cbn; try discriminate; auto. intros H; apply String.eqb_eq in H; now subst.
  - intros ->. destruct b; cbn; auto. apply String.eqb_refl.
Qed.

Lemma lookup_put_same k v o : lookup (put k v o) k = Some v.
Proof. unfold put; cbn. now rewrite String.eqb_refl. Qed.
Lemma lookup_put_other k k' v o : k' <> k -> lookup (put k' v o) k = lookup o k.
Proof.
  intros N. unfold put; cbn. rewrite (proj2 (String.eqb_neq k' k) N).
  induction o as [|[a b] r IH]; cbn; auto.
  destruct (String.eqb a k') eqn:E; cbn.
  - apply String.eqb_eq in E; subst. rewrite (proj2 (String.eqb_neq k' k) N). exact IH.
  - destruct (String.eqb a k); auto.
Qed.

Section P.
  Variable other_key : string -> option string.
  Notation given := (given other_key). Notation no_aliases := (no_aliases other_key). Notation key_of := (s3_key_of other_key).

  Lemma no_aliases_cons n v o : no_aliases ((n, v) :: o) -> no_aliases o /\ (forall k, key_of n = Some k -> given o k = None).
  Proof.
    intros H; split.
    - intros b n' v' a E k K. destruct (H ((n, v) :: b) n' v' a) with (k := k) as [X Y]; [cbn; now rewrite E | exact K |]. split; auto.
      cbn in X. destruct (key_of n) as [k'|]; auto. destruct (s3_key_eqb k' k); [discriminate | auto].
    - intros k K. now destruct (H [] n v o eq_refl k K).
  Qed.
  Lemma no_aliases_nil : no_aliases [].
  Proof. intros b n v a E. destruct b; discriminate. Qed.
  Lemma given_app a b k : given (a ++ b) k = match given a k with Some v => Some v | None => given b k end.
  Proof.
    induction a as [|[n v] a IH]; cbn; auto. destruct (key_of n) as [k'|]; auto. destruct (s3_key_eqb k' k); auto.
  Qed.
  Lemma given_in o k v : given o k = Some v -> exists n, In (n, v) o /\ key_of n = Some k.
  Proof.
    induction o as [|[n w] o IH]; cbn; [discriminate|].
    destruct (key_of n) as [k'|] eqn:K.
    - destruct (s3_key_eqb k' k) eqn:E.
      + intros H. assert (w = v) by congruence. subst. exists n. split; auto. apply s3_key_eqb_eq in E; now subst.
      + intros H. destruct (IH H) as [m [A B]]. exists m; auto.
    - intros H. destruct (IH H) as [m [A B]]. exists m; auto.
  Qed.
  Lemma in_given o n v k : no_aliases o -> In (n, v) o -> key_of n = Some k -> given o k = Some v.
  Proof.
    intros N I K. apply in_split in I. destruct I as [a [b ->]]. destruct (N a n v b eq_refl k K) as [A B].
    rewrite given_app, A. cbn. rewrite K, s3_key_eqb_refl. reflexivity.
  Qed.
  Lemma given_none o k : (forall n v, In (n, v) o -> key_of n <> Some k) -> given o k = None.
  Proof.
    intros H. destruct (given o k) eqn:E; auto. apply given_in in E. destruct E as [n [A B]]. exfalso. exact (H n s A B).
  Qed.
  Lemma no_aliases_perm o o' : Permutation o o' -> no_aliases o -> no_aliases o'.
  Proof.
    induction 1; intros N.
    - exact N.
    - destruct x as [n v]. destruct (no_aliases_cons _ _ _ N) as [N' F]. specialize (IHPermutation N').
      assert (G : forall k, key_of n = Some k -> given l' k = None).
      { intros k K. destruct (given l' k) eqn:E; auto. apply given_in in E. destruct E as [m [A B]].
        apply (Permutation_in _ (Permutation_sym H)) in A. specialize (F k K). rewrite (in_given l m s k N' A B) in F. discriminate. }
      intros b m w a E k K. destruct b as [|p b]; cbn in E; injection E as E1 E2; subst.
      + split; [reflexivity|]. apply G. congruence.
      + subst. destruct (IHPermutation b m w a eq_refl k K) as [X Y]. split; auto.
        cbn. destruct (key_of n) as [k'|] eqn:Kn; auto. destruct (s3_key_eqb k' k) eqn:Q; auto.
        apply s3_key_eqb_eq in Q; subst. specialize (G k eq_refl). rewrite given_app, X in G. cbn in G. rewrite K, s3_key_eqb_refl in G. discriminate.
    - destruct x as [n v], y as [m w].
      destruct (no_aliases_cons _ _ _ N) as [N' F]. destruct (no_aliases_cons _ _ _ N') as [N'' F'].
      intros b p u a E k K. destruct b as [|q b]; cbn in E.
      + injection E as <- <- <-. split; [reflexivity|]. cbn. destruct (key_of m) as [k'|] eqn:Km.
        * destruct (s3_key_eqb k' k) eqn:Q; [|auto]. apply s3_key_eqb_eq in Q; subst. specialize (F k eq_refl). cbn in F.
          rewrite K, s3_key_eqb_refl in F. discriminate.
        * apply F'. exact K.
      + injection E as <- E. destruct b as [|q b]; cbn in E.
        * injection E as <- <- <-. specialize (F k K). cbn in F. cbn. destruct (key_of n) as [k'|]; [destruct (s3_key_eqb k' k); [discriminate|] |]; auto.
        * injection E as <- E. rewrite E in N. destruct (N ((m, w) :: (n, v) :: b) p u a eq_refl k K) as [X Y]. split; auto. cbn in X |- *.
          destruct (key_of m) as [k1|], (key_of n) as [k2|]; auto.
          -- destruct (s3_key_eqb k1 k), (s3_key_eqb k2 k); auto; discriminate.
    - auto.
  Qed.
  Lemma given_perm o o' k : Permutation o o' -> no_aliases o -> given o k = given o' k.
  Proof.
    intros P N. pose proof (no_aliases_perm _ _ P N) as N'.
    destruct (given o k) eqn:E.
    - apply given_in in E. destruct E as [n [A B]]. symmetry. apply (in_given o' n s k N'); auto. exact (Permutation_in _ P A).
    - symmetry. apply given_none. intros n v A B. apply (Permutation_in _ (Permutation_sym P)) in A. rewrite (in_given o n v k N A B) in E. discriminate.
  Qed.
  Lemma all_known_perm o o' : Permutation o o' -> all_known other_key o -> all_known other_key o'.
  Proof. intros P H. unfold all_known in *. rewrite Forall_forall in *. intros x I. apply H. exact (Permutation_in _ (Permutation_sym P) I). Qed.

  Lemma all_known_dec o : all_known other_key o \/ ~ all_known other_key o.
  Proof.
    unfold all_known. induction o as [|a o IH]; [left; constructor|].
    destruct (s3_key_of other_key (fst a)) eqn:E.
    - destruct IH as [H|H]; [left; constructor; auto; rewrite E; discriminate | right; intros F; inversion F; auto].
    - right. intros F. inversion F; subst. auto.
  Qed.
  (* map_options *)
  Lemma map_options_none o : fold_left (fun (acc : option (list (s3_key * string))) (kv : string * string) => match acc, key_of (fst kv) with Some m, Some k => Some ((k, snd kv) :: m) | _, _ => None end) o (@None (list (s3_key * string))) = None.
  Proof. induction o; cbn; auto. Qed.
  Lemma map_options_from o m0 : all_known other_key o -> no_aliases o ->
    exists m, fold_left (fun (acc : option (list (s3_key * string))) (kv : string * string) => match acc, key_of (fst kv) with Some m, Some k => Some ((k, snd kv) :: m) | _, _ => None end) o (Some m0) = Some m
              /\ forall k, s3_lookup m k = match given o k with Some v => Some v | None => s3_lookup m0 k end.
  Proof.
    revert m0. induction o as [|[n v] o IH]; intros m0 A N.
    - exists m0. split; auto.
    - inversion A; subst. destruct (no_aliases_cons _ _ _ N) as [N' F]. cbn [fold_left fst snd].
      destruct (key_of n) as [k0|] eqn:K; [|cbn in H1; congruence].
      destruct (IH ((k0, v) :: m0) H2 N') as [m [E L]]. exists m. split; auto.
      intros k. rewrite L. cbn. rewrite K. destruct (s3_key_eqb k0 k) eqn:Q.
      + apply s3_key_eqb_eq in Q; subst. now rewrite (F k eq_refl).
      + reflexivity.
  Qed.
  Lemma map_options_spec o : all_known other_key o -> no_aliases o -> exists m, map_options other_key o = Some m /\ forall k, s3_lookup m k = given o k.
  Proof.
    intros A N. destruct (map_options_from o [] A N) as [m [E L]]. exists m. split; auto. intros k. rewrite L. cbn. destruct (given o k); auto.
  Qed.
  Lemma map_options_unknown o m0 : ~ all_known other_key o -> fold_left (fun (acc : option (list (s3_key * string))) (kv : string * string) => match acc, key_of (fst kv) with Some m, Some k => Some ((k, snd kv) :: m) | _, _ => None end) o (Some m0) = None.
  Proof.
    revert m0. induction o as [|[n v] o IH]; intros m0 H.
    - exfalso; apply H; constructor.
    - cbn [fold_left fst snd]. destruct (key_of n) eqn:K.
      + apply IH. intros A. apply H. constructor; auto. cbn; congruence.
      + apply map_options_none.
  Qed.

  (* or_insert *)
  Lemma s3_lookup_or_insert k k' v m : s3_lookup (s3_or_insert k' v m) k = match s3_lookup m k with Some w => Some w | None => if s3_key_eqb k' k then Some v else None end.
  Proof.
    unfold s3_or_insert. destruct (s3_lookup m k') eqn:E.
    - destruct (s3_lookup m k) eqn:F; auto. destruct (s3_key_eqb k' k) eqn:Q; auto. apply s3_key_eqb_eq in Q; subst. congruence.
    - cbn. destruct (s3_key_eqb k' k) eqn:Q; [apply s3_key_eqb_eq in Q; subst; now rewrite E |]. destruct (s3_lookup m k); auto.
  Qed.
  Lemma add_specific_spec d m m' : add_specific d m = Some m' ->
    forall k, s3_lookup m' k = match s3_lookup m k with
                               | Some v => Some v
                               | None => match k with
                                         | Region => match s3_lookup m Endpoint with None => d | Some _ => None end
                                         | ConditionalPut => Some "etag"
                                         | _ => None
                                         end
                               end.
  Proof.
    unfold add_specific. intros H k.
    destruct (s3_lookup m Region) as [r|] eqn:R; [|destruct (s3_lookup m Endpoint) as [e|] eqn:En; [|destruct d as [d|]; [|discriminate]]].
    - assert (m' = s3_or_insert ConditionalPut "etag" m) by congruence. subst. rewrite s3_lookup_or_insert. destruct (s3_lookup m k) eqn:L; auto.
      destruct k; cbn; auto. congruence.
    - assert (m' = s3_or_insert ConditionalPut "etag" m) by congruence. subst. rewrite s3_lookup_or_insert. destruct (s3_lookup m k) eqn:L; auto.
      destruct k; cbn; auto.
    - assert (m' = s3_or_insert ConditionalPut "etag" ((Region, d) :: m)) by congruence. subst. rewrite s3_lookup_or_insert. cbn [s3_lookup].
      destruct (s3_key_eqb Region k) eqn:Q.
      + apply s3_key_eqb_eq in Q; subst. now rewrite R.
      + destruct (s3_lookup m k) eqn:L; auto. destruct k; cbn in *; auto; discriminate.
  Qed.
  Lemma add_specific_none d m : add_specific d m = None <-> (s3_lookup m Region = None /\ s3_lookup m Endpoint = None /\ d = None).
  Proof.
    unfold add_specific. destruct (s3_lookup m Region), (s3_lookup m Endpoint), d; split; try discriminate; intros H; try tauto; try (destruct H as [? [? ?]]; discriminate).
  Qed.
  (* the environment *)
  Lemma add_variables_spec env m : forall k, s3_lookup (fold_left (add_variable other_key) env m) k = match s3_lookup m k with Some v => Some v | None => given (aws_variables env) k end.
  Proof.
    revert m. induction env as [|[n v] env IH]; intros m k.
    - cbn. now destruct (s3_lookup m k).
    - cbn [fold_left]. rewrite IH. unfold add_variable, aws_variables. cbn [fst snd filter].
      destruct (String.prefix "AWS_" n).
      + cbn [map fst snd OptsSpec.given]. destruct (key_of (lower n)) as [k'|].
        * rewrite s3_lookup_or_insert. destruct (s3_lookup m k) eqn:L; auto. destruct (s3_key_eqb k' k); auto.
        * reflexivity.
      + reflexivity.
  Qed.
  Definition final_lookup (d : option string) (env o : options) (k : s3_key) : option string :=
    match given o k with
    | Some v => Some v
    | None => match (match k with Region => match given o Endpoint with None => d | Some _ => None end | ConditionalPut => Some "etag" | _ => None end) with
              | Some v => Some v
              | None => match given (aws_variables env) k with
                        | Some v => Some v
                        | None => match k, lookup env "ALLOW_HTTP" with AllowHttp, Some v => if String.eqb v "true" then Some "true" else None | _, _ => None end
                        end
              end
    end.
  Lemma add_environment_spec env m k : s3_lookup (add_environment other_key env m) k =
    match s3_lookup m k with
    | Some v => Some v
    | None => match given (aws_variables env) k with
              | Some v => Some v
              | None => match k, lookup env "ALLOW_HTTP" with AllowHttp, Some v => if String.eqb v "true" then Some "true" else None | _, _ => None end
              end
    end.
  Proof.
    unfold add_environment. destruct (lookup env "ALLOW_HTTP") as [h|].
    - destruct (String.eqb h "true").
      + rewrite s3_lookup_or_insert, add_variables_spec. destruct (s3_lookup m k); auto. destruct (given (aws_variables env) k); auto. destruct k; cbn; auto.
      + rewrite add_variables_spec. destruct (s3_lookup m k); auto. destruct (given (aws_variables env) k); auto. destruct k; auto.
    - rewrite add_variables_spec. destruct (s3_lookup m k); auto. destruct (given (aws_variables env) k); auto. destruct k; auto.
  Qed.
  Lemma build_s3_ext b g g' : (forall k, g k = g' k) -> build_s3 b g = build_s3 b g'.
  Proof. intros H. unfold build_s3. now rewrite !H. Qed.
  (* What is built from options without aliases *)
  Lemma build_from_options_spec d env b o : all_known other_key o -> no_aliases o ->
    build_from_options other_key d env b o =
    match given o Region, given o Endpoint, d with
    | None, None, None => Panicked
    | _, _, _ => build_s3 b (final_lookup d env o)
    end.
  Proof.
    intros A N. unfold build_from_options. destruct (map_options_spec o A N) as [m [E L]]. rewrite E.
    destruct (add_specific d m) as [m'|] eqn:S.
    - pose proof (add_specific_spec _ _ _ S) as Q.
      replace (match given o Region, given o Endpoint, d with None, None, None => Panicked | _, _, _ => build_s3 b (final_lookup d env o) end) with (build_s3 b (final_lookup d env o)).
      + apply build_s3_ext. intros k. rewrite add_environment_spec, Q, !L. unfold final_lookup. destruct (given o k); auto. 
      + destruct (given o Region) eqn:R, (given o Endpoint) eqn:En, d; auto.
        assert (X : add_specific None m = None) by (apply add_specific_none; rewrite !L; auto). congruence.
    - apply add_specific_none in S. rewrite !L in S. destruct S as [-> [-> ->]]. reflexivity.
  Qed.
End P.
