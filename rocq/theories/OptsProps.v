(* C98-C101: options of object stores, external tables on buckets, properties for Iceberg.
   Specification: OptsSpec.v. Model: OptsModel.v. Lemmas: OptsProofs.v. *)
From Coq Require Import Ascii String List Bool Permutation.
From Verif Require Import OptsModel OptsSpec OptsProofs.
Import ListNotations.
Open Scope string_scope.

Section O.
  Variable other_key : string -> option string.
  Variable client_key : string -> bool.
  Notation given := (given other_key). Notation key_of := (s3_key_of other_key).

  Lemma to_hashmap_known c : all_known other_key (to_hashmap c).
  Proof.
    unfold all_known, to_hashmap, opt_pair. destruct (region c), (access_key_id c), (secret_access_key c), (session_token c), (endpoint c); repeat constructor; cbn; discriminate.
  Qed.
  Lemma given_opt_pair k k' v : key_of (as_ref k) = Some k -> given (opt_pair k v) k' = if s3_key_eqb k k' then v else None.
  Proof. intros H. destruct v; cbn; [rewrite H|]; destruct (s3_key_eqb k k'); auto. Qed.
  Lemma to_hashmap_given c k : given (to_hashmap c) k =
    match k with
    | Region => region c | AccessKeyId => access_key_id c | SecretAccessKey => secret_access_key c | Token => session_token c | Endpoint => endpoint c
    | AllowHttp => Some (show_bool (allow_http c)) | SkipSignature => Some (show_bool (skip_signature c))
    | _ => None
    end.
  Proof.
    unfold to_hashmap. rewrite !given_app, !given_opt_pair by reflexivity.
    destruct k; cbn; destruct (region c), (access_key_id c), (secret_access_key c), (session_token c), (endpoint c); reflexivity.
  Qed.
  (* names that give different settings: no aliases *)
  Lemma no_aliases_build n v o : no_aliases other_key o -> (forall k, key_of n = Some k -> given o k = None) -> no_aliases other_key ((n, v) :: o).
  Proof.
    intros N G b m w a E k K. destruct b as [|p b]; cbn in E.
    - injection E as <- <- <-. split; [reflexivity|]. exact (G k K).
    - injection E as <- E. destruct (N b m w a E k K) as [X Y]. split; auto. cbn. destruct (key_of n) as [k'|] eqn:Kn; auto.
      destruct (s3_key_eqb k' k) eqn:Q; auto. apply s3_key_eqb_eq in Q; subst k'. specialize (G k eq_refl). rewrite E, given_app, X in G. cbn in G.
      rewrite K, s3_key_eqb_refl in G. discriminate.
  Qed.
  Lemma to_hashmap_no_aliases c : no_aliases other_key (to_hashmap c).
  Proof.
    unfold to_hashmap, opt_pair. destruct (region c), (access_key_id c), (secret_access_key c), (session_token c), (endpoint c); cbn [app];
      repeat (apply no_aliases_build; [|intros k K; cbn in K; injection K as <-; reflexivity]); apply no_aliases_nil.
  Qed.
  Lemma no_aws env : (forall v, In v env -> String.prefix "AWS_" (fst v) = false) -> aws_variables env = [].
  Proof. intros H. unfold aws_variables. induction env as [|a env IH]; cbn; auto. rewrite (H a (or_introl eq_refl)). apply IH. intros v I. apply H. now right. Qed.

  (* ---- C98 ---- *)
  (* The options reported for an S3 store build the same store again: if the region is given, both keys come with skip_signature=false, or
     there are no keys; whatever the order of the options, and whatever the environment without AWS variables. *)
  Theorem c98_partial : forall (c : s3_config) (o env : options) (detected : option string) (r : string),
    Permutation o (to_hashmap c) -> (forall v, In v env -> String.prefix "AWS_" (fst v) = false) -> region c = Some r ->
    (access_key_id c <> None /\ secret_access_key c <> None /\ skip_signature c = false
     \/ access_key_id c = None /\ secret_access_key c = None /\ skip_signature c = true) ->
    build_from_options other_key detected env (bucket c) o = build_amazon_s3 c.
  Proof.
    intros c o env d r P E R K.
    pose proof (no_aliases_perm other_key _ _ (Permutation_sym P) (to_hashmap_no_aliases c)) as N.
    pose proof (all_known_perm other_key _ _ (Permutation_sym P) (to_hashmap_known c)) as A.
    rewrite (build_from_options_spec other_key d env (bucket c) o A N).
    assert (G : forall k, given o k = given (to_hashmap c) k) by (intros; apply given_perm; auto).
    rewrite !G, !to_hashmap_given, R.
    unfold build_s3, final_lookup. rewrite (no_aws env E), !G, !to_hashmap_given, R. cbn [OptsSpec.given].
    unfold build_amazon_s3. rewrite R.
    destruct K as [[A1 [A2 A3]]|[A1 [A2 A3]]].
    - destruct (access_key_id c) as [i|]; [|congruence]. destruct (secret_access_key c) as [s|]; [|congruence]. rewrite A3. cbn.
      destruct (allow_http c), (endpoint c), (session_token c); cbn; reflexivity.
    - rewrite A1, A2, A3. cbn. destruct (allow_http c), (endpoint c); cbn; reflexivity.
  Qed.
  (* With keys and the default of skip_signature, the store signs its requests, and the store built from its options does not. *)
  Theorem c98_signature_refuted : forall (c : s3_config) (o : options) (detected : option string) (r i s : string),
    Permutation o (to_hashmap c) -> region c = Some r -> access_key_id c = Some i -> secret_access_key c = Some s -> skip_signature c = true ->
    exists a b, build_amazon_s3 c = Built a /\ s_auth a = Static i s (session_token c)
                /\ build_from_options other_key detected [] (bucket c) o = Built b /\ s_auth b = Unsigned.
  Proof.
    intros c o d r i s P R I S K.
    pose proof (no_aliases_perm other_key _ _ (Permutation_sym P) (to_hashmap_no_aliases c)) as N.
    pose proof (all_known_perm other_key _ _ (Permutation_sym P) (to_hashmap_known c)) as A.
    rewrite (build_from_options_spec other_key d [] (bucket c) o A N).
    assert (G : forall k, given o k = given (to_hashmap c) k) by (intros; apply given_perm; auto).
    rewrite !G, !to_hashmap_given, R. unfold build_s3, final_lookup, build_amazon_s3. rewrite !G, !to_hashmap_given, R, I, S, K. cbn.
    destruct (allow_http c); cbn; eexists; eexists; (split; [reflexivity|]); (split; [reflexivity|]); (split; [reflexivity|]); reflexivity.
  Qed.
  (* Without a region (an endpoint is enough), the region differs. *)
  Theorem c98_region_refuted : forall (c : s3_config) (o : options) (detected : option string) (e : string),
    Permutation o (to_hashmap c) -> region c = None -> endpoint c = Some e -> access_key_id c = None -> secret_access_key c = None -> skip_signature c = true ->
    exists a b, build_amazon_s3 c = Built a /\ s_region a = "" /\ build_from_options other_key detected [] (bucket c) o = Built b /\ s_region b = "us-east-1".
  Proof.
    intros c o d e P R En I S K.
    pose proof (no_aliases_perm other_key _ _ (Permutation_sym P) (to_hashmap_no_aliases c)) as N.
    pose proof (all_known_perm other_key _ _ (Permutation_sym P) (to_hashmap_known c)) as A.
    rewrite (build_from_options_spec other_key d [] (bucket c) o A N).
    assert (G : forall k, given o k = given (to_hashmap c) k) by (intros; apply given_perm; auto).
    rewrite !G, !to_hashmap_given, R, En. unfold build_s3, final_lookup, build_amazon_s3. rewrite !G, !to_hashmap_given, R, I, S, K, En. cbn.
    destruct (allow_http c), d; cbn; eexists; eexists; (split; [reflexivity|]); (split; [reflexivity|]); (split; [reflexivity|]); reflexivity.
  Qed.

  Lemma lookup_in o k v : lookup o k = Some v -> In (k, v) o.
  Proof.
    induction o as [|[a b] o IH]; cbn; [discriminate|]. destruct (String.eqb a k) eqn:E.
    - intros H. assert (b = v) by congruence. apply String.eqb_eq in E; subst. auto.
    - auto.
  Qed.
  Lemma lookup_absent o k : (forall v, ~ In (k, v) o) -> lookup o k = None.
  Proof. intros H. destruct (lookup o k) eqn:E; auto. apply lookup_in in E. exfalso; exact (H _ E). Qed.
  Lemma lookup_unique o k v : In (k, v) o -> (forall w, In (k, w) o -> w = v) -> lookup o k = Some v.
  Proof.
    intros I U. destruct (lookup o k) eqn:E.
    - apply lookup_in in E. now rewrite (U _ E).
    - exfalso. clear U. induction o as [|[a b] o IH]; cbn in *; [tauto|]. destruct I as [I|I].
      + injection I as -> ->. rewrite String.eqb_refl in E. discriminate.
      + destruct (String.eqb a k); [discriminate | auto].
  Qed.

  (* Reading the reported options back as a configuration: never works for S3 and GCS, whatever the configuration *)
  Theorem c98_back_refuted : forall (c : s3_config) (o : options), Permutation o (to_hashmap c) -> from_hashmap o = Panicked.
  Proof.
    intros c o P. unfold from_hashmap. rewrite lookup_absent; auto. intros v I. apply (Permutation_in _ P) in I. revert I. unfold to_hashmap, opt_pair.
    destruct (region c), (access_key_id c), (secret_access_key c), (session_token c), (endpoint c); cbn; intuition discriminate.
  Qed.
  Theorem c98_gcs_back_refuted : forall (c : gcs_config) (o : options), Permutation o (gcs_to_hashmap c) -> gcs_from_hashmap o = Panicked.
  Proof.
    intros c o P. unfold gcs_from_hashmap. rewrite lookup_absent; auto. intros v I. apply (Permutation_in _ P) in I. revert I. unfold gcs_to_hashmap.
    destruct (g_prefix c), (g_credentials c); cbn; intuition discriminate.
  Qed.
  (* It works for local storage *)
  Theorem c98_local : forall (c : local_config) (o : options), Permutation o (local_to_hashmap c) -> local_from_hashmap o = Built c.
  Proof.
    intros [d h] o P. unfold local_from_hashmap. cbn in P.
    assert (In1 : forall x, In x o <-> x = ("data_dir", d) \/ x = ("disable_hardlinks", show_bool h)).
    { intros x; split; intros I.
      - apply (Permutation_in _ P) in I. cbn in I. intuition.
      - apply (Permutation_in _ (Permutation_sym P)). cbn. intuition. }
    rewrite (lookup_unique o "data_dir" d), (lookup_unique o "disable_hardlinks" (show_bool h)).
    - destruct h; reflexivity.
    - apply In1; auto.
    - intros w I. apply In1 in I. destruct I as [I|I]; injection I; auto; discriminate.
    - apply In1; auto.
    - intros w I. apply In1 in I. destruct I as [I|I]; injection I; auto; discriminate.
  Qed.
  (* GCS: with a prefix, the reported options are refused *)
  Lemma gcs_none o : fold_left (fun (acc : option (list (gcs_key * string))) (kv : string * string) => match acc, gcs_key_of client_key (fst kv) with Some m, Some k => Some ((k, snd kv) :: m) | _, _ => None end) o None = None.
  Proof. induction o; cbn; auto. Qed.
  Lemma gcs_unknown o n v m : In (n, v) o -> gcs_key_of client_key n = None ->
    fold_left (fun (acc : option (list (gcs_key * string))) (kv : string * string) => match acc, gcs_key_of client_key (fst kv) with Some m, Some k => Some ((k, snd kv) :: m) | _, _ => None end) o m = None.
  Proof.
    revert m. induction o as [|[a b] o IH]; intros m I K; [destruct I|]. destruct I as [I|I].
    - injection I as -> ->. cbn [fold_left fst snd]. rewrite K. destruct m; apply gcs_none.
    - cbn [fold_left]. now apply IH.
  Qed.
  Theorem c98_gcs_prefix_refuted : forall (c : gcs_config) (o env : options) (p : string),
    client_key "prefix" = false -> Permutation o (gcs_to_hashmap c) -> g_prefix c = Some p -> gcs_build_from_options client_key env (g_bucket c) o = Failed.
  Proof.
    intros c o env p K P Hp. unfold gcs_build_from_options, gcs_map_options. rewrite (gcs_unknown o "prefix" p); auto.
    - apply (Permutation_in _ (Permutation_sym P)). unfold gcs_to_hashmap. rewrite Hp. cbn. auto.
    - cbn. now rewrite K.
  Qed.
  (* ... without one, credentials given as a file are taken for another kind of credentials; without them the store is the same *)
  Theorem c98_gcs_partial : forall (c : gcs_config) (o : options), Permutation o (gcs_to_hashmap c) -> g_prefix c = None ->
    gcs_build_from_options client_key [] (g_bucket c) o
    = Built (g_bucket c, match snd (build_google c) with AccountPath p => Application p | a => a end).
  Proof.
    intros [b p cr] o P Hp. cbn in Hp. subst p. unfold gcs_to_hashmap in P. cbn in P. destruct cr as [f|].
    - apply Permutation_sym, Permutation_length_2_inv in P. destruct P as [->| ->]; reflexivity.
    - apply Permutation_sym, Permutation_length_1_inv in P. subst. reflexivity.
  Qed.

  (* ---- C99 ---- *)
  Lemma run_snoc internal l st : run internal (l ++ [st]) = execute internal (run internal l) st.
  Proof. unfold run. now rewrite fold_left_app. Qed.
  Lemma create_built internal s t b o s' : create_external internal s t b o = Built s' ->
    exists c, table_config internal b o = Some c /\ s' = {| stores := (b, c) :: stores s; tables := (t, b) :: tables s |}.
  Proof.
    unfold create_external. destruct (table_config internal b o) as [c|]; [|discriminate]. destruct (build_amazon_s3 c); try discriminate.
    intros H. exists c. split; auto. congruence.
  Qed.
  Lemma execute_cases internal s t b o : execute internal s (t, b, o) = s
    \/ exists c, execute internal s (t, b, o) = {| stores := (b, c) :: stores s; tables := (t, b) :: tables s |}.
  Proof.
    unfold execute. destruct (create_external internal s t b o) eqn:C; auto. destruct (create_built _ _ _ _ _ _ C) as [c [_ ->]]. right. now exists c.
  Qed.
  (* A table is read with the configuration of its own statement as long as no other table is created on the same bucket (nor under its name). *)
  Theorem c99_partial : forall internal (before after : list statement) (t b : string) (o : options),
    (exists s, create_external internal (run internal before) t b o = Built s) ->
    Forall (fun st => let '(t', b', _) := st in t' <> t /\ b' <> b) after ->
    read_with (run internal (before ++ (t, b, o) :: after)) t = table_config internal b o /\ table_config internal b o <> None.
  Proof.
    intros internal before after t b o [s C] F. destruct (create_built _ _ _ _ _ _ C) as [c [T E]]. rewrite T. split; [|discriminate].
    assert (L : assoc (tables (run internal (before ++ (t, b, o) :: after))) t = Some b /\ assoc (stores (run internal (before ++ (t, b, o) :: after))) b = Some c).
    { unfold run. rewrite fold_left_app. cbn [fold_left]. fold (run internal before).
      assert (S0 : execute internal (run internal before) (t, b, o) = s) by (unfold execute; now rewrite C). rewrite S0.
      assert (I : assoc (tables s) t = Some b /\ assoc (stores s) b = Some c) by (subst s; cbn; rewrite !String.eqb_refl; auto).
      clear - F I. revert s I. induction after as [|[[t' b'] o'] after IH]; intros s I; auto. inversion F; subst. destruct H1 as [N1 N2]. cbn [fold_left].
      apply IH; auto. destruct (execute_cases internal s t' b' o') as [-> | [c' ->]]; auto. cbn.
      rewrite (proj2 (String.eqb_neq t' t) N1), (proj2 (String.eqb_neq b' b) N2). exact I. }
    unfold read_with. destruct L as [-> ->]. reflexivity.
  Qed.
  (* Another table on the same bucket takes the earlier table over to its own credentials. *)
  Theorem c99_replaced_refuted : forall internal (before : list statement) (t1 t2 b : string) (o1 o2 : options) s1 s2,
    t1 <> t2 ->
    create_external internal (run internal before) t1 b o1 = Built s1 -> create_external internal s1 t2 b o2 = Built s2 ->
    read_with (run internal (before ++ [(t1, b, o1); (t2, b, o2)])) t1 = table_config internal b o2.
  Proof.
    intros internal before t1 t2 b o1 o2 s1 s2 N C1 C2.
    change (before ++ [(t1, b, o1); (t2, b, o2)])%list with (before ++ [(t1, b, o1)] ++ [(t2, b, o2)])%list.
    rewrite app_assoc, !run_snoc. unfold execute. rewrite C1, C2.
    destruct (create_built _ _ _ _ _ _ C1) as [c1 [T1 E1]]. destruct (create_built _ _ _ _ _ _ C2) as [c2 [T2 E2]]. subst. rewrite T2.
    unfold read_with. cbn. rewrite String.eqb_refl, (proj2 (String.eqb_neq t2 t1)) by congruence. cbn. now rewrite String.eqb_refl.
  Qed.
  (* Any option, say of the file format, makes the credentials of the server unused: requests are not signed. *)
  Theorem c99_format_refuted : forall (c : s3_config) (b : string) (o : options),
    o <> [] -> lookup o "format.access_key_id" = None -> lookup o "format.skip_signature" = None ->
    exists c' s, table_config (Some c) b o = Some c' /\ build_amazon_s3 c' = Built s /\ s_auth s = Unsigned.
  Proof.
    intros c b o N K S. destruct o as [|p o]; [congruence|]. unfold table_config. eexists. eexists. split; [reflexivity|].
    unfold build_amazon_s3, from_bucket_and_options. cbn [access_key_id secret_access_key skip_signature]. rewrite K, S. split; reflexivity.
  Qed.
  (* ... and without options the credentials of the server are the table's *)
  Theorem c99_server : forall (c : s3_config) (b : string),
    exists c', table_config (Some c) b [] = Some c' /\ bucket c' = b
      /\ match build_amazon_s3 c, build_amazon_s3 c' with
         | Built s, Built s' => s_auth s' = s_auth s /\ s_region s' = s_region s /\ s_endpoint s' = s_endpoint s /\ s_allow_http s' = s_allow_http s /\ s_bucket s' = b
         | Panicked, Panicked => True
         | _, _ => False
         end.
  Proof.
    intros c b. eexists. split; [reflexivity|]. split; [reflexivity|]. unfold build_amazon_s3. cbn.
    destruct (access_key_id c), (secret_access_key c), (skip_signature c); cbn; auto 10.
  Qed.
  (* The options of the statement are the table's: keys, token, region, endpoint; unsigned without both keys *)
  Theorem c99_options : forall internal (b : string) (o : options),
    o <> [] -> lookup o "format.skip_signature" <> Some "false" ->
    exists c s, table_config internal b o = Some c /\ build_amazon_s3 c = Built s /\ s_bucket s = b /\ s_endpoint s = lookup o "format.endpoint"
      /\ s_region s = match lookup o "format.region" with Some r => r | None => "" end
      /\ s_auth s = match lookup o "format.access_key_id", lookup o "format.secret_access_key" with
                    | Some i, Some k => Static i k (lookup o "format.session_token")
                    | _, _ => Unsigned
                    end.
  Proof.
    intros internal b o N S.
    assert (Q : not_false (lookup o "format.skip_signature") = true).
    { unfold not_false. destruct (lookup o "format.skip_signature") as [v|]; auto. destruct (String.eqb v "false") eqn:E; auto. apply String.eqb_eq in E. congruence. }
    assert (T : table_config internal b o = Some (from_bucket_and_options b o)) by (destruct o; [congruence | reflexivity]).
    rewrite T. exists (from_bucket_and_options b o).
    unfold build_amazon_s3. cbn [from_bucket_and_options access_key_id secret_access_key skip_signature region endpoint bucket session_token allow_http]. rewrite Q.
    destruct (lookup o "format.access_key_id"), (lookup o "format.secret_access_key"); eexists; repeat apply conj; reflexivity.
  Qed.
  (* Asking for signatures without giving both keys brings the statement down. *)
  Theorem c99_panic_refuted : forall internal s (t b : string) (o : options),
    lookup o "format.skip_signature" = Some "false" -> (lookup o "format.access_key_id" = None \/ lookup o "format.secret_access_key" = None) ->
    create_external internal s t b o = Panicked.
  Proof.
    intros internal s t b o S K. destruct o as [|p o]; [discriminate|]. unfold create_external, table_config, build_amazon_s3, from_bucket_and_options.
    cbn [access_key_id secret_access_key skip_signature]. rewrite S. cbn [not_false].
    destruct K as [-> | ->]; [|destruct (lookup (p :: o) "format.access_key_id")]; reflexivity.
  Qed.

  (* ---- C100 ---- *)
  Notation fold_props := (fold_left (fun props (kv : string * string) => match key_of (fst kv) with Some k => file_io_prop k (snd kv) props | None => put (fst kv) (snd kv) props end)).
  Hypothesis other_names : forall s n, other_key s = Some n -> String.prefix "s3." n = false.
  Lemma key_of_name n k : key_of n = Some k -> String.prefix "s3." (as_ref k) = false.
  Proof.
    unfold s3_key_of. repeat match goal with |- context [if ?c then _ else _] => destruct c end; intros H; try (injection H as <-; reflexivity).
    destruct (other_key n) eqn:E; [|discriminate]. injection H as <-. cbn. exact (other_names _ _ E).
  Qed.
  Lemma prefix_ne p a b : String.prefix p a = false -> String.prefix p b = true -> a <> b.
  Proof. intros H1 H2 ->. congruence. Qed.
  Definition direct (k : s3_key) : option string :=
    match k with AccessKeyId => Some "s3.access-key-id" | SecretAccessKey => Some "s3.secret-access-key" | Endpoint => Some "s3.endpoint" | _ => None end.
  Lemma file_io_prop_direct k name k' v props : direct k = Some name -> String.prefix "s3." (as_ref k') = false ->
    lookup (file_io_prop k' v props) name = if s3_key_eqb k' k then Some v else lookup props name.
  Proof.
    intros D P. assert (P' : String.prefix "s3." name = true) by (destruct k; try discriminate; injection D as <-; reflexivity).
    assert (B : lookup (or_insert "s3.region" "dummy-region" (put "s3.disable-config-load" "true" props)) name = lookup props name).
    { unfold or_insert. destruct (lookup (put "s3.disable-config-load" "true" props) "s3.region"); repeat rewrite lookup_put_other; auto;
        intros E; subst name; destruct k; discriminate. }
    unfold file_io_prop. cbv zeta.
    destruct k'; cbn [s3_key_eqb];
      try (rewrite lookup_put_other; [rewrite B; destruct k; try discriminate; reflexivity | exact (prefix_ne _ _ _ P P')]).
    - destruct k; try discriminate; injection D as <-; cbn [s3_key_eqb]; [apply lookup_put_same | |]; rewrite lookup_put_other by discriminate; exact B.
    - destruct k; try discriminate; injection D as <-; cbn [s3_key_eqb]; [| apply lookup_put_same |]; rewrite lookup_put_other by discriminate; exact B.
    - destruct k; try discriminate; injection D as <-; cbn [s3_key_eqb]; rewrite lookup_put_other by discriminate; exact B.
    - destruct k; try discriminate; injection D as <-; cbn [s3_key_eqb]; [| | apply lookup_put_same]; rewrite lookup_put_other by discriminate; exact B.
    - destruct (among (lower v) ["true"; "t"; "1"]).
      + destruct k; try discriminate; injection D as <-; cbn [s3_key_eqb]; rewrite !lookup_put_other by discriminate; exact B.
      + rewrite lookup_put_other by exact (prefix_ne _ _ _ P P'). rewrite B. destruct k; try discriminate; reflexivity.
  Qed.
  Lemma props_direct k name o props : direct k = Some name -> all_known other_key o -> no_aliases other_key o ->
    lookup (fold_props o props) name = match given o k with Some v => Some v | None => lookup props name end.
  Proof.
    intros D. revert props. induction o as [|[n v] o IH]; intros props A N; auto.
    inversion A; subst. destruct (no_aliases_cons other_key _ _ _ N) as [N' F]. cbn [fold_left fst snd]. rewrite IH; auto. cbn [OptsSpec.given].
    destruct (key_of n) as [k'|] eqn:K; [|cbn in H1; congruence]. rewrite (file_io_prop_direct k name k' v props D (key_of_name n k' K)).
    destruct (s3_key_eqb k' k) eqn:Q; auto. apply s3_key_eqb_eq in Q; subst k'. now rewrite (F k eq_refl).
  Qed.
  Lemma file_io_prop_region k' v props : String.prefix "s3." (as_ref k') = false ->
    lookup (file_io_prop k' v props) "s3.region" = if s3_key_eqb k' Region then Some v else match lookup props "s3.region" with Some r => Some r | None => Some "dummy-region" end.
  Proof.
    intros P.
    assert (B : lookup (or_insert "s3.region" "dummy-region" (put "s3.disable-config-load" "true" props)) "s3.region"
                = match lookup props "s3.region" with Some r => Some r | None => Some "dummy-region" end).
    { unfold or_insert. rewrite lookup_put_other by discriminate. destruct (lookup props "s3.region") eqn:E.
      - rewrite lookup_put_other by discriminate. exact E.
      - apply lookup_put_same. }
    unfold file_io_prop. cbv zeta.
    destruct k'; cbn [s3_key_eqb]; try (rewrite lookup_put_other; [exact B | eapply prefix_ne; [exact P | reflexivity]]);
      try (rewrite lookup_put_other by discriminate; exact B).
    - apply lookup_put_same.
    - destruct (among (lower v) ["true"; "t"; "1"]).
      + rewrite !lookup_put_other by discriminate. exact B.
      + rewrite lookup_put_other by discriminate. exact B.
  Qed.
  Lemma props_region o props : all_known other_key o -> no_aliases other_key o ->
    lookup (fold_props o props) "s3.region" =
    match given o Region, lookup props "s3.region", o with Some v, _, _ => Some v | None, Some r, _ => Some r | None, None, [] => None | None, None, _ => Some "dummy-region" end.
  Proof.
    revert props. induction o as [|[n v] o IH]; intros props A N.
    - cbn. destruct (lookup props "s3.region"); auto.
    - inversion A; subst. destruct (no_aliases_cons other_key _ _ _ N) as [N' F]. cbn [fold_left fst snd]. rewrite IH; auto. cbn [OptsSpec.given].
      destruct (key_of n) as [k'|] eqn:K; [|cbn in H1; congruence]. rewrite (file_io_prop_region k' v props (key_of_name n k' K)).
      destruct (s3_key_eqb k' Region) eqn:Q.
      + apply s3_key_eqb_eq in Q; subst k'. now rewrite (F Region eq_refl).
      + destruct (given o Region); auto. destruct (lookup props "s3.region"); auto.
  Qed.
  Lemma file_io_prop_anonymous k' v props : String.prefix "s3." (as_ref k') = false ->
    lookup (file_io_prop k' v props) "s3.allow-anonymous"
    = if (s3_key_eqb k' SkipSignature && among (lower v) ["true"; "t"; "1"])%bool then Some v else lookup props "s3.allow-anonymous".
  Proof.
    intros P.
    assert (B : lookup (or_insert "s3.region" "dummy-region" (put "s3.disable-config-load" "true" props)) "s3.allow-anonymous" = lookup props "s3.allow-anonymous").
    { unfold or_insert. destruct (lookup (put "s3.disable-config-load" "true" props) "s3.region"); rewrite !lookup_put_other by discriminate; reflexivity. }
    unfold file_io_prop. cbv zeta.
    destruct k'; cbn [s3_key_eqb andb]; try (rewrite lookup_put_other; [exact B | eapply prefix_ne; [exact P | reflexivity]]);
      try (rewrite lookup_put_other by discriminate; exact B).
    destruct (among (lower v) ["true"; "t"; "1"]).
    - rewrite lookup_put_other by discriminate. apply lookup_put_same.
    - rewrite lookup_put_other by discriminate. exact B.
  Qed.
  Lemma props_anonymous o props : all_known other_key o -> no_aliases other_key o ->
    lookup (fold_props o props) "s3.allow-anonymous" =
    match given o SkipSignature with Some v => if among (lower v) ["true"; "t"; "1"] then Some v else lookup props "s3.allow-anonymous" | None => lookup props "s3.allow-anonymous" end.
  Proof.
    revert props. induction o as [|[n v] o IH]; intros props A N; auto.
    inversion A; subst. destruct (no_aliases_cons other_key _ _ _ N) as [N' F]. cbn [fold_left fst snd]. rewrite IH; auto. cbn [OptsSpec.given].
    destruct (key_of n) as [k'|] eqn:K; [|cbn in H1; congruence]. rewrite (file_io_prop_anonymous k' v props (key_of_name n k' K)).
    destruct (s3_key_eqb k' SkipSignature) eqn:Q; cbn [andb]; auto.
    apply s3_key_eqb_eq in Q; subst k'. rewrite (F SkipSignature eq_refl). reflexivity.
  Qed.
  (* Keys, region, endpoint and anonymous access reach Iceberg, whatever the order of the options, if no setting is given twice. *)
  Theorem c100_partial : forall (o : options), all_known other_key o -> no_aliases other_key o ->
    lookup (file_io_props other_key o) "s3.access-key-id" = given o AccessKeyId
    /\ lookup (file_io_props other_key o) "s3.secret-access-key" = given o SecretAccessKey
    /\ lookup (file_io_props other_key o) "s3.endpoint" = given o Endpoint
    /\ (forall r, given o Region = Some r -> lookup (file_io_props other_key o) "s3.region" = Some r)
    /\ (o <> [] -> given o Region = None -> lookup (file_io_props other_key o) "s3.region" = Some "dummy-region")
    /\ lookup (file_io_props other_key o) "s3.allow-anonymous"
       = match given o SkipSignature with Some v => if among (lower v) ["true"; "t"; "1"] then Some v else None | None => None end.
  Proof.
    intros o A N. unfold file_io_props.
    split; [rewrite (props_direct AccessKeyId "s3.access-key-id" o [] eq_refl A N); destruct (given o AccessKeyId); reflexivity|].
    split; [rewrite (props_direct SecretAccessKey "s3.secret-access-key" o [] eq_refl A N); destruct (given o SecretAccessKey); reflexivity|].
    split; [rewrite (props_direct Endpoint "s3.endpoint" o [] eq_refl A N); destruct (given o Endpoint); reflexivity|].
    split; [intros r R; rewrite (props_region o [] A N), R; reflexivity|].
    split; [intros Q R; rewrite (props_region o [] A N), R; cbn; destruct o; congruence|].
    rewrite (props_anonymous o [] A N). destruct (given o SkipSignature); reflexivity.
  Qed.
  (* The session token of temporary credentials does not: no such property is ever set. *)
  Lemma file_io_prop_token k v props : String.prefix "s3." (as_ref k) = false -> lookup (file_io_prop k v props) "s3.session-token" = lookup props "s3.session-token".
  Proof.
    intros P.
    assert (B : lookup (or_insert "s3.region" "dummy-region" (put "s3.disable-config-load" "true" props)) "s3.session-token" = lookup props "s3.session-token").
    { unfold or_insert. destruct (lookup (put "s3.disable-config-load" "true" props) "s3.region"); rewrite !lookup_put_other by discriminate; reflexivity. }
    unfold file_io_prop. cbv zeta.
    destruct k; try (rewrite lookup_put_other; [exact B | eapply prefix_ne; [exact P | reflexivity]]); try (rewrite lookup_put_other by discriminate; exact B).
    destruct (among (lower v) ["true"; "t"; "1"]); [rewrite !lookup_put_other by discriminate | rewrite lookup_put_other by discriminate]; exact B.
  Qed.
  Theorem c100_token_refuted : forall (o : options), all_known other_key o -> lookup (file_io_props other_key o) "s3.session-token" = None.
  Proof.
    intros o A. unfold file_io_props. assert (G : forall props, lookup (fold_props o props) "s3.session-token" = lookup props "s3.session-token").
    { induction o as [|[n v] o IH]; intros props; auto. inversion A; subst. cbn [fold_left fst snd]. rewrite IH; auto.
      destruct (key_of n) as [k|] eqn:K; [|cbn in H1; congruence]. exact (file_io_prop_token k v props (key_of_name n k K)). }
    now rewrite G.
  Qed.

  (* ---- C101 ---- *)
  (* The store does not depend on the order of the options, nor on that of the environment. *)
  Theorem c101_order_partial : forall (o o' env env' : options) (detected : option string) (b : string),
    Permutation o o' -> Permutation (aws_variables env) (aws_variables env') -> lookup env "ALLOW_HTTP" = lookup env' "ALLOW_HTTP" ->
    no_aliases other_key o -> no_aliases other_key (aws_variables env) ->
    build_from_options other_key detected env b o = build_from_options other_key detected env' b o'.
  Proof.
    intros o o' env env' d b P PE H N NE.
    destruct (all_known_dec other_key o) as [A|A].
    - pose proof (all_known_perm other_key _ _ P A) as A'. pose proof (no_aliases_perm other_key _ _ P N) as N'.
      rewrite !build_from_options_spec by assumption.
      assert (G : forall k, given o k = given o' k) by (intros; apply given_perm; auto).
      assert (GE : forall k, given (aws_variables env) k = given (aws_variables env') k) by (intros; apply given_perm; auto).
      rewrite !G. assert (X : build_s3 b (final_lookup other_key d env o) = build_s3 b (final_lookup other_key d env' o')).
      { apply build_s3_ext. intros k. unfold final_lookup. rewrite !G, GE, H. reflexivity. }
      rewrite X. reflexivity.
    - unfold build_from_options, map_options. rewrite (map_options_unknown other_key o [] A).
      rewrite (map_options_unknown other_key o' []); auto. intros A'. apply A. exact (all_known_perm other_key _ _ (Permutation_sym P) A').
  Qed.
  (* What is given explicitly is what the store uses, whatever the environment. *)
  Theorem c101_explicit_partial : forall (o env : options) (detected : option string) (b : string) (s : s3_store),
    no_aliases other_key o -> build_from_options other_key detected env b o = Built s ->
    s_bucket s = b
    /\ (forall r, given o Region = Some r -> s_region s = r)
    /\ (forall e, given o Endpoint = Some e -> s_endpoint s = Some e)
    /\ (forall h, given o AllowHttp = Some h -> parse_bool h = Some (s_allow_http s))
    /\ (forall v, given o SkipSignature = Some v -> parse_bool v = Some true -> s_auth s = Unsigned)
    /\ (forall v i k, given o SkipSignature = Some v -> parse_bool v = Some false -> given o AccessKeyId = Some i -> given o SecretAccessKey = Some k ->
        exists t, s_auth s = Static i k t /\ (forall t', given o Token = Some t' -> t = Some t')).
  Proof.
    intros o env d b s N B.
    assert (A : all_known other_key o).
    { destruct (all_known_dec other_key o) as [A|A]; auto.
      unfold build_from_options, map_options in B. rewrite (map_options_unknown other_key o [] A) in B. discriminate. }
    rewrite (build_from_options_spec other_key d env b o A N) in B.
    assert (B' : build_s3 b (final_lookup other_key d env o) = Built s) by (destruct (given o Region), (given o Endpoint), d; try discriminate; exact B). clear B.
    assert (G : forall k v, given o k = Some v -> final_lookup other_key d env o k = Some v) by (intros k v E; unfold final_lookup; now rewrite E).
    unfold build_s3 in B'.
    destruct (bool_option (final_lookup other_key d env o SkipSignature)) as [skip|] eqn:S; [|discriminate].
    destruct (bool_option (final_lookup other_key d env o AllowHttp)) as [http|] eqn:H; [|discriminate].
    destruct (match final_lookup other_key d env o AccessKeyId, final_lookup other_key d env o SecretAccessKey with
              | Some i, Some k => Some (Static i k (final_lookup other_key d env o Token)) | None, None => Some Ambient | _, _ => None end) as [a|] eqn:Au; [|discriminate].
    match type of B' with Built ?x = _ => assert (E : s = x) by congruence end. subst s. cbn.
    split; [reflexivity|]. split; [intros r R; now rewrite (G _ _ R)|]. split; [intros e R; now rewrite (G _ _ R)|].
    split; [intros h R; rewrite (G _ _ R) in H; exact H|].
    split.
    - intros v R V. rewrite (G _ _ R) in S. cbn in S. assert (skip = true) by congruence. now subst.
    - intros v i k R V I K. rewrite (G _ _ R) in S. cbn in S. assert (skip = false) by congruence. subst.
      rewrite (G _ _ I), (G _ _ K) in Au. injection Au as <-. eexists. split; [reflexivity|]. intros t' T. exact (G _ _ T).
  Qed.
  (* The environment supplies the keys that are not given. *)
  Theorem c101_environment_partial : forall (o env : options) (detected : option string) (b i k : string) (s : s3_store),
    no_aliases other_key o -> build_from_options other_key detected env b o = Built s ->
    given o AccessKeyId = None -> given o SecretAccessKey = None -> given o SkipSignature = None -> given (aws_variables env) SkipSignature = None ->
    given (aws_variables env) AccessKeyId = Some i -> given (aws_variables env) SecretAccessKey = Some k ->
    exists t, s_auth s = Static i k t.
  Proof.
    intros o env d b i k s N B I K S ES EI EK.
    assert (A : all_known other_key o).
    { destruct (all_known_dec other_key o) as [A|A]; auto.
      unfold build_from_options, map_options in B. rewrite (map_options_unknown other_key o [] A) in B. discriminate. }
    rewrite (build_from_options_spec other_key d env b o A N) in B.
    assert (B' : build_s3 b (final_lookup other_key d env o) = Built s) by (destruct (given o Region), (given o Endpoint), d; try discriminate; exact B). clear B.
    unfold build_s3 in B'.
    assert (E1 : final_lookup other_key d env o SkipSignature = None) by (unfold final_lookup; now rewrite S, ES).
    assert (E2 : final_lookup other_key d env o AccessKeyId = Some i) by (unfold final_lookup; now rewrite I, EI).
    assert (E3 : final_lookup other_key d env o SecretAccessKey = Some k) by (unfold final_lookup; now rewrite K, EK).
    rewrite E1, E2, E3 in B'. cbn [bool_option] in B'.
    destruct (bool_option (final_lookup other_key d env o AllowHttp)); [|discriminate].
    match type of B' with Built ?x = _ => assert (E : s = x) by congruence end. subst s. cbn. eexists. reflexivity.
  Qed.
  (* It does not supply the region: the region is looked up on the network first, and if that fails the request goes down. *)
  Theorem c101_region_refuted : forall (o env : options) (b : string),
    all_known other_key o -> no_aliases other_key o -> given o Region = None -> given o Endpoint = None ->
    build_from_options other_key None env b o = Panicked
    /\ forall d s, build_from_options other_key (Some d) env b o = Built s -> s_region s = d.
  Proof.
    intros o env b A N R E. rewrite !build_from_options_spec by assumption. rewrite R, E. split; [reflexivity|].
    intros d s B. rewrite (build_from_options_spec other_key (Some d) env b o A N), R, E in B. unfold build_s3 in B.
    destruct (bool_option _); [|discriminate]. destruct (bool_option _); [|discriminate].
    destruct (match final_lookup other_key (Some d) env o AccessKeyId, final_lookup other_key (Some d) env o SecretAccessKey with
              | Some i, Some k => Some (Static i k (final_lookup other_key (Some d) env o Token)) | None, None => Some Ambient | _, _ => None end); [|discriminate].
    match type of B with Built ?x = _ => assert (Es : s = x) by congruence end. subst s. cbn [s_region].
    unfold final_lookup at 1. rewrite R, E. reflexivity.
  Qed.

  (* GCS: an account in the environment wins over the credentials that are given explicitly. *)
  Lemma gcs_lookup_or_insert k k' v m : gcs_lookup (gcs_or_insert k' v m) k = match gcs_lookup m k with Some w => Some w | None => if gcs_key_eqb k' k then Some v else None end.
  Proof.
    unfold gcs_or_insert. destruct (gcs_lookup m k') eqn:E.
    - destruct (gcs_lookup m k) eqn:F; auto. destruct (gcs_key_eqb k' k) eqn:Q; auto. apply gcs_key_eqb_eq in Q; subst. congruence.
    - cbn. destruct (gcs_key_eqb k' k) eqn:Q; [apply gcs_key_eqb_eq in Q; subst; now rewrite E |]. destruct (gcs_lookup m k); auto.
  Qed.
  Lemma gcs_variables_account env m k : (k = ServiceAccount \/ k = ServiceAccountKey) -> gcs_lookup (fold_left (gcs_add_variable client_key) env m) k = gcs_lookup m k.
  Proof.
    intros K. revert m. induction env as [|[n v] env IH]; intros m; cbn [fold_left]; auto. rewrite IH. unfold gcs_add_variable. cbn [fst snd].
    destruct (String.prefix "GOOGLE_" n); auto. destruct (gcs_key_of client_key (lower n)) as [[]|]; auto; rewrite gcs_lookup_or_insert; destruct K as [-> | ->]; cbn;
      destruct (gcs_lookup m _); reflexivity.
  Qed.
  Lemma gcs_variables_keep env m k v : gcs_lookup m k = Some v -> gcs_lookup (fold_left (gcs_add_variable client_key) env m) k = Some v.
  Proof.
    revert m. induction env as [|[n w] env IH]; intros m L; cbn [fold_left]; auto. apply IH. unfold gcs_add_variable. cbn [fst snd].
    destruct (String.prefix "GOOGLE_" n); auto. destruct (gcs_key_of client_key (lower n)) as [[]|]; auto; rewrite gcs_lookup_or_insert, L; reflexivity.
  Qed.
  Theorem c101_gcs_explicit_refuted : forall (env : options) (b p account : string),
    lookup env "GOOGLE_SERVICE_ACCOUNT" = Some account ->
    gcs_build_from_options client_key env b [("google_application_credentials", p)] = Built (b, AccountPath account).
  Proof.
    intros env b p account E. unfold gcs_build_from_options. cbn [gcs_map_options fold_left fst snd].
    replace (gcs_key_of client_key "google_application_credentials") with (Some ApplicationCredentials) by reflexivity.
    unfold gcs_add_environment. cbn [gcs_lookup gcs_key_eqb]. rewrite E. unfold gcs_auth_of. rewrite !gcs_variables_account by auto. reflexivity.
  Qed.
  (* An account that is given, as a file or as a key, is used. *)
  Theorem c101_gcs_account : forall (env : options) (b v : string),
    gcs_build_from_options client_key env b [("google_service_account", v)] = Built (b, AccountPath v)
    /\ gcs_build_from_options client_key env b [("google_service_account_key", v)] = Built (b, AccountKey v).
  Proof.
    intros env b v. split; unfold gcs_build_from_options; cbn [gcs_map_options fold_left fst snd].
    - replace (gcs_key_of client_key "google_service_account") with (Some ServiceAccount) by reflexivity.
      unfold gcs_add_environment. cbn [gcs_lookup gcs_key_eqb]. unfold gcs_auth_of. rewrite !gcs_variables_account by auto. reflexivity.
    - replace (gcs_key_of client_key "google_service_account_key") with (Some ServiceAccountKey) by reflexivity.
      unfold gcs_add_environment. cbn [gcs_lookup gcs_key_eqb]. unfold gcs_auth_of. rewrite !gcs_variables_account by auto. reflexivity.
  Qed.
  (* Two names of one setting: the store depends on the order of iteration of a HashMap; so do the properties for Iceberg. *)
  Theorem c101_alias_refuted : forall b d env r1 r2, r1 <> r2 ->
    exists o o', Permutation o o' /\ NoDup (map fst o) /\
      (forall s s', build_from_options other_key d env b o = Built s -> build_from_options other_key d env b o' = Built s' -> s_region s = r2 /\ s_region s' = r1)
      /\ lookup (file_io_props other_key o) "s3.region" = Some r2 /\ lookup (file_io_props other_key o') "s3.region" = Some r1.
  Proof.
    intros b d env r1 r2 N. exists [("region", r1); ("aws_region", r2)], [("aws_region", r2); ("region", r1)].
    split; [apply perm_swap|]. split; [cbn; repeat constructor; cbn; intuition discriminate|].
    split; [|split; reflexivity].
    assert (G : forall x y s, build_from_options other_key d env b [x; y] = Built s -> key_of (fst x) = Some Region -> key_of (fst y) = Some Region -> s_region s = snd y).
    { intros x y s B X Y. unfold build_from_options, map_options in B. cbn [fold_left] in B. rewrite X, Y in B. unfold add_specific in B. cbn in B.
      unfold build_s3 in B.
      destruct (bool_option _); [|discriminate]. destruct (bool_option _); [|discriminate].
      match type of B with match ?c with _ => _ end = _ => destruct c; [|discriminate] end.
      match type of B with Built ?x = _ => assert (Es : s = x) by congruence end. subst s. cbn [s_region].
      rewrite add_environment_spec. cbn. reflexivity. }
    intros s s' B B'. split; [exact (G ("region", r1) ("aws_region", r2) s B eq_refl eq_refl) | exact (G ("aws_region", r2) ("region", r1) s' B' eq_refl eq_refl)].
  Qed.
End O.

(* Anonymous access: words that make the store anonymous do not make Iceberg's access anonymous. *)
Theorem c100_anonymous_refuted : forall other_key b,
  exists o s, build_from_options other_key None [] b o = Built s /\ s_auth s = Unsigned /\ lookup (file_io_props other_key o) "s3.allow-anonymous" = None.
Proof.
  intros other_key b. exists [("region", "eu-west-1"); ("skip_signature", "yes")]. eexists. repeat apply conj; reflexivity.
Qed.

(* Concrete cases *)
Definition no_key (s : string) : option string := None.
Definition minio : s3_config := {| region := Some "eu-west-1"; access_key_id := Some "AKIA"; secret_access_key := Some "hush"; session_token := Some "tok"; endpoint := Some "http://minio:9000";
                                   bucket := "lake"; prefix := None; allow_http := true; skip_signature := false |}.
Example c98_case : build_from_options no_key None [("PATH", "/bin")] "lake" (to_hashmap minio)
  = Built {| s_bucket := "lake"; s_region := "eu-west-1"; s_endpoint := Some "http://minio:9000"; s_allow_http := true; s_auth := Static "AKIA" "hush" (Some "tok") |}.
Proof. reflexivity. Qed.
Example c99_case : read_with (run (Some minio) [("t1", "lake", [("format.access_key_id", "A"); ("format.secret_access_key", "S")]); ("t2", "lake", [("format.has_header", "true")])]) "t1"
  = Some (from_bucket_and_options "lake" [("format.has_header", "true")]).
Proof. reflexivity. Qed.
Example c100_case : lookup (file_io_props no_key [("aws_session_token", "tok"); ("access_key_id", "AKIA")]) "s3.access-key-id" = Some "AKIA".
Proof. reflexivity. Qed.
Example c100_names : (forall s n, no_key s = Some n -> String.prefix "s3." n = false) /\ all_known no_key [("aws_session_token", "tok"); ("access_key_id", "AKIA")].
Proof. split; [discriminate|]. repeat constructor; cbn; discriminate. Qed.
Example c101_case : no_aliases no_key [("region", "eu-west-1"); ("access_key_id", "AKIA")] /\ ~ no_aliases no_key [("region", "eu-west-1"); ("aws_region", "us-east-1")].
Proof.
  split.
  - apply no_aliases_build; [apply no_aliases_build; [apply no_aliases_nil|] |]; intros k K; cbn in K; injection K as <-; reflexivity.
  - intros N. destruct (N [] "region" "eu-west-1" [("aws_region", "us-east-1")] eq_refl Region eq_refl) as [_ X]. discriminate.
Qed.

Print Assumptions c98_partial.
Print Assumptions c98_signature_refuted.
Print Assumptions c98_region_refuted.
Print Assumptions c98_back_refuted.
Print Assumptions c98_gcs_back_refuted.
Print Assumptions c98_local.
Print Assumptions c98_gcs_prefix_refuted.
Print Assumptions c98_gcs_partial.
Print Assumptions c99_partial.
Print Assumptions c99_replaced_refuted.
Print Assumptions c99_format_refuted.
Print Assumptions c99_server.
Print Assumptions c99_options.
Print Assumptions c99_panic_refuted.
Print Assumptions c100_partial.
Print Assumptions c100_token_refuted.
Print Assumptions c100_anonymous_refuted.
Print Assumptions c101_order_partial.
Print Assumptions c101_explicit_partial.
Print Assumptions c101_environment_partial.
Print Assumptions c101_region_refuted.
Print Assumptions c101_gcs_explicit_refuted.
Print Assumptions c101_gcs_account.
Print Assumptions c101_alias_refuted.
