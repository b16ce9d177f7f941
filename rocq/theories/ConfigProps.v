(* Properties of the configuration: C61 (what is accepted), C62 (the interval of the clean-up), C91 (access settings).
   Specification: ConfigSpec.v, model: ConfigModel.v. *)
From Coq Require Import Ascii String List Arith NArith Bool Lia.
From Verif Require Import ConfigModel ConfigSpec.
Import ListNotations.
Open Scope string_scope.

(* ---- Texts ---- *)
Lemma prefix_iff p : forall s, String.prefix p s = true <-> exists b, s = p ++ b.
Proof.
  induction p as [|a p IH]; intros s; [destruct s; (split; [intros _; eexists; reflexivity|reflexivity])|].
  destruct s as [|c s]; cbn [String.prefix].
  - split; [discriminate|]. intros [b E]. discriminate.
  - destruct (ascii_dec a c) as [->|N].
    + rewrite IH. split; intros [b E]; exists b; cbn in *; congruence.
    + split; [discriminate|]. intros [b E]. cbn in E. congruence.
Qed.
Lemma contains_iff p s : contains p s = true <-> exists a b, s = a ++ p ++ b.
Proof.
  induction s as [|c s IH].
  - cbn [contains]. rewrite orb_false_r, prefix_iff. split; [intros [b E]; exists "", b; exact E|].
    intros (a & b & E). destruct a; [exists b; exact E|discriminate].
  - cbn [contains]. rewrite orb_true_iff, prefix_iff, IH. split.
    + intros [[b E]|(a & b & E)]; [exists "", b; exact E|]. exists (String c a), b. cbn. congruence.
    + intros (a & b & E). destruct a as [|x a]; [left; exists b; exact E|]. right. exists a, b. cbn in E. congruence.
Qed.
Lemma contains_no p s : contains p s = false <-> ~ exists a b, s = a ++ p ++ b.
Proof. rewrite <- contains_iff. destruct (contains p s); split; congruence. Qed.
Lemma app_assoc_s (a b c : string) : ((a ++ b) ++ c)%string = a ++ b ++ c.
Proof. induction a as [|x a IH]; cbn; [reflexivity|rewrite IH; reflexivity]. Qed.

Lemma app_nil_s (a : string) : a ++ "" = a.
Proof. induction a as [|x a IH]; cbn; [reflexivity|rewrite IH; reflexivity]. Qed.

(* ---- C61 ---- *)
Lemma validate_iff c c' : validate_config c = inl c' <->
  c' = c /\ in_memory_catalog c = in_memory_object_store c /\ s3_reachable c /\ enough_memory c.
Proof.
  unfold validate_config, s3_reachable, enough_memory.
  destruct (xorb (in_memory_catalog c) (in_memory_object_store c)) eqn:X.
  { split; [discriminate|]. intros (_ & E & _). rewrite E, xorb_nilpotent in X. discriminate. }
  apply xorb_eq in X.
  assert (M : (match max_memory c with Some m => if (m <? MIN_MEMORY)%N then inr TooLittleMemory else inl c | None => inl c end = inl c')
            <-> (c' = c /\ forall m, max_memory c = Some m -> (64 <= m)%N)).
  { destruct (max_memory c) as [m|].
    - destruct (m <? MIN_MEMORY)%N eqn:L.
      + split; [discriminate|]. intros [_ H]. specialize (H m eq_refl). apply N.ltb_lt in L. unfold MIN_MEMORY in L. lia.
      + apply N.ltb_ge in L. split; [intros E; split; [congruence|]; intros m' E'; replace m' with m by congruence; exact L|]. intros [E _]. congruence.
    - split; [intros E; split; [congruence|discriminate]|intros [E _]; congruence]. }
  destruct (object_store c) as [[d| |[r|] [e|] bk|cr bk]|] eqn:O;
    try (rewrite M; split; [intros [E H]; split; [exact E|]; split; [exact X|]; split; [|exact H]; intros region endpoint bucket S; (discriminate || (injection S as <- <- <-; first [left; discriminate|right; discriminate]))|intros (E & _ & _ & H); split; assumption]).
  split; [discriminate|]. intros (_ & _ & S & _). destruct (S None None bk eq_refl); congruence.
Qed.

Lemma plain_memory dsn : plain_address dsn -> (contains ":memory:" dsn = true <-> kept_in_memory dsn).
Proof.
  intros [Q P]. rewrite contains_iff. split.
  - intros C. destruct (P C) as (s & S & E). exists ":memory:", []. split; [|left; reflexivity]. split; [|split; intros r; discriminate].
    rewrite E. apply Without_parameters; [exact S|]. intros (x & y & E'). repeat (destruct x as [|? x]; [discriminate|cbn in E'; injection E' as _ E']). destruct x; discriminate.
  - intros (name & params & [A _] & [N|I]).
    + subst name. destruct A as [s name S _|s name p params S _].
      * exists s, "". rewrite app_nil_s. reflexivity.
      * exists s, ("?" ++ String.concat "&" (p :: params)). reflexivity.
    + destruct A as [s name S _|s name p params S _]; [destruct I|]. exfalso. apply Q.
      exists (s ++ name), (String.concat "&" (p :: params)). rewrite app_assoc_s. reflexivity.
Qed.

(* With plain addresses a configuration is accepted, unchanged, exactly if metadata and data are both kept in memory or neither is,
   S3 has a region or an endpoint and the limit of memory is not too low. *)
Theorem c61_partial c : plain c ->
  (forall c', validate_config c = inl c' -> c' = c) /\
  (validate_config c = inl c <-> (volatile_metadata c <-> volatile_data c) /\ s3_reachable c /\ enough_memory c).
Proof.
  intros P. split; [intros c' H; apply validate_iff in H; exact (proj1 H)|].
  assert (E : in_memory_catalog c = in_memory_object_store c <-> (volatile_metadata c <-> volatile_data c)).
  { assert (A : in_memory_catalog c = true <-> volatile_metadata c).
    { unfold in_memory_catalog, volatile_metadata, plain in *. destruct (cat c) as [[d|d|d]|]; try (split; [discriminate|intros (dsn & E & _); discriminate]).
      rewrite (plain_memory d (P d eq_refl)). split; [intros K; exists d; split; [reflexivity|exact K]|]. intros (dsn & E & K). injection E as ->. exact K. }
    assert (B : in_memory_object_store c = true <-> volatile_data c).
    { unfold in_memory_object_store, volatile_data. destruct (object_store c) as [[]|]; split; (reflexivity || discriminate). }
    rewrite <- A, <- B. destruct (in_memory_catalog c), (in_memory_object_store c); intuition congruence. }
  rewrite validate_iff, E. split; [intros (_ & H); exact H|intros H; split; [reflexivity|exact H]].
Qed.
(* The other checks hold for all addresses *)
Theorem c61_checks c c' : validate_config c = inl c' -> c' = c /\ s3_reachable c /\ enough_memory c.
Proof. intros H. apply validate_iff in H. destruct H as (E & _ & S & M). split; [exact E|split; assumption]. Qed.

(* Metadata kept in memory by the parameter mode=memory is accepted with persistent data ... *)
Theorem c61_mode_memory_refuted name c :
  cat c = Some (Sqlite ("sqlite://" ++ name ++ "?mode=memory")) -> ~ has_char "?" name -> (forall r, name <> "sqlite:" ++ r) -> (forall r, name <> "//" ++ r) ->
  ~ (exists a b, "sqlite://" ++ name ++ "?mode=memory" = a ++ ":memory:" ++ b) ->
  persistent_data c -> s3_reachable c -> enough_memory c ->
  validate_config c = inl c /\ volatile_metadata c.
Proof.
  intros D Q S1 S2 C (st & O & NM) S M. split.
  - apply validate_iff. split; [reflexivity|]. split; [|split; assumption]. unfold in_memory_catalog, in_memory_object_store. rewrite D, O.
    apply contains_no in C. rewrite C. destruct st; try reflexivity. congruence.
  - exists ("sqlite://" ++ name ++ "?mode=memory"). split; [exact D|]. exists name, ["mode=memory"]. split; [|right; left; reflexivity].
    split; [|split; assumption]. apply (With_parameters "sqlite://" name "mode=memory" []); [right; right; reflexivity|exact Q].
Qed.
(* ... and rejected with data kept in memory *)
Theorem c61_mode_memory_rejected_refuted name c :
  cat c = Some (Sqlite ("sqlite://" ++ name ++ "?mode=memory")) ->
  ~ (exists a b, "sqlite://" ++ name ++ "?mode=memory" = a ++ ":memory:" ++ b) ->
  volatile_data c -> validate_config c = inr InMemoryMismatch.
Proof.
  intros D C V. unfold validate_config, in_memory_catalog, in_memory_object_store. rewrite D, V. apply contains_no in C. rewrite C. reflexivity.
Qed.
(* Metadata kept in a file with ":memory:" in its address is accepted with data kept in memory *)
Theorem c61_file_name_refuted s name c :
  cat c = Some (Sqlite (s ++ name)) -> scheme s -> ~ has_char "?" name -> (forall r, name <> "sqlite:" ++ r) -> (forall r, name <> "//" ++ r) ->
  name <> ":memory:" -> (exists a b, s ++ name = a ++ ":memory:" ++ b) -> name <> "" -> volatile_data c -> enough_memory c ->
  validate_config c = inl c /\ persistent_metadata c.
Proof.
  intros D Sc Q S1 S2 NM C NE V M. split.
  - apply validate_iff. split; [reflexivity|]. split; [|split; [intros r e b E; unfold volatile_data in V; congruence|exact M]].
    unfold in_memory_catalog, in_memory_object_store. rewrite D, V. apply contains_iff in C. rewrite C. reflexivity.
  - unfold persistent_metadata. rewrite D. exists name. split; [|split; assumption]. split; [|split; assumption]. apply Without_parameters; assumption.
Qed.

(* ---- C62 ---- *)
Open Scope N_scope.
(* 0 switches the clean-up off *)
Theorem c62_off checked c : gc_interval c = 0 -> start_cleanup checked c = NotStarted.
Proof. intros E. unfold start_cleanup. rewrite E. reflexivity. Qed.
(* Up to 18 hours the interval is the configured one *)
Theorem c62_partial checked c : 1 <= gc_interval c <= 18 -> object_store c <> None -> start_cleanup checked c = Every (gc_interval c * 3600).
Proof.
  intros [L U] O. unfold start_cleanup. replace (0 <? gc_interval c) with true by (symmetry; apply N.ltb_lt; lia).
  replace (u16_size <=? gc_interval c * 3600) with false by (symmetry; apply N.leb_gt; unfold u16_size; lia). rewrite andb_false_r.
  rewrite N.mod_small by (unfold u16_size; lia). replace (gc_interval c * 3600 =? 0) with false by (symmetry; apply N.eqb_neq; lia).
  destruct (object_store c); [reflexivity|congruence].
Qed.
(* Beyond it never is: the clean-up panics, or it runs more often than every 18.3 hours *)
Theorem c62_refuted checked c : 19 <= gc_interval c ->
  start_cleanup checked c <> Every (gc_interval c * 3600) /\ forall s, start_cleanup checked c = Every s -> s < 65536 /\ s < gc_interval c * 3600.
Proof.
  intros L. assert (H : forall s, start_cleanup checked c = Every s -> s < 65536 /\ s < gc_interval c * 3600).
  { intros s E. assert (U : s < 65536).
    { unfold start_cleanup in E. destruct (0 <? gc_interval c); [|discriminate]. destruct (checked && _)%bool; [discriminate|].
      destruct (_ =? 0); [discriminate|]. destruct (object_store c); [|discriminate]. injection E as <-. apply N.mod_lt. discriminate. }
    split; [exact U|lia]. }
  split; [|exact H]. intros E. destruct (H _ E). lia.
Qed.
(* With overflow checks the process panics at the start *)
Theorem c62_debug_refuted c : 19 <= gc_interval c -> start_cleanup true c = Panics.
Proof.
  intros L. unfold start_cleanup. replace (0 <? gc_interval c) with true by (symmetry; apply N.ltb_lt; lia).
  replace (u16_size <=? gc_interval c * 3600) with true by (symmetry; apply N.leb_le; unfold u16_size; lia). reflexivity.
Qed.
(* Without them it does so exactly for the multiples of 4096 *)
Theorem c62_zero_period_refuted c : 0 < gc_interval c -> (start_cleanup false c = Panics <-> N.divide 4096 (gc_interval c)).
Proof.
  intros L. unfold start_cleanup. replace (0 <? gc_interval c) with true by (symmetry; apply N.ltb_lt; lia). cbn [andb].
  destruct (gc_interval c * 3600 mod u16_size =? 0) eqn:Z.
  - split; [intros _|reflexivity]. apply N.eqb_eq in Z. apply N.mod_divide in Z; [|discriminate]. destruct Z as [k K]. unfold u16_size in K.
    apply N.gauss with (m := 225); [|reflexivity]. exists k. lia.
  - split; [destruct (object_store c); discriminate|]. intros [k K]. apply N.eqb_neq in Z. exfalso. apply Z. rewrite K.
    replace (k * 4096 * 3600) with (k * 225 * u16_size) by (unfold u16_size; lia). apply N.mod_mul. discriminate.
Qed.
Close Scope N_scope.

(* ---- C91 ---- *)
(* Only the text any opens access to everybody, only off closes it, and every other text asks for a password with this hash *)
Theorem c91_settings s :
  (read_access_settings s = Any <-> s = "any") /\ (read_access_settings s = Off <-> s = "off") /\
  (forall h, read_access_settings s = Password h <-> h = s /\ s <> "any" /\ s <> "off").
Proof.
  unfold read_access_settings. destruct (String.eqb_spec s "any") as [->|A]; [split; [tauto|]; split; [split; discriminate|]; intros h; split; [discriminate|intuition congruence]|].
  destruct (String.eqb_spec s "off") as [->|B]; [split; [split; discriminate|]; split; [tauto|]; intros h; split; [discriminate|intuition congruence]|].
  split; [split; [discriminate|congruence]|]. split; [split; [discriminate|congruence]|]. intros h. split; [intros E; injection E as <-; auto|intros (-> & _); reflexivity].
Qed.
(* A text that is not the hash of any password is accepted all the same: then nobody has access *)
Theorem c91_malformed_refuted (hash : string -> string) s : (forall p, hash_text (hash p)) -> ~ hash_text s -> s <> "any" -> s <> "off" ->
  read_access_settings s = Password s /\ forall p, hash p <> s.
Proof.
  intros H N A B. split; [apply (proj2 (proj2 (c91_settings s))); auto|]. intros p E. apply N. rewrite <- E. apply H.
Qed.

(* ---- The hypotheses are met ---- *)
Definition s3_config (dsn : string) (m : N) (g : N) : config :=
  {| object_store := Some (AmazonS3 (Some "eu-west-1") None "bucket"); cat := Some (Sqlite dsn); max_memory := Some m; has_cache := true; gc_interval := g |}.
Definition memory_config (dsn : string) : config :=
  {| object_store := Some Memory; cat := Some (Sqlite dsn); max_memory := None; has_cache := false; gc_interval := 0 |}.
Ltac no_char := intros (x & y & E); repeat (destruct x as [|? x]; [discriminate|cbn in E; injection E as _ E]); destruct x; discriminate.
Example c61_example_plain : plain (s3_config "sqlite://data/seafowl.sqlite" 64 1) /\ validate_config (s3_config "sqlite://data/seafowl.sqlite" 64 1) = inl (s3_config "sqlite://data/seafowl.sqlite" 64 1) /\
  validate_config (s3_config "sqlite://data/seafowl.sqlite" 63 1) = inr TooLittleMemory /\
  plain (memory_config "sqlite://:memory:") /\ validate_config (memory_config "sqlite://:memory:") = inl (memory_config "sqlite://:memory:") /\
  validate_config (memory_config "sqlite://data/seafowl.sqlite") = inr InMemoryMismatch.
Proof.
  split; [|split; [reflexivity|split; [reflexivity|split; [|split; reflexivity]]]]; intros dsn E; injection E as <-; (split; [no_char|]).
  - intros H. apply contains_iff in H. discriminate.
  - intros _. exists "sqlite://". split; [right; right; reflexivity|reflexivity].
Qed.
Example c61_example_mode : validate_config (s3_config "sqlite://catalog?mode=memory" 64 1) = inl (s3_config "sqlite://catalog?mode=memory" 64 1) /\ volatile_metadata (s3_config "sqlite://catalog?mode=memory" 64 1).
Proof.
  apply (c61_mode_memory_refuted "catalog"); try reflexivity.
  - no_char.
  - intros r. discriminate.
  - intros r. discriminate.
  - apply contains_no. reflexivity.
  - eexists. split; [reflexivity|discriminate].
  - intros r e b E. injection E as <- <- _. left. discriminate.
  - intros m E. injection E as <-. lia.
Qed.
Example c61_example_file : validate_config (memory_config "sqlite:memory:catalog") = inl (memory_config "sqlite:memory:catalog") /\ persistent_metadata (memory_config "sqlite:memory:catalog").
Proof.
  apply (c61_file_name_refuted "sqlite:" "memory:catalog"); try reflexivity; try discriminate.
  - right; left; reflexivity.
  - no_char.
  - exists "sqlite", "catalog". reflexivity.
Qed.
Example c62_example : start_cleanup false (s3_config "d" 64 18) = Every 64800 /\ start_cleanup false (s3_config "d" 64 19) = Every 2864 /\
  start_cleanup false (s3_config "d" 64 24) = Every 20864 /\ start_cleanup true (s3_config "d" 64 24) = Panics /\ start_cleanup false (s3_config "d" 64 4096) = Panics.
Proof. repeat split. Qed.
Example c91_example : (forall p : string, hash_text ((fun _ => "0123456789abcdef0123456789abcdef0123456789abcdef0123456789abcdef") p)) /\ ~ hash_text "secret" /\ read_access_settings "Any" = Password "Any".
Proof.
  split; [|split; [intros [L _]; discriminate|reflexivity]]. intros _. split; [reflexivity|]. intros a (x & y & E). unfold hex_digit.
  repeat (destruct x as [|? x]; [injection E as E _; subst a; cbn; lia|cbn in E; injection E as _ E]). destruct x; discriminate.
Qed.

Print Assumptions c61_partial.
Print Assumptions c61_checks.
Print Assumptions c61_mode_memory_refuted.
Print Assumptions c61_mode_memory_rejected_refuted.
Print Assumptions c61_file_name_refuted.
Print Assumptions c62_off.
Print Assumptions c62_partial.
Print Assumptions c62_refuted.
Print Assumptions c62_debug_refuted.
Print Assumptions c62_zero_period_refuted.
Print Assumptions c91_settings.
Print Assumptions c91_malformed_refuted.
