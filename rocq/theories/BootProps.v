(* C112 (settings), C113 (the environment), C114 (the configuration file), C115 (the catalog of a starting server).
   Specification: BootSpec.v, model: BootModel.v. *)
From Coq Require Import Ascii String List Bool Arith NArith Lia.
Require Verif.ConfigModel.
From Verif Require Import BootModel BootSpec.
Import ListNotations.
Open Scope list_scope.
Open Scope string_scope.

Lemma path_eqb_iff p q : path_eqb p q = true <-> p = q.
Proof.
  revert q. induction p as [|a p IH]; intros [|b q]; cbn [path_eqb]; try (split; [discriminate|congruence]); [split; reflexivity|].
  rewrite andb_true_iff, IH, String.eqb_eq. split; [intros [-> ->]; reflexivity|intros E; injection E as -> ->; split; reflexivity].
Qed.
Lemma setting_none s p : setting s p = None <-> silent s p.
Proof.
  unfold silent. induction s as [|[q v] s IH]; cbn [setting]; [split; [intros _ w []|reflexivity]|]. destruct (setting s p) as [w|] eqn:E.
  - split; [discriminate|]. intros H. exfalso. assert (X : Some w = None) by (apply IH; intros u I; apply H; right; exact I). discriminate.
  - destruct IH as [IH _]. specialize (IH eq_refl). destruct (path_eqb q p && is_value v)%bool eqn:Q.
    + split; [discriminate|]. intros H. exfalso. apply andb_true_iff in Q. destruct Q as [Q V]. apply path_eqb_iff in Q. subst q. rewrite (H v (or_introl eq_refl)) in V. discriminate.
    + split; [|reflexivity]. intros _ w [I|I]; [|exact (IH w I)]. injection I as -> ->. rewrite (proj2 (path_eqb_iff p p) eq_refl) in Q. cbn [andb] in Q. destruct w; (discriminate || reflexivity).
Qed.
Lemma setting_app a b p : setting (a ++ b) p = match setting b p with Some v => Some v | None => setting a p end.
Proof. induction a as [|[q v] a IH]; cbn [app setting]; [destruct (setting b p); reflexivity|]. rewrite IH. destruct (setting b p); reflexivity. Qed.
Lemma setting_says s p v : setting s p = Some v <-> says s p v.
Proof.
  split.
  - induction s as [|[q w] s IH]; cbn [setting]; [discriminate|]. destruct (setting s p) as [u|] eqn:E.
    + intros K. destruct (IH K) as (N & a & b & -> & B). split; [exact N|]. exists ((q, w) :: a), b. split; [reflexivity|exact B].
    + destruct (path_eqb q p && is_value w)%bool eqn:Q; [|discriminate]. intros K. injection K as ->. apply andb_true_iff in Q. destruct Q as [Q V]. apply path_eqb_iff in Q. subst q.
      split; [intros ->; discriminate|]. exists [], s. split; [reflexivity|]. apply setting_none. exact E.
  - intros (N & a & b & -> & B). rewrite setting_app. cbn [setting]. assert (E : setting b p = None) by (apply setting_none; exact B). rewrite E, (proj2 (path_eqb_iff p p) eq_refl). destruct v; (reflexivity || contradiction).
Qed.
Lemma setting_section s p q v : setting s p = Some v -> below q p = true -> section s q = true.
Proof.
  intros E B. apply setting_says in E. destruct E as (_ & a & b & -> & _). unfold section. rewrite existsb_app. cbn [existsb fst]. rewrite B, orb_true_r. reflexivity.
Qed.

Lemma upper_lower s : upper (lower s) = upper s.
Proof. induction s as [|c r IH]; [reflexivity|]. cbn [lower upper]. rewrite IH. f_equal. destruct c as [[] [] [] [] [] [] [] []]; reflexivity. Qed.
Lemma prefix_split p s : String.prefix p s = true -> exists r, s = p ++ r.
Proof.
  revert s. induction p as [|c p IH]; intros s H; [exists s; reflexivity|]. destruct s as [|d s]; [discriminate|]. cbn [String.prefix] in H.
  destruct (ascii_dec c d) as [->|]; [|discriminate]. destruct (IH s H) as [r ->]. exists r. reflexivity.
Qed.
Lemma variable_other k t : (forall x, upper k <> "SEAFOWL__" ++ x) -> variable (k, t) = [].
Proof.
  intros N. unfold variable. cbn [fst snd]. destruct (String.prefix "seafowl__" (lower k)) eqn:P; [|reflexivity]. exfalso. destruct (prefix_split _ _ P) as [r E].
  apply (N (upper r)). rewrite <- upper_lower, E. reflexivity.
Qed.

Section Crate.
  Context {to_text : value -> option string} {to_number : value -> option N} {narrow : N -> N -> option N}.
  Notation means := (means to_text to_number).
  Notation deserialize := (deserialize to_text to_number narrow).
  Notation load := (load to_text to_number narrow).

  Definition row_ok (s : list (list string * value)) (p : list string) (r : reading) (d got : option shown) : Prop :=
    (forall v, setting s p = Some v -> exists x, means r v x /\ got = Some x) /\ (setting s p = None -> forall x, got = Some x -> d = Some x).
  Definition field_ok {A} (r : reading) (mk : A -> shown) (f : value -> option A) : Prop := forall v a, f v = Some a -> means r v (mk a).
  Lemma field_text : field_ok RText ST to_text.
  Proof. intros v a E. constructor. exact E. Qed.
  Lemma field_tag_text : field_ok RTagText ST tagged_text.
  Proof. intros [] a E; cbn in E; try discriminate. injection E as <-. constructor. Qed.
  Lemma field_tag_flag : field_ok RTagFlag SB tagged_flag.
  Proof. intros [] a E; cbn in E; try discriminate. injection E as <-. constructor. Qed.
  Lemma field_journal : field_ok RJournal SJ journal_mode.
  Proof.
    intros [t| | |] a E; cbn [journal_mode] in E; try discriminate. constructor. revert E.
    repeat (match goal with |- context [String.eqb t ?x] => destruct (String.eqb t x) eqn:?; [match goal with Q : String.eqb t x = true |- _ => apply String.eqb_eq in Q; subst t end; intros E; injection E as <-; cbn; tauto|] end). discriminate.
  Qed.
  Lemma field_access : field_ok RAccess SA (access to_text).
  Proof.
    intros v a E. unfold access in E. destruct (to_text v) as [t|] eqn:T; [|discriminate]. cbn [option_map] in E. injection E as <-. unfold ConfigModel.read_access_settings.
    destruct (String.eqb t "any") eqn:A; [apply String.eqb_eq in A; subst t; constructor; exact T|]. destruct (String.eqb t "off") eqn:B; [apply String.eqb_eq in B; subst t; constructor; exact T|].
    apply String.eqb_neq in A. apply String.eqb_neq in B. constructor; assumption.
  Qed.
  Lemma field_number bits : refuses narrow -> field_ok (RNumber bits) SN (number to_number narrow bits).
  Proof.
    intros X v n E. unfold number, bind in E. destruct (to_number v) as [m|] eqn:T; [|discriminate]. destruct (X _ _ _ E) as [-> L]. constructor; assumption.
  Qed.
  Lemma row_default {A B} s p r mk f (d : A) (o : option B) fld got : field_ok r mk f -> got = option_map (fun b => mk (fld b)) o ->
    (forall b, o = Some b -> with_default s p f d = Some (fld b)) -> (forall v, setting s p = Some v -> o <> None) -> row_ok s p r (Some (mk d)) got.
  Proof.
    intros F -> E S. split.
    - intros v V. specialize (S v V). destruct o as [b|]; [|contradiction]. specialize (E b eq_refl). unfold with_default in E. rewrite V in E. exists (mk (fld b)). split; [exact (F _ _ E)|reflexivity].
    - intros V x G. destruct o as [b|]; [|discriminate]. specialize (E b eq_refl). unfold with_default in E. rewrite V in E. injection E as E. injection G as <-. congruence.
  Qed.
  Lemma row_optional {A} s p r mk f (o : option A) : field_ok r mk f -> optional s p f = Some o -> row_ok s p r None (option_map mk o).
  Proof.
    unfold optional. intros F E. split.
    - intros v V. rewrite V in E. destruct (f v) as [a|] eqn:Fv; [|discriminate]. injection E as <-. exists (mk a). split; [exact (F _ _ Fv)|reflexivity].
    - intros V x G. rewrite V in E. injection E as <-. discriminate.
  Qed.
  Lemma row_required {A} s p r mk f (a : A) : field_ok r mk f -> required s p f = Some a -> row_ok s p r None (Some (mk a)).
  Proof.
    unfold required. intros F E. split; [intros v V; rewrite V in E; exists (mk a); split; [exact (F _ _ E)|reflexivity]|intros V; rewrite V in E; discriminate].
  Qed.
  Lemma struct_some {A} s p (f : option A) o : struct s p f = Some o -> f = Some o.
  Proof. unfold struct. destruct (setting s p); [discriminate|]. intros E. exact E. Qed.
  Lemma os_some {A} s p (f : option A) a : optional_struct s p f = Some (Some a) -> f = Some a.
  Proof. unfold optional_struct. destruct (section s p); [|discriminate]. intros E. apply struct_some in E. destruct f; cbn in E; [injection E as ->; reflexivity|discriminate]. Qed.
  Lemma os_on {A} s p q (f : option A) o v : optional_struct s p f = Some o -> setting s q = Some v -> below p q = true -> o <> None.
  Proof.
    unfold optional_struct. intros E V B. rewrite (setting_section s q p v V B) in E. apply struct_some in E. destruct f; cbn in E; [injection E as <-; discriminate|discriminate].
  Qed.
  Ltac binds E := repeat (match type of E with bind ?x _ = Some _ => let Q := fresh "Q" in destruct x eqn:Q; cbn [bind] in E; [|discriminate] end); injection E as <-.

  Lemma address_rows s p host port d o : refuses narrow -> optional_struct s p (read_address to_text to_number narrow s p host port d) = Some o -> below p (under p host) = true -> below p (under p port) = true ->
    row_ok s (under p host) RText (Some (ST "127.0.0.1")) (option_map (fun a => ST (bind_host a)) o) /\ row_ok s (under p port) (RNumber 16) (Some (SN d)) (option_map (fun a => SN (bind_port a)) o).
  Proof.
    intros X E B1 B2. assert (R : forall a, o = Some a -> with_default s (under p host) to_text "127.0.0.1" = Some (bind_host a) /\ with_default s (under p port) (number to_number narrow 16) d = Some (bind_port a)).
    { intros a ->. apply os_some in E. unfold read_address in E. binds E. split; reflexivity. }
    split; [apply (row_default s _ _ _ _ _ o bind_host _ field_text eq_refl)|apply (row_default s _ _ _ _ _ o bind_port _ (field_number 16 X) eq_refl)]; try (intros a A; apply R; exact A); intros v V; eapply os_on; try exact E; try exact V; assumption.
  Qed.

  Lemma plain_ok s c : refuses narrow -> deserialize s = Some c -> Forall (fun r => row_ok s (rpath r) (rreading r) (rdefault r) (rget r c)) plain_rows.
  Proof.
    intros X E. unfold BootModel.deserialize in E. binds E. rename Q2 into QF, Q3 into QP, Q4 into QH, Q6 into QM, Q7 into QT, Q8 into QR. apply struct_some in QR. unfold read_misc in QR. binds QR.
    match goal with H : optional_struct s ["misc"; "metrics"] _ = Some _ |- _ => rename H into ME end. match goal with H : optional_struct s ["misc"; "object_store_cache"] _ = Some _ |- _ => rename H into CA end.
    match goal with H : struct s ["misc"; "sync_conf"] _ = Some _ |- _ => apply struct_some in H; rename H into SY end.
    match type of QH with _ = Some ?o => rename o into oh end. match type of CA with _ = Some ?o => rename o into oc end.
    unfold plain_rows, addresses. cbn [app].
    destruct (address_rows _ _ _ _ _ _ X QF eq_refl eq_refl) as [F1 F2]. destruct (address_rows _ _ _ _ _ _ X QP eq_refl eq_refl) as [P1 P2]. destruct (address_rows _ _ _ _ _ _ X ME eq_refl eq_refl) as [M1 M2].
    assert (H : forall h, oh = Some h -> with_default s ["frontend"; "http"; "bind_host"] to_text "127.0.0.1" = Some (bind_host (http_address h)) /\
        with_default s ["frontend"; "http"; "bind_port"] (number to_number narrow 16) 8080%N = Some (bind_port (http_address h)) /\
        with_default s ["frontend"; "http"; "read_access"] (access to_text) ConfigModel.Any = Some (read_access h) /\ with_default s ["frontend"; "http"; "write_access"] (access to_text) ConfigModel.Off = Some (write_access h) /\
        with_default s ["frontend"; "http"; "upload_data_max_length"] (number to_number narrow 64) 256%N = Some (upload_data_max_length h) /\
        with_default s ["frontend"; "http"; "cache_control"] to_text "max-age=43200, public" = Some (cache_control h)).
    { intros h ->. apply os_some in QH. unfold read_http in QH. binds QH. match goal with A : read_address _ _ _ _ _ _ _ _ = Some _ |- _ => unfold read_address in A; binds A end. repeat apply conj; (assumption || reflexivity). }
    assert (C : forall h, oc = Some h -> with_default s ["misc"; "object_store_cache"; "capacity"] (number to_number narrow 64) 1073741824%N = Some (capacity h) /\
        with_default s ["misc"; "object_store_cache"; "min_fetch_size"] (number to_number narrow 64) 1048576%N = Some (min_fetch_size h) /\ with_default s ["misc"; "object_store_cache"; "ttl"] (number to_number narrow 64) 180%N = Some (ttl h)).
    { intros h ->. apply os_some in CA. unfold read_cache in CA. binds CA. repeat apply conj; (assumption || reflexivity). }
    unfold read_sync in SY. binds SY.
    assert (wd : forall A p r (mk : A -> shown) f d a, field_ok r mk f -> with_default s p f d = Some a -> row_ok s p r (Some (mk d)) (option_map mk (Some a))).
    { intros A p r mk f d a F W. apply (row_default s p r mk f d (Some tt) (fun _ => a) _ F eq_refl); [intros _ _; exact W|intros _ _; discriminate]. }
    assert (hd : forall A p r (mk : A -> shown) f d fld got, field_ok r mk f -> got = option_map (fun h => mk (fld h)) oh -> (forall h, oh = Some h -> with_default s p f d = Some (fld h)) -> below ["frontend"; "http"] p = true -> row_ok s p r (Some (mk d)) got).
    { intros A p r mk f d fld got F G W B. apply (row_default s p r mk f d oh fld got F G W). intros v V. exact (os_on s _ _ _ oh v QH V B). }
    assert (cd : forall p bits d fld, (forall h, oc = Some h -> with_default s p (number to_number narrow bits) d = Some (fld h)) -> below ["misc"; "object_store_cache"] p = true -> row_ok s p (RNumber bits) (Some (SN d)) (option_map SN (option_map fld oc))).
    { intros p bits d fld W B. apply (row_default s p _ SN _ d oc fld _ (field_number bits X)); [destruct oc; reflexivity|exact W|]. intros v V. exact (os_on s _ _ _ oc v CA V B). }
    unfold number_row. repeat apply Forall_cons; try apply Forall_nil; cbn [rpath rreading rdefault rget flight postgres web rest metrics object_store_cache sync max_memory temp_dir max_partition_size gc_interval ssl_cert_file
      max_in_memory_bytes max_replication_lag_s max_syncs_per_url write_lock_timeout_s flush_task_interval_s]; try assumption.
    - apply (hd _ _ _ ST _ _ (fun h => bind_host (http_address h)) _ field_text); [destruct oh; reflexivity|apply H|reflexivity].
    - apply (hd _ _ _ SN _ _ (fun h => bind_port (http_address h)) _ (field_number 16 X)); [destruct oh; reflexivity|apply H|reflexivity].
    - apply (hd _ _ _ SA _ _ read_access _ field_access eq_refl); [apply H|reflexivity].
    - apply (hd _ _ _ SA _ _ write_access _ field_access eq_refl); [apply H|reflexivity].
    - apply (hd _ _ _ SN _ _ upload_data_max_length _ (field_number 64 X)); [destruct oh; reflexivity|apply H|reflexivity].
    - apply (hd _ _ _ ST _ _ cache_control _ field_text eq_refl); [apply H|reflexivity].
    - exact (row_optional s _ _ SN _ _ (field_number 64 X) QM).
    - exact (row_optional s _ _ ST _ _ field_text QT).
    - eapply (wd _ _ _ SN); [apply (field_number _ X)|assumption].
    - eapply (wd _ _ _ SN); [apply (field_number _ X)|assumption].
    - eapply (row_optional s _ _ ST); [exact field_text|assumption].
    - apply cd; [apply C|reflexivity].
    - apply cd; [apply C|reflexivity].
    - apply cd; [apply C|reflexivity].
    - eapply (wd _ _ _ SN); [apply (field_number _ X)|assumption].
    - eapply (wd _ _ _ SN); [apply (field_number _ X)|assumption].
    - eapply (wd _ _ _ SN); [apply (field_number _ X)|assumption].
    - eapply (wd _ _ _ SN); [apply (field_number _ X)|assumption].
    - eapply (wd _ _ _ SN); [apply (field_number _ X)|assumption].
  Qed.
  (* The settings of the type that is chosen *)
  Lemma tagged_ok s c : deserialize s = Some c -> Forall (fun e => setting s (fst (fst e)) = Some (VText (snd (fst e))) -> row_ok s (rpath (snd e)) (rreading (snd e)) (rdefault (snd e)) (rget (snd e) c)) tagged_rows.
  Proof.
    intros E. unfold BootModel.deserialize in E. binds E.
    match goal with A : optional_struct s ["object_store"] _ = Some ?o |- _ => rename A into QO; rename o into oo end. match goal with A : optional_struct s ["catalog"] _ = Some ?o |- _ => rename A into QC; rename o into oc end.
    assert (OC : forall t, setting s ["catalog"; "type"] = Some (VText t) -> exists a, oc = Some a /\ read_catalog s = Some a).
    { intros t V. pose proof (os_on s _ _ _ oc _ QC V eq_refl) as N. destruct oc as [a|]; [|contradiction]. exists a. split; [reflexivity|exact (os_some _ _ _ _ QC)]. }
    assert (OO : forall t, setting s ["object_store"; "type"] = Some (VText t) -> exists a, oo = Some a /\ read_store s = Some a).
    { intros t V. pose proof (os_on s _ _ _ oo _ QO V eq_refl) as N. destruct oo as [a|]; [|contradiction]. exists a. split; [reflexivity|exact (os_some _ _ _ _ QO)]. }
    assert (wd : forall A p r (mk : A -> shown) f d a, field_ok r mk f -> with_default s p f d = Some a -> row_ok s p r (Some (mk d)) (Some (mk a))).
    { intros A p r mk f d a F W. apply (row_default s p r mk f d (Some tt) (fun _ => a) _ F eq_refl); [intros _ _; exact W|intros _ _; discriminate]. }
    repeat apply Forall_cons; try apply Forall_nil; unfold tag_text, tag_flag, text_of, of_s3; cbn [fst snd rpath rreading rdefault rget cat object_store]; intros V;
      (destruct (OC _ V) as (a & -> & Ra) || destruct (OO _ V) as (a & -> & Ra)); unfold read_catalog, read_store, under in Ra; cbn [app] in Ra; unfold required at 1 in Ra; rewrite V in Ra; cbn [tagged_text bind String.eqb Ascii.eqb Bool.eqb] in Ra; binds Ra;
      cbn [option_map region access_key_id secret_access_key session_token endpoint bucket prefix allow_http skip_signature];
      first [eapply (row_required s _ _ ST _ _ field_tag_text); eassumption | eapply (wd _ _ _ ST _ _ _ field_tag_text); eassumption | eapply (wd _ _ _ SB _ _ _ field_tag_flag); eassumption
            | eapply (wd _ _ _ SJ _ _ _ field_journal); eassumption | eapply (row_optional s _ _ ST _ _ field_tag_text); eassumption].
  Qed.
  Lemma load_deserialize f env c : load f env = Some c -> deserialize (f ++ environment env) = Some c.
  Proof.
    unfold BootModel.load, bind, validated. destruct (deserialize (f ++ environment env)) as [d|]; [|discriminate]. destruct (ConfigModel.validate_config (checked d)); [|discriminate]. intros E. injection E as ->. reflexivity.
  Qed.

  (* C112: documented settings are honoured (if the crate refuses numbers that are too large) *)
  Theorem c112_honoured_partial : forall f env c r v, refuses narrow -> load f env = Some c -> In r plain_rows -> says (f ++ environment env) (rpath r) v ->
    exists x, means (rreading r) v x /\ rget r c = Some x.
  Proof.
    intros f env c r v X L I S. apply load_deserialize in L. pose proof (plain_ok _ c X L) as A. rewrite Forall_forall in A. apply setting_says in S. exact (proj1 (A r I) v S).
  Qed.
  Theorem c112_tagged : forall f env c p t r v, load f env = Some c -> In (p, t, r) tagged_rows -> says (f ++ environment env) p (VText t) -> says (f ++ environment env) (rpath r) v ->
    exists x, means (rreading r) v x /\ rget r c = Some x.
  Proof.
    intros f env c p t r v L I T S. apply load_deserialize in L. pose proof (tagged_ok _ c L) as A. rewrite Forall_forall in A. apply setting_says in S. apply setting_says in T. exact (proj1 (A _ I T) v S).
  Qed.
  (* Settings that are not given have their defaults *)
  Theorem c112_defaults_partial : forall f env c r x, refuses narrow -> load f env = Some c -> In r plain_rows -> silent (f ++ environment env) (rpath r) -> rget r c = Some x -> rdefault r = Some x.
  Proof.
    intros f env c r x X L I S. apply load_deserialize in L. pose proof (plain_ok _ c X L) as A. rewrite Forall_forall in A. apply setting_none in S. exact (proj2 (A r I) S x).
  Qed.
  Theorem c112_tagged_defaults : forall f env c p t r x, load f env = Some c -> In (p, t, r) tagged_rows -> says (f ++ environment env) p (VText t) -> silent (f ++ environment env) (rpath r) -> rget r c = Some x -> rdefault r = Some x.
  Proof.
    intros f env c p t r x L I T S. apply load_deserialize in L. pose proof (tagged_ok _ c L) as A. rewrite Forall_forall in A. apply setting_none in S. apply setting_says in T. exact (proj2 (A _ I T) S x).
  Qed.
  (* An unknown type of catalog or object store is refused *)
  Theorem c112_types : forall f env c t, load f env = Some c ->
    (says (f ++ environment env) ["catalog"; "type"] (VText t) -> In t ["postgres"; "sqlite"; "clade"]) /\ (says (f ++ environment env) ["object_store"; "type"] (VText t) -> In t ["local"; "memory"; "s3"; "gcs"]).
  Proof.
    intros f env c t L. apply load_deserialize in L. unfold BootModel.deserialize in L. set (s := (f ++ environment env)%list) in *. clearbody s. binds L.
    match goal with A : optional_struct s ["object_store"] _ = Some ?o |- _ => rename A into QO; rename o into oo end. match goal with A : optional_struct s ["catalog"] _ = Some ?o |- _ => rename A into QC; rename o into oc end.
    split; intros S; apply setting_says in S.
    - pose proof (os_on s _ _ _ oc _ QC S eq_refl) as N. destruct oc as [a|]; [|contradiction]. apply os_some in QC. unfold read_catalog, required in QC. rewrite S in QC. cbn [tagged_text bind] in QC. cbn [In].
      destruct (String.eqb t "postgres") eqn:A; [apply String.eqb_eq in A; left; congruence|]. destruct (String.eqb t "sqlite") eqn:B; [apply String.eqb_eq in B; right; left; congruence|].
      destruct (String.eqb t "clade") eqn:C; [apply String.eqb_eq in C; right; right; left; congruence|discriminate].
    - pose proof (os_on s _ _ _ oo _ QO S eq_refl) as N. destruct oo as [a|]; [|contradiction]. apply os_some in QO. unfold read_store, required, under in QO. cbn [app] in QO. rewrite S in QO. cbn [tagged_text bind] in QO. cbn [In].
      destruct (String.eqb t "local") eqn:A; [apply String.eqb_eq in A; left; congruence|]. destruct (String.eqb t "memory") eqn:B; [apply String.eqb_eq in B; right; left; congruence|].
      destruct (String.eqb t "s3") eqn:C; [apply String.eqb_eq in C; right; right; left; congruence|]. destruct (String.eqb t "gcs") eqn:D; [apply String.eqb_eq in D; right; right; right; left; congruence|discriminate].
  Qed.
  (* If the crate cuts numbers off, a port, an interval or a size that is too large silently becomes another one *)
  Theorem c112_numbers_refuted : forall f env c r bits v n, cuts_off narrow -> load f env = Some c -> In r plain_rows -> rreading r = RNumber bits -> says (f ++ environment env) (rpath r) v -> to_number v = Some n -> (2 ^ bits <= n)%N ->
    exists m, rget r c = Some (SN m) /\ m <> n.
  Proof.
    intros f env c r bits v n X L I R S T G.
    assert (NZ : (2 ^ bits <> 0)%N) by (apply N.pow_nonzero; discriminate).
    assert (G' : (n mod 2 ^ bits <> n)%N) by (intros Q; pose proof (N.mod_lt n (2 ^ bits) NZ); lia).
    exists (n mod 2 ^ bits)%N. split; [|exact G']. clear G G' NZ.
    apply load_deserialize in L. unfold BootModel.deserialize in L. set (s := (f ++ environment env)%list) in *. clearbody s. binds L. apply setting_says in S.
    repeat match goal with A : struct s ["misc"] _ = Some _ |- _ => apply struct_some in A; unfold read_misc in A; binds A end.
    repeat match goal with A : struct s ["misc"; "sync_conf"] _ = Some _ |- _ => apply struct_some in A; unfold read_sync in A; binds A end.
    assert (num : forall b, number to_number narrow b v = Some (n mod 2 ^ b)%N) by (intros b; unfold number; rewrite T; apply X).
    assert (wd : forall p b d a, with_default s p (number to_number narrow b) d = Some a -> setting s p = Some v -> a = (n mod 2 ^ b)%N) by (intros p b d a W V; unfold with_default in W; rewrite V, num in W; congruence).
    assert (op : forall p b a, optional s p (number to_number narrow b) = Some a -> setting s p = Some v -> a = Some (n mod 2 ^ b)%N) by (intros p b a W V; unfold optional in W; rewrite V, num in W; cbn in W; congruence).
    assert (ad : forall p host port d o, optional_struct s p (read_address to_text to_number narrow s p host port d) = Some o -> below p (under p port) = true -> setting s (under p port) = Some v -> option_map (fun a => SN (bind_port a)) o = Some (SN (n mod 2 ^ 16)%N)).
    { intros p host port d oa E B V. pose proof (os_on s _ _ _ oa _ E V B) as N. destruct oa as [a|]; [|contradiction]. apply os_some in E. unfold read_address in E. binds E. cbn [option_map bind_port]. f_equal. f_equal. eapply wd; eassumption. }
    unfold plain_rows, addresses, number_row in I. cbn [app In] in I.
    repeat (destruct I as [I|I]; [subst r; cbn [rpath rreading rget] in *; try discriminate; injection R as <-; cbn [flight postgres web rest metrics max_memory max_partition_size gc_interval object_store_cache sync
        max_in_memory_bytes max_replication_lag_s max_syncs_per_url write_lock_timeout_s flush_task_interval_s];
      first [eapply ad; [eassumption|reflexivity|exact S] | cbn [option_map]; f_equal; f_equal; eapply wd; eassumption | erewrite (op _ _ _ ltac:(eassumption) S); reflexivity
            | match goal with A : optional_struct s ["frontend"; "http"] _ = Some ?o |- _ =>
                pose proof (os_on s _ _ _ o _ A S eq_refl) as N; destruct o as [a|]; [|contradiction]; apply os_some in A; unfold read_http in A; binds A;
                repeat match goal with B : read_address _ _ _ _ _ _ _ _ = Some _ |- _ => unfold read_address in B; binds B end; cbn [option_map http_address bind_port upload_data_max_length]; f_equal; f_equal; eapply wd; eassumption end
            | match goal with A : optional_struct s ["misc"; "object_store_cache"] _ = Some ?o |- _ =>
                pose proof (os_on s _ _ _ o _ A S eq_refl) as N; destruct o as [a|]; [|contradiction]; apply os_some in A; unfold read_cache in A; binds A; cbn [option_map capacity min_fetch_size ttl]; f_equal; f_equal; eapply wd; eassumption end]|]).
    contradiction.
  Qed.
  (* A setting that is not documented is ignored *)
  Section Ext.
    Variable s s' : list (list string * value).
    Hypothesis H : forall p, existsb (path_eqb p) known = true -> setting s p = setting s' p.
    Hypothesis K : forall p, existsb (path_eqb p) sections = true -> section s p = section s' p.
    Lemma address_ext p host port d : existsb (path_eqb (under p host)) known = true -> existsb (path_eqb (under p port)) known = true -> read_address to_text to_number narrow s p host port d = read_address to_text to_number narrow s' p host port d.
    Proof. intros A B. unfold read_address, with_default. rewrite (H _ A), (H _ B). reflexivity. Qed.
    Lemma os_ext {A} p (f f' : option A) : existsb (path_eqb p) known = true -> existsb (path_eqb p) sections = true -> f = f' -> optional_struct s p f = optional_struct s' p f'.
    Proof. intros A1 A2 ->. unfold optional_struct, struct. rewrite (H _ A1), (K _ A2). reflexivity. Qed.
    Lemma struct_ext {A} p (f f' : option A) : existsb (path_eqb p) known = true -> f = f' -> struct s p f = struct s' p f'.
    Proof. intros A1 ->. unfold struct. rewrite (H _ A1). reflexivity. Qed.
    Lemma bind_ext {A B} (x x' : option A) (f f' : A -> option B) : x = x' -> (forall a, f a = f' a) -> bind x f = bind x' f'.
    Proof. intros -> E. destruct x'; [apply E|reflexivity]. Qed.
    Lemma wd_ext {A} p (f : value -> option A) d : existsb (path_eqb p) known = true -> with_default s p f d = with_default s' p f d.
    Proof. intros A1. unfold with_default. rewrite (H _ A1). reflexivity. Qed.
    Lemma op_ext {A} p (f : value -> option A) : existsb (path_eqb p) known = true -> optional s p f = optional s' p f.
    Proof. intros A1. unfold optional. rewrite (H _ A1). reflexivity. Qed.
    Lemma rq_ext {A} p (f : value -> option A) : existsb (path_eqb p) known = true -> required s p f = required s' p f.
    Proof. intros A1. unfold required. rewrite (H _ A1). reflexivity. Qed.
    Ltac known := vm_compute; reflexivity.
    Ltac ext := repeat match goal with
      | |- Some _ = _ => reflexivity
      | |- None = _ => reflexivity
      | |- bind _ _ = bind _ _ => apply bind_ext; [|intros ?; cbv beta]
      | |- with_default _ _ _ _ = _ => apply wd_ext; known
      | |- optional _ _ _ = _ => apply op_ext; known
      | |- required _ _ _ = _ => apply rq_ext; known
      | |- read_address _ _ _ _ _ _ _ _ = _ => apply address_ext; known
      | |- optional_struct _ _ _ = _ => apply os_ext; [known|known|]
      | |- struct _ _ _ = _ => apply struct_ext; [known|]
      | |- (if ?b then _ else _) = _ => destruct b
      end.
    Lemma http_ext : read_http to_text to_number narrow s = read_http to_text to_number narrow s'.
    Proof. unfold read_http. ext. Qed.
    Lemma cache_ext : read_cache to_number narrow s = read_cache to_number narrow s'.
    Proof. unfold read_cache. ext. Qed.
    Lemma sync_ext : read_sync to_number narrow s = read_sync to_number narrow s'.
    Proof. unfold read_sync. ext. Qed.
    Lemma misc_ext : read_misc to_text to_number narrow s = read_misc to_text to_number narrow s'.
    Proof. unfold read_misc. ext; [apply cache_ext|apply sync_ext]. Qed.
    Lemma catalog_ext : read_catalog s = read_catalog s'.
    Proof. unfold read_catalog. ext. Qed.
    Lemma store_ext : read_store s = read_store s'.
    Proof. unfold read_store. ext. Qed.
    Lemma deserialize_ext : deserialize s = deserialize s'.
    Proof. unfold BootModel.deserialize. ext; [apply store_ext|apply catalog_ext|apply http_ext|apply misc_ext]. Qed.
  End Ext.
  Theorem c112_unknown_refuted : forall a b env q v, ~ In q known -> (forall sec, In sec sections -> below sec q = true -> section (a ++ b) sec = true) -> load (a ++ (q, v) :: b) env = load (a ++ b) env.
  Proof.
    intros a b env q v N S. enough (E : deserialize ((a ++ (q, v) :: b) ++ environment env) = deserialize ((a ++ b) ++ environment env)) by (unfold BootModel.load; rewrite E; reflexivity). apply deserialize_ext.
    - intros p K. rewrite !setting_app. cbn [setting]. assert (Q : path_eqb q p = false).
      { destruct (path_eqb q p) eqn:Q; [|reflexivity]. apply path_eqb_iff in Q. subst p. exfalso. apply N. apply existsb_exists in K. destruct K as (x & I & E). apply path_eqb_iff in E. subst x. exact I. }
      rewrite Q. cbn [andb]. destruct (setting (environment env) p); [reflexivity|]. destruct (setting b p); reflexivity.
    - intros p K. unfold section. rewrite !existsb_app. cbn [existsb fst]. destruct (below p q) eqn:B; [|reflexivity]. apply existsb_exists in K. destruct K as (x & I & E). apply path_eqb_iff in E. subst x.
      specialize (S p I B). unfold section in S. rewrite existsb_app in S. destruct (existsb (fun e => below p (fst e)) a); [reflexivity|]. cbn [orb] in *. rewrite S. reflexivity.
  Qed.

  (* C113: the environment wins over the file, for each setting under its name *)
  Lemma variable_of_plain : Forall (fun r => forall t, variable (variable_name (rpath r), t) = [(rpath r, VText t)]) plain_rows.
  Proof. repeat apply Forall_cons; try apply Forall_nil; intros t; vm_compute; reflexivity. Qed.
  Lemma variable_of_tagged : Forall (fun e => forall t, variable (variable_name (rpath (snd e)), t) = [(rpath (snd e), VText t)]) tagged_rows.
  Proof. repeat apply Forall_cons; try apply Forall_nil; intros t; vm_compute; reflexivity. Qed.
  Lemma env_says f e1 e2 p t : variable (variable_name p, t) = [(p, VText t)] -> (forall w, In (p, w) (environment e2) -> False) -> says (f ++ environment (e1 ++ (variable_name p, t) :: e2)) p (VText t).
  Proof.
    intros V N. split; [discriminate|]. exists (f ++ environment e1)%list, (environment e2). split; [|intros w I; destruct (N w I)].
    unfold environment. rewrite flat_map_app. cbn [flat_map]. rewrite V. cbn [app]. rewrite app_assoc. reflexivity.
  Qed.
  Theorem c113_overrides_partial : forall f e1 e2 c r t, refuses narrow -> In r plain_rows -> (forall w, In (rpath r, w) (environment e2) -> False) -> load f (e1 ++ (variable_name (rpath r), t) :: e2) = Some c ->
    exists x, means (rreading r) (VText t) x /\ rget r c = Some x.
  Proof.
    intros f e1 e2 c r t X I N L. pose proof variable_of_plain as V. rewrite Forall_forall in V. exact (c112_honoured_partial f _ c r (VText t) X L I (env_says f e1 e2 (rpath r) t (V r I t) N)).
  Qed.
  Theorem c113_tagged : forall f e1 e2 c p k r t, In (p, k, r) tagged_rows -> (forall w, In (rpath r, w) (environment e2) -> False) -> says (f ++ environment (e1 ++ (variable_name (rpath r), t) :: e2)) p (VText k) ->
    load f (e1 ++ (variable_name (rpath r), t) :: e2) = Some c -> exists x, means (rreading r) (VText t) x /\ rget r c = Some x.
  Proof.
    intros f e1 e2 c p k r t I N T L. pose proof variable_of_tagged as V. rewrite Forall_forall in V. exact (c112_tagged f _ c p k r (VText t) L I T (env_says f e1 e2 (rpath r) t (V _ I t) N)).
  Qed.
  (* What the environment does not mention is read from the file *)
  Theorem c113_file : forall f env r v, silent (environment env) (rpath r) -> (says (f ++ environment env) (rpath r) v <-> says f (rpath r) v).
  Proof. intros f env r v S. rewrite <- !setting_says, setting_app. apply setting_none in S. rewrite S. reflexivity. Qed.
  (* Variables with other names are left alone *)
  Theorem c113_others : forall f e1 e2 k t, (forall x, upper k <> "SEAFOWL__" ++ x) -> load f (e1 ++ (k, t) :: e2) = load f (e1 ++ e2).
  Proof.
    intros f e1 e2 k t N. unfold BootModel.load. do 3 f_equal. unfold environment. rewrite !flat_map_app. f_equal. cbn [flat_map]. rewrite (variable_other k t N). reflexivity.
  Qed.
  (* The flags of catalogs and object stores cannot be set by the environment at all: the server does not start *)
  Theorem c113_flags_refuted : forall f e1 e2 p k r t, In (p, k, r) tagged_rows -> rreading r = RTagFlag -> (forall w, In (rpath r, w) (environment e2) -> False) -> says (f ++ environment (e1 ++ (variable_name (rpath r), t) :: e2)) p (VText k) ->
    load f (e1 ++ (variable_name (rpath r), t) :: e2) = None.
  Proof.
    intros f e1 e2 p k r t I R N T. destruct (load f (e1 ++ (variable_name (rpath r), t) :: e2)) as [c|] eqn:L; [|reflexivity]. exfalso.
    destruct (c113_tagged f e1 e2 c p k r t I N T L) as (x & M & _). rewrite R in M. inversion M.
  Qed.

  (* C114: a file that is there is used *)
  Notation start := (start to_text to_number narrow).
  Theorem c114_used : forall name env d f, contents d name = Some f -> start name env d = (load f env, d).
  Proof. intros name env d f E. unfold BootModel.start. rewrite E. reflexivity. Qed.
  (* A start without a file writes one, and later starts are like it *)
  Lemma contents_app d n f name : contents d name = None -> contents (d ++ [(n, f)]) name = if n =? name then Some f else None.
  Proof. induction d as [|[m g] d IH]; cbn [app contents]; [reflexivity|]. destruct (m =? name); [discriminate|exact IH]. Qed.
  Lemma contents_app_some d n f name g : contents d name = Some g -> contents (d ++ [(n, f)]) name = Some g.
  Proof. induction d as [|[m h] d IH]; cbn [app contents]; [discriminate|]. destruct (m =? name); [tauto|exact IH]. Qed.
  Theorem c114_again : forall name env d c d', start name env d = (Some c, d') -> start name env d' = (Some c, d') /\ (forall n f, contents d n = Some f -> contents d' n = Some f) /\ (forall n, n <> "seafowl.toml" -> contents d' n = contents d n).
  Proof.
    intros name env d c d' E. unfold BootModel.start in *. destruct (contents d name) as [f|] eqn:C.
    - injection E as L <-. rewrite C, L. split; [reflexivity|]. split; [tauto|reflexivity].
    - destruct (name =? "seafowl.toml") eqn:Q.
      + destruct (load default_file env) as [c'|] eqn:L; [|discriminate]. injection E as <- <-. rewrite (contents_app d name default_file name C), String.eqb_refl. rewrite L. split; [reflexivity|]. split; [intros n f F; apply contents_app_some; exact F|].
        intros n N. apply String.eqb_eq in Q. subst name. destruct (contents d n) as [g|] eqn:G; [apply contents_app_some; exact G|]. rewrite (contents_app d _ _ n G). destruct ("seafowl.toml" =? n) eqn:Q; [apply String.eqb_eq in Q; congruence|reflexivity].
      + injection E as L <-. rewrite C, L. split; [reflexivity|]. split; [tauto|reflexivity].
  Qed.
  (* A file that is named but missing is not reported: the server starts without a catalog, without a store and without frontends *)
  Theorem c114_missing_refuted : forall name d, name <> "seafowl.toml" -> contents d name = None ->
    exists c, start name [] d = (Some c, d) /\ object_store c = None /\ cat c = None /\ web c = None /\ flight c = None /\ postgres c = None.
  Proof.
    intros name d N C. unfold BootModel.start. rewrite C. apply String.eqb_neq in N. rewrite N. eexists. split; [reflexivity|]. repeat apply conj; reflexivity.
  Qed.
End Crate.
Print Assumptions c112_honoured_partial.
Print Assumptions c112_tagged.
Print Assumptions c112_defaults_partial.
Print Assumptions c112_tagged_defaults.
Print Assumptions c112_types.
Print Assumptions c112_numbers_refuted.
Print Assumptions c112_unknown_refuted.
Print Assumptions c113_overrides_partial.
Print Assumptions c113_tagged.
Print Assumptions c113_file.
Print Assumptions c113_others.
Print Assumptions c113_flags_refuted.
Print Assumptions c114_used.
Print Assumptions c114_again.
Print Assumptions c114_missing_refuted.

(* A crate that converts numbers and texts into each other, refusing or cutting off large numbers *)
Definition ex_text (v : value) : option string := match v with VText t => Some t | VBool b => Some (if b then "true" else "false") | _ => None end.
Definition digit (c : ascii) : option N := let n := nat_of_ascii c in if (Nat.leb 48 n && Nat.leb n 57)%bool then Some (N.of_nat (n - 48)) else None.
Fixpoint digits (a : N) (s : string) : option N := match s with EmptyString => Some a | String c r => match digit c with Some d => digits (10 * a + d)%N r | None => None end end.
Definition ex_number (v : value) : option N := match v with VInt n => Some n | VText "" => None | VText t => digits 0 t | _ => None end.
Definition strict (bits n : N) : option N := if (n <? 2 ^ bits)%N then Some n else None.
Definition wrapping (bits n : N) : option N := Some (n mod 2 ^ bits)%N.
Example c112_crates : refuses strict /\ cuts_off wrapping.
Proof. split; [|intros bits n; reflexivity]. intros bits n m E. unfold strict in E. destruct (n <? 2 ^ bits)%N eqn:Q; [|discriminate]. injection E as <-. split; [reflexivity|apply N.ltb_lt; exact Q]. Qed.
Definition ex_file : list (list string * value) :=
  (default_file ++ [(["misc"; "gc_interval"], VInt 65536); (["frontend"; "http"; "write_acess"], VText "any"); (["catalog"; "read_only"], VBool true)])%list.
Definition ex_env : list (string * string) := [("SEAFOWL__FRONTEND__HTTP__BIND_PORT", "80"); ("PATH", "/bin"); ("SEAFOWL__MISC__GC_INTERVAL", "12"); ("seafowl__object_store__DATA_DIR", "other")].
Example c112_example :
  (exists c h, load ex_text ex_number strict ex_file ex_env = Some c /\ web c = Some h /\ bind_port (http_address h) = 80%N /\ write_access h = ConfigModel.Off /\ gc_interval (rest c) = 12%N /\
     object_store c = Some (Local "other" false) /\ cat c = Some (Sqlite "seafowl-data/seafowl.sqlite" JWal true)) /\
  load ex_text ex_number strict ex_file [] = None /\ (exists c, load ex_text ex_number wrapping ex_file [] = Some c /\ gc_interval (rest c) = 0%N) /\
  ~ In ["frontend"; "http"; "write_acess"] known /\ section ex_file ["frontend"; "http"] = true /\
  load ex_text ex_number wrapping ex_file [("SEAFOWL__CATALOG__READ_ONLY", "true")] = None /\ variable_name ["catalog"; "read_only"] = "SEAFOWL__CATALOG__READ_ONLY".
Proof.
  split; [do 2 eexists; split; [vm_compute; reflexivity|]; repeat apply conj; vm_compute; reflexivity|]. split; [vm_compute; reflexivity|]. split; [eexists; split; vm_compute; reflexivity|].
  split; [|repeat apply conj; vm_compute; reflexivity]. intros I. assert (X : existsb (path_eqb ["frontend"; "http"; "write_acess"]) known = true) by (apply existsb_exists; exists ["frontend"; "http"; "write_acess"]; split; [exact I|apply path_eqb_iff; reflexivity]).
  vm_compute in X. discriminate.
Qed.
Example c114_example :
  (exists c, start ex_text ex_number strict "seafowl.toml" [] [] = (Some c, [("seafowl.toml", default_file)]) /\ option_map write_access (web c) = Some ConfigModel.Off) /\
  (exists c, start ex_text ex_number strict "prod.toml" [] [("seafowl.toml", default_file)] = (Some c, [("seafowl.toml", default_file)]) /\ cat c = None).
Proof. split; eexists; split; vm_compute; reflexivity. Qed.

(* ---- C115 ---- *)
Lemma mem_iff x l : mem x l = true <-> In x l.
Proof. unfold mem. rewrite existsb_exists. split; [intros (y & I & E); apply String.eqb_eq in E; subst; exact I|intros I; exists x; split; [exact I|apply String.eqb_refl]]. Qed.
Lemma mem2_iff x l : mem2 x l = true <-> In x l.
Proof.
  unfold mem2. rewrite existsb_exists. split.
  - intros ([a b] & I & E). apply andb_true_iff in E. destruct E as [A B]. apply String.eqb_eq in A. apply String.eqb_eq in B. destruct x as [c d]. cbn [fst snd] in *. subst. exact I.
  - intros I. exists x. split; [exact I|]. rewrite !String.eqb_refl. reflexivity.
Qed.
Lemma mem_not x l : mem x l = false <-> ~ In x l.
Proof. rewrite <- mem_iff. destruct (mem x l); split; congruence. Qed.
Lemma mem2_not x l : mem2 x l = false <-> ~ In x l.
Proof. rewrite <- mem2_iff. destruct (mem2 x l); split; congruence. Qed.
Lemma adds_refl r : only_adds r r.
Proof. split; left; reflexivity. Qed.
Lemma adds_step k b r g : only_adds r (fst (boot_step k b r g)).
Proof.
  destruct g; cbn [boot_step fst]; try apply adds_refl; destruct k; try apply adds_refl.
  - destruct (b || mem "default" (databases r))%bool eqn:Q; [apply adds_refl|]. apply orb_false_iff in Q. destruct Q as [_ Q]. apply mem_not in Q. split; cbn [fst databases schemas]; [right; split; [exact Q|reflexivity]|left; reflexivity].
  - destruct (b || negb (mem "default" (databases r)) || mem2 ("default", "public") (schemas r))%bool eqn:Q; [apply adds_refl|]. apply orb_false_iff in Q. destruct Q as [_ Q]. apply mem2_not in Q. split; cbn [fst databases schemas]; [left; reflexivity|right; split; [exact Q|reflexivity]].
Qed.
Lemma adds_trans a b c : only_adds a b -> only_adds b c -> only_adds a c.
Proof.
  intros [D1 S1] [D2 S2]. split.
  - destruct D1 as [E1|[N1 E1]]; rewrite E1 in *; [exact D2|]. destruct D2 as [E2|[N2 E2]]; [right; split; assumption|]. exfalso. apply N2. apply in_or_app. right. left. reflexivity.
  - destruct S1 as [E1|[N1 E1]]; rewrite E1 in *; [exact S2|]. destruct S2 as [E2|[N2 E2]]; [right; split; assumption|]. exfalso. apply N2. apply in_or_app. right. left. reflexivity.
Qed.
(* Whatever servers start, in whatever order and with whatever failures: nothing is lost, and at most the default database and its schema are added, once *)
Theorem c115_kept : forall k r l schedule, only_adds r (fst (boots k r l schedule)).
Proof.
  intros k r l schedule. revert r l. induction schedule as [|[i b] sch IH]; intros r l; cbn [boots]; [apply adds_refl|]. destruct (nth_error l i) as [g|]; [|apply IH].
  pose proof (adds_step k b r g) as A. destruct (boot_step k b r g) as [r' g']. cbn [fst] in A. exact (adds_trans _ _ _ A (IH r' _)).
Qed.
Print Assumptions c115_kept.
(* A start alone on a catalog that can be written works and leaves the catalog ready, also after starts that failed *)
Lemma four_steps r : exists r', boots Writable r [LookDatabase] (repeat (0, false) 4) = (r', [Running]) /\ ready r'.
Proof.
  cbn [repeat boots nth_error boot_step]. destruct (mem "default" (databases r)) eqn:D.
  - cbn [stages_at firstn skipn app nth_error boot_step]. rewrite D. cbn [negb]. destruct (mem2 ("default", "public") (schemas r)) eqn:S; cbn [stages_at firstn skipn app nth_error boot_step orb].
    + exists r. split; [reflexivity|]. split; [apply mem_iff; exact D|apply mem2_iff; exact S].
    + rewrite D, S. cbn [negb orb]. eexists. split; [reflexivity|]. split; [apply mem_iff; exact D|apply in_or_app; right; left; reflexivity].
  - cbn [stages_at firstn skipn app nth_error boot_step orb]. rewrite D. cbn [stages_at firstn skipn app nth_error boot_step databases schemas].
    assert (D' : mem "default" (databases r ++ ["default"]) = true) by (apply mem_iff, in_or_app; right; left; reflexivity). rewrite D'. cbn [negb].
    destruct (mem2 ("default", "public") (schemas r)) eqn:S; cbn [stages_at firstn skipn app nth_error boot_step orb databases schemas].
    + eexists. split; [reflexivity|]. split; [apply mem_iff; exact D'|apply mem2_iff; exact S].
    + rewrite D', S. cbn [negb orb]. eexists. split; [reflexivity|]. split; [apply mem_iff; exact D'|apply in_or_app; right; left; reflexivity].
Qed.
Theorem c115_alone : forall k r l schedule, exists r', boots Writable (fst (boots k r l schedule)) [LookDatabase] (repeat (0, false) 4) = (r', [Running]) /\ ready r' /\ only_adds r r'.
Proof.
  intros k r l schedule. destruct (four_steps (fst (boots k r l schedule))) as (r' & E & Re). exists r'. split; [exact E|]. split; [exact Re|].
  pose proof (c115_kept Writable (fst (boots k r l schedule)) [LookDatabase] (repeat (0, false) 4)) as A. rewrite E in A. exact (adds_trans _ _ _ (c115_kept k r l schedule) A).
Qed.
Print Assumptions c115_alone.
(* On a catalog that is ready every start works, also if it is read only and however many servers start *)
Definition fine (g : stage) : Prop := match g with MakeDatabase | MakeSchema | Dead => False | _ => True end.
Lemma fine_step k b r g : ready r -> fine g -> fst (boot_step k b r g) = r /\ fine (snd (boot_step k b r g)).
Proof.
  intros [D S] F. apply mem_iff in D. apply mem2_iff in S. destruct g; cbn [fine] in F; try contradiction; cbn [boot_step fst snd]; try (split; [reflexivity|exact Logic.I]); split; try reflexivity.
  - rewrite D. destruct k, b; exact Logic.I.
  - rewrite D, S. destruct k, b; exact Logic.I.
Qed.
Lemma Forall_stages (P : stage -> Prop) l i g : Forall P l -> P g -> Forall P (stages_at l i g).
Proof.
  intros L G. unfold stages_at. pose proof L as L'. rewrite <- (firstn_skipn i l) in L'. apply Forall_app in L'. destruct L' as [A B]. apply Forall_app. split; [exact A|]. destruct (skipn i l); [constructor|]. inversion_clear B. constructor; assumption.
Qed.
Theorem c115_ready : forall k r n schedule, ready r -> fst (boots k r (repeat LookDatabase n) schedule) = r /\ ~ In Dead (snd (boots k r (repeat LookDatabase n) schedule)).
Proof.
  intros k r n schedule Re.
  assert (G : forall schedule l, Forall fine l -> fst (boots k r l schedule) = r /\ Forall fine (snd (boots k r l schedule))).
  { induction schedule0 as [|[i b] sch IH]; intros l L; cbn [boots]; [split; [reflexivity|exact L]|]. destruct (nth_error l i) as [g|] eqn:N; [|apply IH; exact L].
    assert (Fg : fine g) by (apply nth_error_In in N; rewrite Forall_forall in L; exact (L g N)). destruct (fine_step k b r g Re Fg) as [E F]. destruct (boot_step k b r g) as [r' g']. cbn [fst snd] in *. subst r'. apply IH, Forall_stages; assumption. }
  destruct (G schedule (repeat LookDatabase n)) as [E F]; [apply Forall_forall; intros x I; apply repeat_spec in I; subst x; exact Logic.I|]. split; [exact E|]. intros I. rewrite Forall_forall in F. exact (F _ I).
Qed.
Print Assumptions c115_ready.
(* A server that runs after a start without failures has a catalog that is ready *)
Definition reached (r : records) (g : stage) : Prop :=
  match g with LookSchema | MakeSchema => In "default" (databases r) | Running => ready r | _ => True end.
Lemma adds_in r r' : only_adds r r' -> (forall x, In x (databases r) -> In x (databases r')) /\ (forall x, In x (schemas r) -> In x (schemas r')).
Proof. intros [[->|[_ ->]] [->|[_ ->]]]; split; intros x I; try exact I; apply in_or_app; left; exact I. Qed.
Lemma reached_more r r' g : only_adds r r' -> reached r g -> reached r' g.
Proof. intros A. destruct (adds_in r r' A) as [D S]. destruct g; cbn [reached]; try tauto; try apply D. intros [X Y]. split; [apply D; exact X|apply S; exact Y]. Qed.
Lemma reached_step r g : reached r g -> reached (fst (boot_step Writable false r g)) (snd (boot_step Writable false r g)).
Proof.
  destruct g; cbn [boot_step fst snd orb]; intros R; try exact R.
  - destruct (mem "default" (databases r)) eqn:D; cbn [reached]; [apply mem_iff; exact D|exact Logic.I].
  - destruct (mem "default" (databases r)); cbn [fst snd reached databases]; [exact Logic.I|apply in_or_app; right; left; reflexivity].
  - cbn [reached] in R. pose proof R as D. apply mem_iff in D. rewrite D. cbn [negb]. destruct (mem2 ("default", "public") (schemas r)) eqn:S; cbn [reached]; [split; [exact R|apply mem2_iff; exact S]|exact R].
  - cbn [reached] in R. destruct (negb (mem "default" (databases r)) || mem2 ("default", "public") (schemas r))%bool; cbn [fst snd reached]; [exact Logic.I|]. split; [exact R|apply in_or_app; right; left; reflexivity].
Qed.
Theorem c115_running_partial : forall r n schedule, no_failures schedule -> In Running (snd (boots Writable r (repeat LookDatabase n) schedule)) -> ready (fst (boots Writable r (repeat LookDatabase n) schedule)).
Proof.
  intros r n schedule NF.
  assert (G : forall schedule r l, no_failures schedule -> Forall (reached r) l -> Forall (reached (fst (boots Writable r l schedule))) (snd (boots Writable r l schedule))).
  { clear. induction schedule as [|[i b] sch IH]; intros r l NF L; cbn [boots]; [exact L|]. inversion_clear NF as [|? ? B NF']. cbn [snd] in B. subst b. destruct (nth_error l i) as [g|] eqn:N; [|apply IH; assumption].
    assert (Rg : reached r g) by (apply nth_error_In in N; rewrite Forall_forall in L; exact (L g N)). pose proof (reached_step r g Rg) as R'. pose proof (adds_step Writable false r g) as A. destruct (boot_step Writable false r g) as [r' g']. cbn [fst snd] in *.
    apply IH; [exact NF'|]. apply Forall_stages; [|exact R']. eapply Forall_impl; [|exact L]. intros x. apply reached_more. exact A. }
  intros I. specialize (G schedule r (repeat LookDatabase n) NF). assert (F : Forall (reached r) (repeat LookDatabase n)) by (apply Forall_forall; intros x X; apply repeat_spec in X; subst x; exact Logic.I). specialize (G F). rewrite Forall_forall in G. exact (G _ I).
Qed.
Print Assumptions c115_running_partial.
(* Two servers that start at the same time on a new catalog: one of them dies *)
Theorem c115_together_refuted : forall r, ~ In "default" (databases r) -> ~ In ("default", "public") (schemas r) ->
  exists schedule, no_failures schedule /\ snd (boots Writable r [LookDatabase; LookDatabase] schedule) = [Running; Dead].
Proof.
  intros r D S. exists [(0, false); (1, false); (0, false); (1, false); (0, false); (0, false)]. split; [repeat constructor|]. apply mem_not in D. apply mem2_not in S.
  assert (D' : mem "default" (databases r ++ ["default"]) = true) by (apply mem_iff, in_or_app; right; left; reflexivity).
  repeat (cbn [boots stages_at firstn skipn app nth_error boot_step orb negb databases schemas]; rewrite ?D, ?D', ?S). reflexivity.
Qed.
Print Assumptions c115_together_refuted.
(* A catalog that is read only and has no default database cannot be used at all, whatever it contains *)
Theorem c115_read_only_refuted : forall r, ~ In "default" (databases r) -> boots ReadOnly r [LookDatabase] [(0, false); (0, false)] = (r, [Dead]).
Proof. intros r D. apply mem_not in D. cbn [boots nth_error boot_step]. rewrite D. reflexivity. Qed.
Print Assumptions c115_read_only_refuted.
(* An error while the catalog is looked at is ignored: the server runs although the catalog is not ready *)
Theorem c115_error_refuted : forall k r, boots k r [LookDatabase] [(0, true); (0, true)] = (r, [Running]).
Proof. intros k r. cbn [boots nth_error boot_step]. destruct k; reflexivity. Qed.
Print Assumptions c115_error_refuted.
Example c115_example : let r := {| databases := ["sales"]; schemas := [("sales", "raw")] |} in
  boots Writable r [LookDatabase] (repeat (0, false) 4) = ({| databases := ["sales"; "default"]; schemas := [("sales", "raw"); ("default", "public")] |}, [Running]) /\ ~ ready r /\ ready {| databases := ["default"]; schemas := [("default", "public")] |}.
Proof. split; [reflexivity|]. split; [intros [[X|[]] _]; discriminate|]. split; left; reflexivity. Qed.
Example c113_others_example : load ex_text ex_number wrapping ex_file [("SEAFOWL_CATALOG__READ_ONLY", "true")] = load ex_text ex_number wrapping ex_file [] /\ load ex_text ex_number wrapping ex_file [] <> None.
Proof. split; [|vm_compute; discriminate]. apply (c113_others ex_file [] []). intros x E. vm_compute in E. discriminate E. Qed.
