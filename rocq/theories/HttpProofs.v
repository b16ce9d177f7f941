(* Proofs for C35-C40. *)
From Coq Require Import Ascii String List Arith NArith Bool Lia.
Import ListNotations.
From Verif Require Import HttpModel HttpSpec.
Open Scope list_scope.

Lemma teqb_eq a b : teqb a b = true <-> a = b.
Proof.
  revert b; induction a as [|x a IH]; intros [|y b]; cbn; split; intros H; try discriminate; try reflexivity.
  - apply andb_true_iff in H as [H1 H2]. apply Ascii.eqb_eq in H1 as ->. f_equal. apply IH, H2.
  - inversion H; subst. rewrite Ascii.eqb_refl. cbn. apply IH. reflexivity.
Qed.

(* C35 *)
Lemma strip_app p r : strip_prefix p (p ++ r) = Some r.
Proof. induction p as [|c p IH]; cbn; [reflexivity|]. rewrite Ascii.eqb_refl. exact IH. Qed.
Lemma strip_some p s r : strip_prefix p s = Some r -> s = p ++ r.
Proof.
  revert s; induction p as [|c p IH]; intros s; cbn; [intros H; inversion H; reflexivity|].
  destruct s as [|y s]; [discriminate|]. destruct (Ascii.eqb c y) eqn:E; [|discriminate].
  apply Ascii.eqb_eq in E as ->. intros H. cbn. f_equal. apply IH, H.
Qed.
Lemma strip_bearer t : starts_with_bearer t <-> strip_prefix bearer t <> None.
Proof.
  split.
  - intros [r ->]. unfold bearer. rewrite strip_app. discriminate.
  - destruct (strip_prefix bearer t) as [r|] eqn:E; [|contradiction]. intros _. exists r. exact (strip_some _ _ _ E).
Qed.
Lemma trim_some fuel : forall s, List.length s <= fuel ->
  ~ starts_with_bearer (trim_start_matches fuel bearer s) /\ exists k, s = bearers k (trim_start_matches fuel bearer s).
Proof.
  induction fuel as [|fuel IH]; intros s L; cbn [trim_start_matches].
  - destruct s; [|cbn in L; lia]. split; [intros [r E]; discriminate E|exists 0; reflexivity].
  - destruct (strip_prefix bearer s) as [r|] eqn:E.
    + pose proof (strip_some _ _ _ E) as Es. destruct (IH r) as [H1 [k H2]].
      * rewrite Es, app_length in L. cbn [bearer s_ list_ascii_of_string List.length] in L. lia.
      * split; [exact H1|]. exists (S k). cbn [bearers]. rewrite <- H2. exact Es.
    + split; [intros H; apply strip_bearer in H; contradiction|exists 0; reflexivity].
Qed.
Lemma trim_bearers t : ~ starts_with_bearer t -> forall fuel k, List.length (bearers k t) <= fuel ->
  trim_start_matches fuel bearer (bearers k t) = t.
Proof.
  intros Nt. assert (N : strip_prefix bearer t = None).
  { destruct (strip_prefix bearer t) eqn:E; [|reflexivity]. exfalso. apply Nt, strip_bearer. rewrite E. discriminate. }
  induction fuel as [|fuel IH]; intros k L.
  - destruct k; cbn [bearers] in *; [reflexivity|]. rewrite app_length in L. cbn [s_ list_ascii_of_string List.length] in L. lia.
  - destruct k as [|k].
    + cbn [bearers trim_start_matches]. rewrite N. reflexivity.
    + cbn [trim_start_matches]. change (bearers (S k) t) with (bearer ++ bearers k t). rewrite strip_app. apply IH.
      change (bearers (S k) t) with (bearer ++ bearers k t) in L. rewrite app_length in L.
      cbn [bearer s_ list_ascii_of_string List.length] in L. lia.
Qed.

Section Auth.
Variable hash : text -> text.
Lemma matches_right t a : matches hash t a = true <-> right_token hash t a.
Proof.
  unfold right_token. destruct a as [| |h]; cbn; split; try discriminate; try (intros (x & Hx & _); discriminate Hx).
  - intros H. exists h. split; [reflexivity|apply teqb_eq, H].
  - intros (x & [= <-] & Hx). apply teqb_eq, Hx.
Qed.
Lemma presents_principal header t p : presents header t ->
  header_to_principal hash header p = token_to_principal hash (Some t) p.
Proof.
  intros (k & -> & Nt). unfold header_to_principal.
  change (bearers (S k) t) with (bearer ++ bearers k t) at 1. rewrite strip_app. rewrite (trim_bearers t Nt); [reflexivity|lia].
Qed.
Lemma header_cases header p pr : header_to_principal hash header p = Ok pr ->
  header = None \/ exists t, presents header t.
Proof.
  destruct header as [h|]; [|left; reflexivity]. cbn [header_to_principal].
  destruct (strip_prefix bearer h) as [r|] eqn:E; [|discriminate]. intros _. right.
  pose proof (strip_some _ _ _ E) as Eh.
  destruct (trim_some (List.length r) r (le_n _)) as [N [k Hk]].
  exists (trim_start_matches (List.length r) bearer r). exists k. split; [|exact N].
  cbn [bearers]. rewrite <- Hk. rewrite Eh. reflexivity.
Qed.
Lemma token_principal t p :
  token_to_principal hash (Some t) p =
    if matches hash t (write p) then Ok Writer else if matches hash t (read p) then Ok Reader
    else Err (match write p, read p with (Any | Off), (Any | Off) => UselessAccessToken | _, _ => WrongAccessToken end).
Proof. unfold token_to_principal. destruct (write p), (read p); cbn; try reflexivity; destruct (teqb _ _); try reflexivity; destruct (teqb _ _); reflexivity. Qed.

Definition ok_token (p : policy) (a : action) (t : text) : Prop :=
  right_token hash t (setting p a) \/ right_token hash t (write p) \/ (setting p a = Any /\ right_token hash t (read p)).

Lemma c35_exact_ header p a :
  granted hash header p a <->
  (header = None /\ setting p a = Any) \/ (exists t, presents header t /\ ok_token p a t).
Proof.
  split.
  - intros (pr & H & C). destruct (header_cases header p pr H) as [->|[t Ht]].
    + left. split; [reflexivity|]. cbn [header_to_principal] in H. unfold token_to_principal in H.
      destruct a; cbn [setting]; destruct (write p) eqn:W, (read p) eqn:R; try discriminate H; inversion H; subst pr;
        unfold can_perform_action in C; rewrite ?W, ?R in C; try discriminate C; reflexivity.
    + right. exists t. split; [exact Ht|]. rewrite (presents_principal header t p Ht), token_principal in H.
      unfold ok_token. rewrite <- !matches_right.
      destruct (matches hash t (write p)) eqn:Ew; [right; left; reflexivity|].
      destruct (matches hash t (read p)) eqn:Er; [|discriminate H]. inversion H; subst pr. unfold can_perform_action in C.
      destruct a; cbn [setting]; [left; exact Er|]. right. right. split; [|reflexivity].
      destruct (write p); try reflexivity; destruct (read p); discriminate C.
  - intros [[-> S]|[t [Ht O]]].
    + exists Anonymous. cbn [header_to_principal]. unfold token_to_principal, can_perform_action.
      destruct a; cbn [setting] in S; rewrite S; destruct (write p), (read p); split; try reflexivity; congruence.
    + unfold granted. rewrite (presents_principal header t p Ht), token_principal.
      unfold ok_token in O. rewrite <- !matches_right in O. unfold can_perform_action.
      destruct (matches hash t (write p)) eqn:Ew; [exists Writer; split; reflexivity|].
      assert (Er : matches hash t (read p) = true).
      { destruct O as [O|[O|[_ O]]]; [|discriminate O|exact O]. destruct a; cbn [setting] in O; [exact O|congruence]. }
      rewrite Er. exists Reader. split; [reflexivity|]. destruct a; [reflexivity|].
      destruct O as [O|[O|[O _]]]; cbn [setting] in O; [congruence|discriminate O|]. rewrite O. destruct (read p); reflexivity.
Qed.
End Auth.

(* C36 *)
Lemma run_prefix ok : forall ss i, exists rest, ss = run_statements ok i ss ++ rest /\
  (rest = [] \/ exists j, ok j = false).
Proof.
  induction ss as [|s ss IH]; intros i; cbn [run_statements]; [exists []; split; [reflexivity|left; reflexivity]|].
  destruct (ok i) eqn:E.
  - destruct (IH (S i)) as (rest & H & D). exists rest. split; [cbn; f_equal; exact H|exact D].
  - exists ss. split; [reflexivity|right; exists i; exact E].
Qed.
Lemma run_exact ok : forall ss i j s, nth_error (run_statements ok i ss) j = Some s <->
  nth_error ss j = Some s /\ (forall k, k < j -> ok (i + k) = true).
Proof.
  induction ss as [|x ss IH]; intros i j s; cbn [run_statements].
  - split; [intros H; destruct j; discriminate H|intros [H _]; destruct j; discriminate H].
  - destruct j as [|j]; cbn [nth_error].
    + split; [intros H; split; [exact H|intros k Hk; lia]|intros [H _]; exact H].
    + destruct (ok i) eqn:E.
      * rewrite IH. split; intros [H1 H2]; (split; [exact H1|]); intros k Hk.
        -- destruct k as [|k]; [rewrite Nat.add_0_r; exact E|]. replace (i + S k) with (S i + k) by lia. apply H2. lia.
        -- replace (S i + k) with (i + S k) by lia. apply H2. lia.
      * split; [intros H; destruct j; discriminate H|]. intros [_ H]. exfalso. specialize (H 0). rewrite Nat.add_0_r in H.
        rewrite H in E; [discriminate E|lia].
Qed.
Lemma filter_le {A} (f : A -> bool) l : List.length (filter f l) <= List.length l.
Proof. induction l as [|x l IH]; cbn; [lia|]. destruct (f x); cbn; lia. Qed.
Lemma filter_all {A} (f : A -> bool) l : List.length (filter f l) = List.length l -> Forall (fun x => f x = true) l.
Proof.
  induction l as [|x l IH]; cbn; [constructor|]. destruct (f x) eqn:E; cbn; intros H.
  - constructor; [exact E|apply IH; lia].
  - pose proof (filter_le f l). lia.
Qed.
Lemma post_query_some pr p ss ok done : post_query pr p ss ok = Some done ->
  done = run_statements ok 0 ss /\
  can_perform_action pr (if Nat.eqb (List.length (filter is_statement_read_only ss)) (List.length ss) then Read else Write) p = true /\
  (List.length (filter is_statement_read_only ss) <= 1) /\
  (List.length (filter is_statement_read_only ss) = 1 -> is_statement_read_only (last ss SShowTables) = true).
Proof.
  unfold post_query. destruct ss as [|s ss]; [discriminate|].
  set (reads := List.length (filter is_statement_read_only (s :: ss))).
  destruct (can_perform_action _ _ _) eqn:E; cbn [negb]; [|discriminate].
  destruct (Nat.ltb 1 reads) eqn:E1; [discriminate|]. cbn [orb].
  destruct (Nat.eqb reads 1 && negb (is_statement_read_only (last (s :: ss) SShowTables))) eqn:E2; [discriminate|].
  intros H; inversion H; subst done. apply Nat.ltb_ge in E1. split; [reflexivity|]. split; [reflexivity|]. split; [exact E1|].
  intros R. rewrite R in E2. cbn [Nat.eqb andb] in E2. apply negb_false_iff in E2. exact E2.
Qed.
Lemma read_only_writes s : is_statement_read_only s = true -> ~ hidden_write s -> stmt_writes s = false.
Proof.
  destruct s as [[]|a i| | |]; cbn; intros R H; try discriminate R; try reflexivity.
  - exfalso. apply H. left. reflexivity.
  - destruct a; [|reflexivity]. destruct i; try reflexivity. exfalso. apply H. right. reflexivity.
Qed.
Lemma Forall_run (P : stmt -> Prop) ok : forall ss i, Forall P ss -> Forall P (run_statements ok i ss).
Proof.
  induction ss as [|s ss IH]; intros i H; cbn [run_statements]; [constructor|]. inversion H; subst. constructor; [assumption|].
  destruct (ok i); [apply IH; assumption|constructor].
Qed.
Lemma existsb_forall {A} (f : A -> bool) l : Forall (fun x => f x = false) l -> existsb f l = false.
Proof. induction 1 as [|x l H _ IH]; [reflexivity|]. cbn. rewrite H. exact IH. Qed.
Lemma c36_post hash header p ss ok : ~ granted hash header p Write -> (forall s, In s ss -> ~ hidden_write s) ->
  writes hash header p (RPost ss ok) = false.
Proof.
  intros N H. unfold writes. destruct (header_to_principal hash header p) as [pr|] eqn:E; [|reflexivity].
  destruct (post_query pr p ss ok) as [done|] eqn:Q; [|reflexivity].
  destruct (post_query_some _ _ _ _ _ Q) as (-> & C & _ & _).
  destruct (Nat.eqb _ _) eqn:A in C; [|exfalso; apply N; exists pr; split; assumption].
  apply Nat.eqb_eq in A. apply filter_all in A.
  assert (F : Forall (fun s => stmt_writes s = false) ss).
  { apply Forall_forall. intros s Hs. rewrite Forall_forall in A. apply read_only_writes; [apply A, Hs|apply H, Hs]. }
  apply (Forall_run _ ok ss 0) in F. apply existsb_forall, F.
Qed.
Lemma c36_upload hash header p : ~ granted hash header p Write -> writes hash header p RUpload = false.
Proof.
  intros N. unfold writes. destruct (header_to_principal hash header p) as [pr|] eqn:E; [|reflexivity].
  destruct (can_perform_action pr Write p) eqn:C; [|reflexivity]. exfalso. apply N. exists pr. split; assumption.
Qed.

(* C37 *)
Lemma no_dml_engine : forall p, no_dml p -> engine_writes p = false.
Proof.
  fix IH 1. intros [o inputs subs] H. inversion H as [o' i' s' N1 N2 Hi Hs]; subst.
  assert (Fi : existsb engine_writes inputs = false).
  { apply existsb_forall. clear - IH Hi. induction inputs as [|x l IHl]; [constructor|]. inversion Hi; subst.
    constructor; [apply IH; assumption|apply IHl; assumption]. }
  assert (Fs : existsb engine_writes subs = false).
  { apply existsb_forall. clear - IH Hs. induction subs as [|x l IHl]; [constructor|]. inversion Hs; subst.
    constructor; [apply IH; assumption|apply IHl; assumption]. }
  cbn [engine_writes]. rewrite Fi, Fs. destruct o; try reflexivity; contradiction.
Qed.
Lemma sql_plan_read_only p : sql_plan p -> is_read_only p = true -> runs_write p = false.
Proof.
  intros H R. destruct H as [p H|o inputs subs [->| ->] _|o inputs [->| ->] _]; try discriminate R.
  - pose proof (no_dml_engine p H) as E. destruct p as [o i s]. destruct o; try discriminate R; exact E.
  - reflexivity.
Qed.
Lemma c37_ hash header p plan : sql_plan plan -> writes hash header p (RGet plan) = false.
Proof.
  intros H. unfold writes. destruct (header_to_principal hash header p) as [pr|]; [|reflexivity].
  assert (E : can_perform_action pr Read p && is_read_only plan && runs_write plan = false).
  { destruct (is_read_only plan) eqn:R; [|rewrite andb_false_r; reflexivity].
    rewrite (sql_plan_read_only plan H R). apply andb_false_r. }
  destruct (read p); [exact E|reflexivity|exact E].
Qed.

(* C38 *)
Lemma visit_sources : forall p, no_subqueries p -> visit p = flat_map scan_bytes (sources p).
Proof.
  fix IH 1. intros [o inputs subs] H. inversion H as [o' i' Hi]; subst.
  cbn [visit sources flat_map]. rewrite app_nil_r, flat_map_app. f_equal.
  - destruct o; try reflexivity. cbn. rewrite app_nil_r. reflexivity.
  - clear H. induction inputs as [|x l IHl]; [reflexivity|]. inversion Hi; subst. cbn [flat_map]. rewrite flat_map_app.
    rewrite (IH x) by assumption. f_equal. apply IHl. assumption.
Qed.
Lemma le64_small v : (v < 2 ^ 32)%N -> exists a b c d, le64 v = [a; b; c; d; 0; 0; 0; 0]%N /\ v = (a + 256 * (b + 256 * (c + 256 * d)))%N.
Proof.
  intros H. exists (v mod 256)%N, (v / 256 mod 256)%N, (v / 256 / 256 mod 256)%N, (v / 256 / 256 / 256 mod 256)%N.
  assert (Z : (v / 256 / 256 / 256 / 256 = 0)%N).
  { rewrite !N.div_div by discriminate. apply N.div_small. exact H. }
  split.
  - unfold le64. cbn [le]. rewrite Z. reflexivity.
  - pose proof (N.div_mod v 256 ltac:(discriminate)) as E1.
    pose proof (N.div_mod (v / 256) 256 ltac:(discriminate)) as E2.
    pose proof (N.div_mod (v / 256 / 256) 256 ltac:(discriminate)) as E3.
    pose proof (N.div_mod (v / 256 / 256 / 256) 256 ltac:(discriminate)) as E4. lia.
Qed.
Definition ok_start (l : list N) : Prop := match l with [] => True | x :: _ => x <> 0%N end.
Lemma enc_start l : Forall plain_delta l -> ok_start (flat_map scan_bytes l).
Proof.
  intros F. destruct F as [|s l (uri & v & -> & Ne & Nz & _) _]; [exact Logic.I|]. cbn [flat_map scan_bytes].
  destruct uri as [|x uri]; [contradiction|]. cbn. inversion Nz; assumption.
Qed.
Lemma no_shift d v1 v2 r1 r2 : d <> [] -> Forall (fun b => b <> 0%N) d -> (v1 < 2 ^ 32)%N -> (v2 < 2 ^ 32)%N -> ok_start r1 ->
  le64 v1 ++ r1 = d ++ le64 v2 ++ r2 -> False.
Proof.
  intros Nd Nz H1 H2 S E. destruct (le64_small v1 H1) as (a & b & c & e & E1 & _).
  destruct (le64_small v2 H2) as (a' & b' & c' & e' & E2 & _). rewrite E1, E2 in E. clear E1 E2.
  destruct d as [|x1 d]; [contradiction|]. inversion Nz as [|? ? N1 Nz1]; subst. clear Nz Nd.
  destruct d as [|x2 d].
  { destruct r1 as [|y r1]; cbn in E; [discriminate E|]. inversion E; subst. apply S. reflexivity. }
  inversion Nz1 as [|? ? N2 Nz2]; subst. clear Nz1. destruct d as [|x3 d].
  { destruct r1 as [|y r1]; cbn in E; [discriminate E|]. inversion E; subst. apply S. reflexivity. }
  inversion Nz2 as [|? ? N3 Nz3]; subst. clear Nz2. destruct d as [|x4 d].
  { destruct r1 as [|y r1]; cbn in E; [discriminate E|]. inversion E; subst. apply S. reflexivity. }
  inversion Nz3 as [|? ? N4 Nz4]; subst. clear Nz3. destruct d as [|x5 d].
  { destruct r1 as [|y r1]; cbn in E; [discriminate E|]. inversion E; subst. apply S. reflexivity. }
  inversion Nz4 as [|? ? N5 Nz5]; subst. cbn in E. inversion E; subst. apply N5. reflexivity.
Qed.
Lemma app_split {A} (u1 u2 r1 r2 : list A) : u1 ++ r1 = u2 ++ r2 ->
  (u1 = u2 /\ r1 = r2) \/ (exists d, d <> [] /\ u2 = u1 ++ d /\ r1 = d ++ r2) \/ (exists d, d <> [] /\ u1 = u2 ++ d /\ r2 = d ++ r1).
Proof.
  revert u2; induction u1 as [|x u1 IH]; intros [|y u2] E; cbn in E.
  - left. split; [reflexivity|exact E].
  - right. left. exists (y :: u2). split; [discriminate|]. split; [reflexivity|exact E].
  - right. right. exists (x :: u1). split; [discriminate|]. split; [reflexivity|symmetry; exact E].
  - inversion E as [[E1 E2]]; subst y. destruct (IH u2 E2) as [[-> ->]|[(d & N & -> & ->)|(d & N & -> & ->)]].
    + left. split; reflexivity.
    + right. left. exists d. split; [exact N|]. split; reflexivity.
    + right. right. exists d. split; [exact N|]. split; reflexivity.
Qed.
Lemma enc_inj : forall l1 l2, Forall plain_delta l1 -> Forall plain_delta l2 ->
  flat_map scan_bytes l1 = flat_map scan_bytes l2 -> l1 = l2.
Proof.
  induction l1 as [|s1 l1 IH]; intros [|s2 l2] F1 F2 E; [reflexivity| | |].
  - exfalso. inversion F2 as [|? ? (uri & v & -> & Ne & _ & _) _]; subst. destruct uri; [contradiction|discriminate E].
  - exfalso. inversion F1 as [|? ? (uri & v & -> & Ne & _ & _) _]; subst. destruct uri; [contradiction|discriminate E].
  - inversion F1 as [|? ? (u1 & v1 & -> & Ne1 & Nz1 & H1) F1']; subst. inversion F2 as [|? ? (u2 & v2 & -> & Ne2 & Nz2 & H2) F2']; subst.
    cbn [flat_map scan_bytes] in E. rewrite <- !app_assoc in E.
    pose proof (enc_start l1 F1') as S1. pose proof (enc_start l2 F2') as S2.
    destruct (app_split _ _ _ _ E) as [[-> E']|[(d & N & -> & E')|(d & N & -> & E')]].
    + destruct (le64_small v1 H1) as (a & b & c & e & L1 & V1). destruct (le64_small v2 H2) as (a' & b' & c' & e' & L2 & V2).
      rewrite L1, L2 in E'. cbn in E'. inversion E' as [[Ea Eb Ec Ed Er]]. subst a' b' c' e'.
      rewrite (IH l2 F1' F2' Er). f_equal. f_equal. rewrite V1, V2. reflexivity.
    + exfalso. apply Forall_app in Nz2 as [_ Nd]. exact (no_shift d v1 v2 _ _ N Nd H1 H2 S1 E').
    + exfalso. apply Forall_app in Nz1 as [_ Nd]. exact (no_shift d v2 v1 _ _ N Nd H2 H1 S2 E').
Qed.
Lemma c38_ {H : Type} (hash : list N -> H) p1 p2 : (forall a b, hash a = hash b -> a = b) ->
  no_subqueries p1 -> no_subqueries p2 -> Forall plain_delta (sources p1) -> Forall plain_delta (sources p2) ->
  plan_to_etag H hash p1 = plan_to_etag H hash p2 -> sources p1 = sources p2.
Proof.
  intros Inj N1 N2 F1 F2 E. apply enc_inj; [exact F1|exact F2|]. unfold plan_to_etag in E. apply Inj in E.
  rewrite (visit_sources p1 N1), (visit_sources p2 N2) in E. exact E.
Qed.
(* with subqueries or other tables: the ETag depends only on the Delta tables outside of subqueries *)
Fixpoint outer_sources (p : plan) : list source :=
  match p with Node o inputs _ => (match o with OScan s => [s] | _ => [] end) ++ flat_map outer_sources inputs end.
Definition is_delta (s : source) : bool := match s with Delta _ _ => true | _ => false end.
Lemma visit_outer : forall p, visit p = flat_map scan_bytes (filter is_delta (outer_sources p)).
Proof.
  fix IH 1. intros [o inputs subs]. cbn [visit outer_sources].
  rewrite filter_app, flat_map_app. f_equal.
  - destruct o as [[]| | | | | | |]; cbn; rewrite ?app_nil_r; reflexivity.
  - induction inputs as [|x l IHl]; [reflexivity|]. cbn [flat_map]. rewrite filter_app, flat_map_app. rewrite (IH x). f_equal. exact IHl.
Qed.

(* C39 *)
Lemma hex_digit_value c n : hex_digit c n -> hex_value c = Some n.
Proof.
  unfold hex_digit. do 16 (destruct n as [|n]; [intros [E|E]; vm_compute in E; injection E as <-; vm_compute; reflexivity|]).
  intros [E|E]; vm_compute in E; destruct n; discriminate.
Qed.
Lemma hex_value_digit c n : hex_value c = Some n -> hex_digit c n.
Proof. destruct c as [[] [] [] [] [] [] [] []]; intros E; vm_compute in E; try discriminate; injection E as <-; first [left; vm_compute; reflexivity|right; vm_compute; reflexivity]. Qed.
Lemma encodes_no_dot q s : encodes q s -> before_dot s = s.
Proof.
  induction 1 as [|c q s N1 N2 _ IH|a b x y q s Ha Hb _ IH]; [reflexivity| |].
  - cbn. destruct (Ascii.eqb_spec c dot) as [->|_]; [exfalso; apply N1; reflexivity|]. f_equal. exact IH.
  - cbn. assert (D : forall c z, hex_value c = Some z -> Ascii.eqb c dot = false).
    { intros c z Hc. destruct (Ascii.eqb_spec c dot) as [->|_]; [cbv in Hc; discriminate Hc|reflexivity]. }
    rewrite (D a x (hex_digit_value _ _ Ha)), (D b y (hex_digit_value _ _ Hb)). f_equal. f_equal. f_equal. exact IH.
Qed.
Lemma encodes_decode q s : encodes q s -> percent_decode s = q.
Proof.
  induction 1 as [|c q s N1 N2 _ IH|a b x y q s Ha Hb _ IH]; [reflexivity| |].
  - cbn [percent_decode]. destruct (Ascii.eqb_spec c percent) as [->|_]; [exfalso; apply N2; reflexivity|]. f_equal. exact IH.
  - cbn [percent_decode]. change (Ascii.eqb "%"%char percent) with true. cbv iota. rewrite (hex_digit_value _ _ Ha), (hex_digit_value _ _ Hb), IH. reflexivity.
Qed.
Lemma escape_ok (c : ascii) : exists x y, hex_value (upper_hex (nat_of_ascii c / 16)) = Some x /\ hex_value (upper_hex (nat_of_ascii c mod 16)) = Some y /\
  ascii_of_nat (16 * x + y) = c.
Proof. destruct c as [[] [] [] [] [] [] [] []]; eexists; eexists; (split; [vm_compute; reflexivity|split; vm_compute; reflexivity]). Qed.
Lemma percent_encode_encodes q : encodes q (percent_encode q).
Proof.
  induction q as [|c q IH]; [constructor|]. unfold percent_encode. cbn [flat_map]. fold (percent_encode q).
  destruct (alphanumeric c) eqn:E.
  - constructor; [intros ->; discriminate E|intros ->; discriminate E|exact IH].
  - destruct (escape_ok c) as (x & y & Hx & Hy & Hc). cbn [app]. rewrite <- Hc at 1. apply enc_escape; [apply hex_value_digit; exact Hx|apply hex_value_digit; exact Hy|exact IH].
Qed.
Lemma query_text_path hash utf8 q s : encodes q s -> utf8 q = true -> query_text hash utf8 s None = Some q.
Proof.
  intros E U. unfold query_text. rewrite (encodes_no_dot q s E), (encodes_decode q s E), U. reflexivity.
Qed.
Lemma query_text_suffix hash utf8 q s suffix : encodes q s -> utf8 q = true -> query_text hash utf8 (s ++ dot :: suffix) None = Some q.
Proof.
  intros E U. unfold query_text. assert (B : before_dot (s ++ dot :: suffix) = s).
  { pose proof (encodes_no_dot q s E) as N. revert N. clear. induction s as [|c s IH]; cbn; [reflexivity|].
    destruct (Ascii.eqb c dot); [discriminate|]. intros [= N]. f_equal. exact (IH N). }
  rewrite B, (encodes_decode q s E), U. reflexivity.
Qed.
Lemma query_text_hashed hash utf8 path raw q : query_text hash utf8 path (Some raw) = Some q ->
  percent_decode raw = q /\ before_dot path = hash q.
Proof.
  unfold query_text. destruct (utf8 _); [|discriminate]. destruct (teqb _ _) eqn:E; [|discriminate].
  intros [= <-]. split; [reflexivity|]. apply teqb_eq, E.
Qed.

(* C40 *)
Section Flight.
Context {S : Type}.
Implicit Types es : list (fev S).
Lemma frun_snoc es e : frun (es ++ [e]) = fstep (frun es) e.
Proof. unfold frun. rewrite fold_left_app. reflexivity. Qed.
Lemma query_ids_app es es' : query_ids (es ++ es') = query_ids es ++ query_ids es'.
Proof. unfold query_ids. apply flat_map_app. Qed.
Lemma in_query_ids es id s : In (FQuery id s) es -> In id (query_ids es).
Proof. intros H. apply in_flat_map. exists (FQuery id s). split; [exact H|left; reflexivity]. Qed.
Lemma NoDup_app_l {A} (a b : list A) : NoDup (a ++ b) -> NoDup a.
Proof. induction a as [|x a IH]; intros H; [constructor|]. inversion H; subst. constructor; [intros C; apply H2, in_or_app; left; exact C|apply IH; assumption]. Qed.
Lemma NoDup_app_r_ {A} (a : list A) x : NoDup (a ++ [x]) -> ~ In x a.
Proof. induction a as [|y a IH]; intros H; [intros []|]. inversion H; subst. intros [->|C]; [apply H2, in_or_app; right; left; reflexivity|exact (IH H3 C)]. Qed.
Definition inv es : Prop :=
  (forall id s, results (frun es) id = Some s -> In (FQuery id s) es /\ ~ In id (map fst (delivered (frun es)))) /\
  (forall id s, In (id, s) (delivered (frun es)) -> In (FQuery id s) es) /\
  NoDup (map fst (delivered (frun es))).
Lemma inv_holds es : NoDup (query_ids es) -> inv es.
Proof.
  induction es as [|e es IH] using rev_ind; intros ND.
  - split; [intros id s H; discriminate H|]. split; [intros id s []|constructor].
  - rewrite query_ids_app in ND. specialize (IH (NoDup_app_l _ _ ND)). destruct IH as (I1 & I2 & I3).
    unfold inv. rewrite frun_snoc. destruct e as [id s|id]; cbn [fstep].
    + cbn [results delivered]. cbn [query_ids flat_map app] in ND. apply NoDup_app_r_ in ND.
      split; [|split; [|exact I3]].
      * intros i t. unfold fset. destruct (Nat.eqb_spec i id) as [->|Hne].
        -- intros [= <-]. split; [apply in_or_app; right; left; reflexivity|]. intros C. apply in_map_iff in C as ([i' t'] & <- & C).
           apply ND. exact (in_query_ids _ _ _ (I2 _ _ C)).
        -- intros H. destruct (I1 _ _ H) as [A B]. split; [apply in_or_app; left; exact A|exact B].
      * intros i t H. apply in_or_app. left. exact (I2 _ _ H).
    + destruct (results (frun es) id) as [s|] eqn:E; cbn [results delivered map fst].
      * destruct (I1 _ _ E) as [A B]. split; [|split; [|constructor; assumption]].
        -- intros i t. unfold fset. destruct (Nat.eqb_spec i id) as [->|Hne]; [discriminate|]. intros H.
           destruct (I1 _ _ H) as [A' B']. split; [apply in_or_app; left; exact A'|]. intros [C|C]; [congruence|exact (B' C)].
        -- intros i t [[= <- <-]|H]; apply in_or_app; left; [exact A|exact (I2 _ _ H)].
      * split; [|split; [|exact I3]].
        -- intros i t H. destruct (I1 _ _ H) as [A B]. split; [apply in_or_app; left; exact A|exact B].
        -- intros i t H. apply in_or_app. left. exact (I2 _ _ H).
Qed.
Lemma kept (a : list (fev S)) id s b : NoDup (query_ids (a ++ FQuery id s :: b)) -> ~ In (FFetch id) b -> results (frun (a ++ FQuery id s :: b)) id = Some s.
Proof.
  induction b as [|e b IH] using rev_ind; intros ND NF.
  - rewrite frun_snoc. cbn. unfold fset. rewrite Nat.eqb_refl. reflexivity.
  - rewrite app_comm_cons, app_assoc in *. rewrite frun_snoc. rewrite query_ids_app in ND.
    assert (K : results (frun (a ++ FQuery id s :: b)) id = Some s).
    { apply IH; [exact (NoDup_app_l _ _ ND)|]. intros C. apply NF, in_or_app. left. exact C. }
    destruct e as [i t|i]; cbn [fstep].
    + cbn [results]. unfold fset. destruct (Nat.eqb_spec id i) as [<-|_]; [|exact K]. exfalso.
      cbn [query_ids flat_map app] in ND. apply NoDup_app_r_ in ND. apply ND. apply (in_query_ids _ id s), in_or_app. right. left. reflexivity.
    + assert (Hne : id <> i) by (intros <-; apply NF, in_or_app; right; left; reflexivity).
      destruct (results (frun (a ++ FQuery id s :: b)) i); [|exact K]. cbn [results]. unfold fset.
      destruct (Nat.eqb_spec id i); [contradiction|exact K].
Qed.
End Flight.
