(* C35-C40. Statements are in terms of HttpSpec.v (access, plans, encodings) and the functions of HttpModel.v. *)
From Coq Require Import Ascii String List Arith NArith Bool Lia.
Import ListNotations.
From Verif Require Import HttpModel HttpSpec HttpProofs.
Open Scope list_scope.

(* C35 *)
(* Who is granted what: without a token exactly if the setting is open to everyone; with a token exactly if it is the right one for
   the action, or the write token, or, where the action is open to everyone, the read token. *)
Theorem c35_granted_exactly : forall hash header p a,
  granted hash header p a <->
  (header = None /\ setting p a = Any) \/
  (exists t, presents header t /\
     (right_token hash t (setting p a) \/ right_token hash t (write p) \/ (setting p a = Any /\ right_token hash t (read p)))).
Proof. intros hash header p a. exact (c35_exact_ hash header p a). Qed.
Print Assumptions c35_granted_exactly.

(* Disabled writes are granted to nobody. *)
Theorem c35_write_off : forall hash header p, write p = Off -> ~ granted hash header p Write.
Proof.
  intros hash header p W G. apply c35_granted_exactly in G. cbn [setting] in G. rewrite W in G.
  destruct G as [[_ C]|(t & _ & [(h & C & _)|[(h & C & _)|[C _]]])]; discriminate C.
Qed.
Print Assumptions c35_write_off.

(* With a password as setting and a collision-free hash, access means knowing a configured password. *)
Theorem c35_needs_password : forall hash header p a password,
  (forall x y, hash x = hash y -> x = y) -> setting p a = Password (hash password) ->
  granted hash header p a ->
  presents header password \/ (exists wp, write p = Password (hash wp) /\ presents header wp).
Proof.
  intros hash header p a pw Inj E G. apply c35_granted_exactly in G. rewrite E in G.
  destruct G as [[_ C]|(t & Ht & [(h & C & Hh)|[(h & C & Hh)|[C _]]])]; try discriminate C.
  - injection C as C. rewrite <- C in Hh. apply Inj in Hh. subst t. left. exact Ht.
  - right. exists t. split; [rewrite C, Hh; reflexivity|exact Ht].
Qed.
Print Assumptions c35_needs_password.

(* The right password is accepted, and the write password for reading too, provided it does not itself begin with "Bearer ". *)
Theorem c35_password_accepted : forall hash p a password,
  ~ starts_with_bearer password -> setting p a = Password (hash password) \/ write p = Password (hash password) ->
  granted hash (Some (s_ "Bearer " ++ password)) p a.
Proof.
  intros hash p a pw N E. apply c35_granted_exactly. right. exists pw. split; [exists 0; split; [reflexivity|exact N]|].
  destruct E as [E|E]; [left|right; left]; exists (hash pw); (split; [exact E|reflexivity]).
Qed.
Print Assumptions c35_password_accepted.

(* Refuted without the proviso: a password beginning with "Bearer " never opens anything. *)
Theorem c35_bearer_password_refuted : forall hash header p password,
  (forall x y, hash x = hash y -> x = y) -> write p = Password (hash (s_ "Bearer " ++ password)) ->
  ~ granted hash header p Write.
Proof.
  intros hash header p pw Inj E G. destruct (c35_needs_password hash header p Write (s_ "Bearer " ++ pw) Inj E G) as [(k & _ & N)|(wp & W & (k & _ & N))].
  - apply N. exists pw. reflexivity.
  - apply N. rewrite E in W. injection W as W. apply Inj in W. exists pw. symmetry. exact W.
Qed.
Print Assumptions c35_bearer_password_refuted.

(* A wrong token is refused even what would be granted without a token; so is anything but a bearer token. *)
Theorem c35_wrong_token_refused : forall hash header p a,
  header <> None -> (forall t, presents header t -> ~ right_token hash t (read p) /\ ~ right_token hash t (write p)) ->
  ~ granted hash header p a.
Proof.
  intros hash header p a N H G. apply c35_granted_exactly in G. destruct G as [[C _]|(t & Ht & G)]; [contradiction|].
  destruct (H t Ht) as [H1 H2]. destruct G as [G|[G|[_ G]]]; [|exact (H2 G)|exact (H1 G)].
  destruct a; cbn [setting] in G; [exact (H1 G)|exact (H2 G)].
Qed.
Print Assumptions c35_wrong_token_refused.

Definition ex_policy : policy := {| read := Any; write := Password (s_ "#secret") |}.
Definition ex_hash (t : text) : text := "#"%char :: t.
Example c35_ex_inj : forall x y, ex_hash x = ex_hash y -> x = y.
Proof. intros x y [= ->]. reflexivity. Qed.
Example c35_ex_none : granted ex_hash None ex_policy Read /\ ~ granted ex_hash None ex_policy Write.
Proof.
  split; [exists Anonymous; split; reflexivity|]. intros (pr & H & C). cbn in H. inversion H; subst. discriminate C.
Qed.
Example c35_ex_token : granted ex_hash (Some (s_ "Bearer secret")) ex_policy Write.
Proof. exists Writer. split; reflexivity. Qed.
Example c35_ex_wrong : header_to_principal ex_hash (Some (s_ "Bearer public")) ex_policy = Err WrongAccessToken /\
  header_to_principal ex_hash (Some (s_ "Basic secret")) ex_policy = Err InvalidAuthorizationHeader.
Proof. split; reflexivity. Qed.
Example c35_ex_bearer : header_to_principal ex_hash (Some (s_ "Bearer Bearer x"))
    {| read := Off; write := Password (ex_hash (s_ "Bearer x")) |} = Err WrongAccessToken.
Proof. reflexivity. Qed.

(* C36 *)
(* Without write access nothing is changed over POST, whatever the statements, unless one of them is SELECT ... INTO or
   EXPLAIN ANALYZE INSERT. Part of C36: those two kinds are excluded. *)
Theorem c36_no_writes_partial : forall hash header p r,
  ~ granted hash header p Write ->
  (forall ss ok, r = RPost ss ok -> forall s, In s ss -> ~ hidden_write s) ->
  (forall plan, r = RGet plan -> sql_plan plan) ->
  writes hash header p r = false.
Proof.
  intros hash header p r N H G. destruct r as [plan|ss ok|].
  - exact (c37_ hash header p plan (G plan eq_refl)).
  - exact (c36_post hash header p ss ok N (H ss ok eq_refl)).
  - exact (c36_upload hash header p N).
Qed.
Print Assumptions c36_no_writes_partial.

(* Refuted for those two: on every server open for reading and closed for writing, an anonymous request can write with them. *)
Theorem c36_hidden_writes_refuted : forall hash p s ok,
  read p = Any -> write p <> Any -> hidden_write s ->
  ~ granted hash None p Write /\ writes hash None p (RPost [s] ok) = true.
Proof.
  intros hash p s ok R W Hs. split.
  - intros G. apply c35_granted_exactly in G. destruct G as [[_ C]|(t & (k & C & _) & _)]; [exact (W C)|discriminate C].
  - assert (A : header_to_principal hash None p = Ok Anonymous).
    { cbn. unfold token_to_principal. rewrite R. destruct (write p); reflexivity. }
    unfold writes. rewrite A. unfold post_query. destruct Hs as [->| ->]; cbn [filter is_statement_read_only List.length Nat.eqb];
      unfold can_perform_action; rewrite R; cbn; destruct (ok 0); reflexivity.
Qed.
Print Assumptions c36_hidden_writes_refuted.

(* Statements are carried out in order up to the first failure: the j-th is carried out exactly if all before it succeed. *)
Theorem c36_in_order : forall pr p ss ok done, post_query pr p ss ok = Some done ->
  forall j s, nth_error done j = Some s <-> nth_error ss j = Some s /\ (forall k, k < j -> ok k = true).
Proof.
  intros pr p ss ok done Q j s. destruct (post_query_some _ _ _ _ _ Q) as (-> & _). exact (run_exact ok ss 0 j s).
Qed.
Print Assumptions c36_in_order.

(* A request that is carried out has at most one read, and then as its last statement, whose result is the reply. *)
Theorem c36_read_is_last : forall pr p ss ok done, post_query pr p ss ok = Some done ->
  forall i s, nth_error ss i = Some s -> is_statement_read_only s = true -> S i = List.length ss.
Proof.
  intros pr p ss ok done Q i s Hi R. destruct (post_query_some _ _ _ _ _ Q) as (_ & _ & L & La). clear Q.
  assert (Ex : ss <> []) by (intros ->; destruct i; discriminate Hi).
  destruct (exists_last Ex) as (l & x & ->). rewrite app_length. cbn [List.length].
  assert (Hlt : i < List.length (l ++ [x])) by (apply nth_error_Some; rewrite Hi; discriminate).
  rewrite app_length in Hlt. cbn [List.length] in Hlt.
  destruct (Nat.eq_dec i (List.length l)) as [->|Ne]; [lia|]. exfalso.
  rewrite nth_error_app1 in Hi by lia. rewrite filter_app, app_length in L, La.
  assert (P : 1 <= List.length (filter is_statement_read_only l)).
  { assert (F : In s (filter is_statement_read_only l)) by (apply filter_In; split; [exact (nth_error_In _ _ Hi)|exact R]).
    destruct (filter is_statement_read_only l); [destruct F|cbn; lia]. }
  rewrite last_last in La. cbn [filter] in L, La. destruct (is_statement_read_only x) eqn:Ex'; cbn [List.length] in L, La; [lia|].
  discriminate La. lia.
Qed.
Print Assumptions c36_read_is_last.

Example c36_ex_refused : post_query Anonymous ex_policy [SQuery false; SInsert] (fun _ => true) = None /\
  post_query Writer ex_policy [SQuery false; SInsert] (fun _ => true) = None /\
  post_query Writer ex_policy [SInsert; SOther; SQuery false] (fun i => negb (Nat.eqb i 1)) = Some [SInsert; SOther].
Proof. repeat split; reflexivity. Qed.
Example c36_ex_hyp : ~ granted ex_hash None ex_policy Write /\ writes ex_hash None ex_policy (RPost [SExplain false SInsert] (fun _ => true)) = false
  /\ writes ex_hash (Some (s_ "Bearer secret")) ex_policy (RPost [SInsert] (fun _ => true)) = true.
Proof. split; [exact (proj2 c35_ex_none)|split; reflexivity]. Qed.
Example c36_ex_hidden : writes ex_hash None ex_policy (RPost [SQuery true] (fun _ => true)) = true.
Proof. reflexivity. Qed.

(* C37 *)
Theorem c37_get_never_writes : forall hash header p plan, sql_plan plan -> writes hash header p (RGet plan) = false.
Proof. intros hash header p plan H. exact (c37_ hash header p plan H). Qed.
Print Assumptions c37_get_never_writes.
(* Plans with a write at the top are refused with an error. *)
Theorem c37_get_plan_refused : forall H hash eq inm o inputs subs,
  o = ODml \/ o = ODdl \/ o = OExtension \/ o = OCopy \/ o = OAnalyze ->
  get_reply H hash eq inm (Node o inputs subs) = Refused H.
Proof. intros H hash eq inm o inputs subs [->|[->|[->|[->| ->]]]]; reflexivity. Qed.
Print Assumptions c37_get_plan_refused.

Definition ex_scan v : plan := Node (OScan (Delta [104; 105]%N v)) [] [].
Definition ex_insert : plan := Node ODml [ex_scan 3] [].
Example c37_ex_plans : sql_plan ex_insert /\ sql_plan (Node OExplain [ex_insert] []) /\ sql_plan (Node OAnalyze [ex_insert] []) /\
  sql_plan (Node ODdl [ex_scan 1] []) /\ runs_write (Node OAnalyze [ex_insert] []) = true /\ is_read_only (Node OExplain [ex_insert] []) = true.
Proof.
  assert (S : forall v, no_dml (ex_scan v)) by (intros v; constructor; [discriminate|discriminate|constructor|constructor]).
  assert (D : sql_plan ex_insert) by (apply sp_dml; [left; reflexivity|constructor; [apply S|constructor]]).
  split; [exact D|]. split; [apply sp_explain; [left; reflexivity|constructor; [exact D|constructor]]|].
  split; [apply sp_explain; [right; reflexivity|constructor; [exact D|constructor]]|].
  split; [apply sp_query; constructor; [discriminate|discriminate|constructor; [apply S|constructor]|constructor]|].
  split; reflexivity.
Qed.

(* C38 *)
(* Equal ETags mean the same tables at the same versions, for plans without subqueries in expressions that read Delta tables only
   (at locations without zero bytes, versions below 2^32). Part of C38: other plans are excluded. *)
Theorem c38_etag_versions_partial : forall (H : Type) (hash : list N -> H) p1 p2,
  (forall a b, hash a = hash b -> a = b) ->
  no_subqueries p1 -> no_subqueries p2 -> Forall plain_delta (sources p1) -> Forall plain_delta (sources p2) ->
  plan_to_etag H hash p1 = plan_to_etag H hash p2 -> sources p1 = sources p2.
Proof. intros H hash p1 p2. exact (c38_ hash p1 p2). Qed.
Print Assumptions c38_etag_versions_partial.

(* A 304 reply to the ETag of an earlier reply is justified under the same restriction. *)
Theorem c38_not_modified_partial : forall (H : Type) (hash : list N -> H) eq p1 p2,
  (forall a b, hash a = hash b -> a = b) -> (forall a b, eq a b = true -> a = b) ->
  no_subqueries p1 -> no_subqueries p2 -> Forall plain_delta (sources p1) -> Forall plain_delta (sources p2) ->
  get_reply H hash eq (Some (plan_to_etag H hash p1)) p2 = NotModified H -> sources p2 = sources p1.
Proof.
  intros H hash eq p1 p2 Inj Eq N1 N2 F1 F2 E. unfold get_reply in E. destruct (is_read_only p2); [|discriminate E]. cbn [negb] in E.
  destruct (eq (plan_to_etag H hash p2) (plan_to_etag H hash p1)) eqn:E'; [|discriminate E]. apply Eq in E'.
  exact (c38_ hash p2 p1 Inj N2 N1 F2 F1 E').
Qed.
Print Assumptions c38_not_modified_partial.

(* And conversely an unchanged set of versions gives the same ETag, so an unchanged result is not sent again. *)
Theorem c38_same_versions_same_etag : forall (H : Type) (hash : list N -> H) p1 p2,
  no_subqueries p1 -> no_subqueries p2 -> sources p1 = sources p2 -> plan_to_etag H hash p1 = plan_to_etag H hash p2.
Proof.
  intros H hash p1 p2 N1 N2 E. unfold plan_to_etag. rewrite (visit_sources p1 N1), (visit_sources p2 N2), E. reflexivity.
Qed.
Print Assumptions c38_same_versions_same_etag.

(* Refuted in general: tables read in subqueries do not count, ... *)
Theorem c38_subqueries_refuted : forall (H : Type) (hash : list N -> H) eq o inputs subs1 subs2,
  (forall a, eq a a = true) -> is_read_only (Node o inputs []) = true ->
  get_reply H hash eq (Some (plan_to_etag H hash (Node o inputs subs1))) (Node o inputs subs2) = NotModified H.
Proof.
  intros H hash eq o inputs subs1 subs2 R Ro. unfold get_reply.
  assert (Ro2 : is_read_only (Node o inputs subs2) = true) by (destruct o; try discriminate Ro; reflexivity).
  rewrite Ro2. cbn [negb]. change (plan_to_etag H hash (Node o inputs subs2)) with (plan_to_etag H hash (Node o inputs subs1)).
  rewrite R. reflexivity.
Qed.
Print Assumptions c38_subqueries_refuted.
(* ... nor do tables that are not Delta tables, whatever their state. *)
Theorem c38_other_tables_refuted : forall (H : Type) (hash : list N -> H) eq k id st1 st2,
  (forall a, eq a a = true) ->
  get_reply H hash eq (Some (plan_to_etag H hash (Node (ORel k) [Node (OScan (OtherTable id st1)) [] []] [])))
    (Node (ORel k) [Node (OScan (OtherTable id st2)) [] []] []) = NotModified H.
Proof.
  intros H hash eq k id st1 st2 R. unfold get_reply. cbn [is_read_only negb]. unfold plan_to_etag. cbn. rewrite R. reflexivity.
Qed.
Print Assumptions c38_other_tables_refuted.

Example c38_ex : forall v, (v < 2 ^ 32)%N ->
  no_subqueries (Node (ORel 0) [ex_scan v; ex_scan 7] []) /\ Forall plain_delta (sources (Node (ORel 0) [ex_scan v; ex_scan 7] [])).
Proof.
  intros v Hv. split.
  - constructor. constructor; [constructor; constructor|]. constructor; [constructor; constructor|constructor].
  - assert (P : forall w, (w < 2 ^ 32)%N -> plain_delta (Delta [104; 105]%N w)).
    { intros w Hw. exists [104; 105]%N, w. split; [reflexivity|]. split; [discriminate|]. split; [repeat constructor; discriminate|exact Hw]. }
    cbn. constructor; [apply P, Hv|]. constructor; [apply P; reflexivity|constructor].
Qed.
Example c38_ex_id : plan_to_etag (list N) (fun x => x) (ex_scan 258) = [104; 105; 2; 1; 0; 0; 0; 0; 0; 0]%N.
Proof. reflexivity. Qed.

(* C39 *)
(* A query encoded into the path with every byte but ASCII letters and digits escaped is executed verbatim, ... *)
Theorem c39_round_trip : forall hash utf8 q, utf8 q = true -> query_text hash utf8 (percent_encode q) None = Some q.
Proof. intros hash utf8 q U. exact (query_text_path hash utf8 q _ (percent_encode_encodes q) U). Qed.
Print Assumptions c39_round_trip.
(* ... also with a file extension appended for the sake of caches, and with any encoding that escapes at least '%' and '.'. *)
Theorem c39_round_trip_any : forall hash utf8 q s suffix, utf8 q = true -> encodes q s ->
  query_text hash utf8 s None = Some q /\ query_text hash utf8 (s ++ "."%char :: suffix) None = Some q.
Proof.
  intros hash utf8 q s suffix U E. split; [exact (query_text_path hash utf8 q s E U)|exact (query_text_suffix hash utf8 q s suffix E U)].
Qed.
Print Assumptions c39_round_trip_any.
(* Refuted for encodings that leave '.' alone: the query is silently cut there. *)
Theorem c39_dot_refuted : forall hash utf8 q r, utf8 q = true -> ~ In "."%char q -> ~ In "%"%char q ->
  query_text hash utf8 (q ++ "."%char :: r) None = Some q.
Proof.
  intros hash utf8 q r U D P. apply (query_text_suffix hash utf8 q q r); [|exact U].
  clear U. induction q as [|c q IH]; [constructor|]. constructor.
  - intros ->. apply D. left. reflexivity.
  - intros ->. apply P. left. reflexivity.
  - apply IH; intros C; [apply D|apply P]; right; exact C.
Qed.
Print Assumptions c39_dot_refuted.
(* With the query in the header or body, only the query whose hash is in the path is executed: two requests with the same path that
   are carried out execute the same query. *)
Theorem c39_hash_determines_query : forall hash utf8 path raw1 raw2 q1 q2,
  (forall x y, hash x = hash y -> x = y) ->
  query_text hash utf8 path (Some raw1) = Some q1 -> query_text hash utf8 path (Some raw2) = Some q2 -> q1 = q2.
Proof.
  intros hash utf8 path raw1 raw2 q1 q2 Inj H1 H2. apply query_text_hashed in H1 as [_ H1]. apply query_text_hashed in H2 as [_ H2].
  apply Inj. rewrite <- H1, <- H2. reflexivity.
Qed.
Print Assumptions c39_hash_determines_query.
Theorem c39_hash_accepts : forall hash utf8 q raw, utf8 q = true -> ~ In "."%char (hash q) -> percent_decode raw = q ->
  query_text hash utf8 (hash q) (Some raw) = Some q.
Proof.
  intros hash utf8 q raw U D E. unfold query_text. rewrite E, U.
  assert (B : before_dot (hash q) = hash q).
  { revert D. generalize (hash q). intros l. induction l as [|c l IH]; intros D; [reflexivity|]. cbn.
    destruct (Ascii.eqb_spec c dot) as [->|_]; [exfalso; apply D; left; reflexivity|]. f_equal. apply IH. intros C. apply D. right. exact C. }
  rewrite B. destruct (teqb (hash q) (hash q)) eqn:T; [reflexivity|]. exfalso.
  assert (T' : teqb (hash q) (hash q) = true) by (apply teqb_eq; reflexivity). congruence.
Qed.
Print Assumptions c39_hash_accepts.

Example c39_ex : percent_encode (s_ "SELECT 1.5") = s_ "SELECT%201%2E5" /\
  query_text ex_hash (fun _ => true) (s_ "SELECT%201%2E5.csv") None = Some (s_ "SELECT 1.5") /\
  query_text ex_hash (fun _ => true) (s_ "SELECT%201.5") None = Some (s_ "SELECT 1") /\
  query_text ex_hash (fun _ => true) (s_ "#SELECT 1") (Some (s_ "SELECT 2")) = None.
Proof. repeat split; reflexivity. Qed.

(* C40 *)
(* Tickets are fresh identifiers: no identifier is given to two queries. *)
Theorem c40_at_most_once : forall S (es : list (fev S)), NoDup (query_ids es) -> NoDup (map fst (delivered (frun es))).
Proof. intros S es ND. exact (proj2 (proj2 (inv_holds es ND))). Qed.
Print Assumptions c40_at_most_once.
Theorem c40_own_stream : forall S (es : list (fev S)) id s, NoDup (query_ids es) -> In (id, s) (delivered (frun es)) -> In (FQuery id s) es.
Proof. intros S es id s ND. exact (proj1 (proj2 (inv_holds es ND)) id s). Qed.
Print Assumptions c40_own_stream.
(* The first fetch after the query gets its stream, whatever happened before and in between. *)
Theorem c40_first_fetch : forall S (a b : list (fev S)) id s, NoDup (query_ids (a ++ FQuery id s :: b)) -> ~ In (FFetch id) b ->
  delivered (frun ((a ++ FQuery id s :: b) ++ [FFetch id])) = (id, s) :: delivered (frun (a ++ FQuery id s :: b)).
Proof. intros S a b id s ND NF. rewrite frun_snoc. cbn [fstep]. rewrite (kept a id s b ND NF). reflexivity. Qed.
Print Assumptions c40_first_fetch.
(* Any later fetch, or one of an unknown ticket, gets nothing. *)
Theorem c40_later_fetch : forall S (es : list (fev S)) id, NoDup (query_ids es) ->
  In id (map fst (delivered (frun es))) \/ ~ In id (query_ids es) ->
  delivered (frun (es ++ [FFetch id])) = delivered (frun es).
Proof.
  intros S es id ND H. rewrite frun_snoc. cbn [fstep]. destruct (results (frun es) id) as [s|] eqn:E; [|reflexivity]. exfalso.
  destruct (proj1 (inv_holds es ND) id s E) as [Q N]. destruct H as [H|H]; [exact (N H)|exact (H (in_query_ids _ _ _ Q))].
Qed.
Print Assumptions c40_later_fetch.
Example c40_ex : let es := [FQuery 1 "a"%string; FFetch 2; FQuery 2 "b"%string; FFetch 2; FFetch 2; FFetch 1] in
  NoDup (query_ids es) /\ delivered (frun es) = [(1, "a"%string); (2, "b"%string)].
Proof. split; [repeat constructor; cbn; intuition discriminate|reflexivity]. Qed.
