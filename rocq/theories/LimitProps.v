(* C162, C163: the limits of the configuration on the memory of queries and on the size of uploads.
   LimitSpec.v says what the properties mean, LimitModel.v (with PoolModel.v and CountModel.v) is the code. *)
From Coq Require Import Ascii String List NArith ZArith Bool Lia.
From Verif Require Import PoolModel LimitModel LimitSpec.
From Verif Require RespModel RespSpec RespProps HttpModel CountModel CountProps.
Import ListNotations.
Open Scope Z_scope.

(* ---- rounding ---- *)
Lemma size_bounds x : (53 < N.size x)%N -> (2 ^ (N.size x - 53) * 2 ^ 52 <= x)%N.
Proof.
  intros G. pose proof (N.size_le x) as L. rewrite <- N.pow_add_r. replace (N.size x - 53 + 52)%N with (N.size x - 1)%N by lia.
  assert (E : (2 ^ N.size x = 2 * 2 ^ (N.size x - 1))%N) by (rewrite <- N.pow_succ_r'; f_equal; lia).
  rewrite E in L. destruct x as [|p]; cbn [N.succ_double] in L; lia.
Qed.
Lemma round53_close x : (2 ^ 53 * round53 x <= 2 ^ 53 * x + x)%N /\ (2 ^ 53 * x <= 2 ^ 53 * round53 x + x)%N.
Proof.
  unfold round53. set (u := (2 ^ (N.size x - 53))%N).
  assert (U : (u <> 0)%N) by (apply N.pow_nonzero; discriminate).
  pose proof (N.div_mod x u U) as D. pose proof (N.mod_lt x u U) as R. set (q := (x / u)%N) in *. set (r := (x mod u)%N) in *.
  assert (S : (u = 1 \/ u * 2 ^ 52 <= x)%N).
  { destruct (N.le_gt_cases (N.size x) 53) as [K|K]; [left; unfold u; replace (N.size x - 53)%N with 0%N by lia; reflexivity|right; apply size_bounds; exact K]. }
  clearbody u q r. change (2 ^ 53)%N with (2 * 2 ^ 52)%N. change (2 ^ 52)%N with 4503599627370496%N in *.
  destruct S as [->|S].
  - assert (r = 0)%N by lia. subst r. change (1 <? 2 * 0)%N with false. change (1 =? 2 * 0)%N with false. cbn [orb andb]. lia.
  - destruct ((u <? 2 * r)%N || ((u =? 2 * r)%N && N.odd q))%bool eqn:T.
    + assert (u <= 2 * r)%N by (apply orb_true_iff in T as [T|T]; [apply N.ltb_lt in T; lia|apply andb_true_iff in T as [T _]; apply N.eqb_eq in T; lia]).
      rewrite N.mul_add_distr_r. lia.
    + apply orb_false_iff in T as [T _]. apply N.ltb_ge in T. lia.
Qed.
Lemma round53_exact m : (m < 2 ^ 44)%N -> round53 (m * mebibytes) = (m * mebibytes)%N.
Proof.
  intros B. unfold round53. set (x := (m * mebibytes)%N). set (s := (N.size x - 53)%N).
  assert (L : (s <= 20)%N).
  { unfold s. destruct (N.eq_dec x 0) as [->|NZ]; [vm_compute; discriminate|].
    assert (H : (x < 2 ^ 64)%N) by (unfold x, mebibytes; change (2 ^ 64)%N with (2 ^ 44 * (1024 * 1024))%N; lia).
    rewrite (N.size_log2 x NZ). apply N.log2_lt_pow2 in H; lia. }
  assert (M : (x mod 2 ^ s = 0)%N).
  { unfold x, mebibytes. apply N.mod_divide; [apply N.pow_nonzero; discriminate|]. exists (m * 2 ^ (20 - s))%N.
    rewrite <- N.mul_assoc, <- N.pow_add_r. replace (20 - s + s)%N with 20%N by lia. reflexivity. }
  assert (U : (2 ^ s <> 0)%N) by (apply N.pow_nonzero; discriminate).
  pose proof (N.div_mod x (2 ^ s) U) as D. rewrite M in *. change (2 * 0)%N with 0%N.
  replace (2 ^ s <? 0)%N with false by (symmetry; apply N.ltb_ge; lia). replace (2 ^ s =? 0)%N with false by (symmetry; apply N.eqb_neq; exact U). cbn [orb andb]. lia.
Qed.
Lemma scaled_small checked m : (m < 2 ^ 44)%N -> scaled checked m = Some (m * mebibytes)%N.
Proof.
  intros B. unfold scaled. assert (H : (m * mebibytes < u64_size)%N) by (unfold u64_size, mebibytes; change (2 ^ 64)%N with (2 ^ 44 * (1024 * 1024))%N; lia).
  replace (u64_size <=? m * mebibytes)%N with false by (symmetry; apply N.leb_gt; exact H). rewrite andb_false_r, N.mod_small by exact H. reflexivity.
Qed.
Lemma pool_close checked m : (m < 2 ^ 29)%N -> exists p, pool_size checked m = Some p /\ seventy_percent (Z.of_N p) (mebibytes_of m).
Proof.
  intros B. unfold pool_size. rewrite scaled_small by (change (2 ^ 44)%N with (2 ^ 29 * 2 ^ 15)%N; lia). eexists. split; [reflexivity|].
  rewrite round53_exact by (change (2 ^ 44)%N with (2 ^ 29 * 2 ^ 15)%N; lia). pose proof (round53_close (m * mebibytes * memory_fraction)) as [A C].
  set (y := round53 _) in *. assert (P : (2 ^ 53 <> 0)%N) by discriminate. pose proof (N.div_mod y (2 ^ 53) P) as D. pose proof (N.mod_lt y (2 ^ 53) P) as R.
  set (p := (y / 2 ^ 53)%N) in *. set (r := (y mod 2 ^ 53)%N) in *. clearbody y p r. unfold mebibytes, memory_fraction in *. change (1024 * 1024)%N with 1048576%N in *.
  change (2 ^ 53)%N with 9007199254740992%N in *. change (2 ^ 29)%N with 536870912%N in B. unfold seventy_percent, mebibytes_of.
  assert (E : 7 * (Z.of_N m * 1048576) - 10 <= 10 * Z.of_N p <= 7 * (Z.of_N m * 1048576)) by lia.
  rewrite N.min_l; [exact E|]. change (u64_size - 1)%N with 18446744073709551615%N. lia.
Qed.

(* ---- the pool ---- *)
Lemma reserved_app l l' : reserved (l ++ l') = reserved l + reserved l'.
Proof. induction l as [|a l IH]; cbn [reserved fold_right app]; [reflexivity|]. fold (reserved (l ++ l')) (reserved l). lia. Qed.
Lemma unasked_app l l' : unasked (l ++ l') = unasked l + unasked l'.
Proof. induction l as [|a l IH]; cbn [unasked fold_right app]; [reflexivity|]. fold (unasked (l ++ l')) (unasked l). lia. Qed.
Lemma count_keeps t s rest : used (count t s rest) = used s /\ answers (count t s rest) = answers s.
Proof. unfold count. destruct (what (tcall t)); split; reflexivity. Qed.
Lemma used_reserved p s e : used s = reserved (answers s) -> used (step p s e) = reserved (answers (step p s e)).
Proof.
  intros H. destruct e as [c|i]; cbn [step].
  - unfold inner_call. destruct c as [[ | | ] n z]; cbn [what size].
    + cbn [used answers]. rewrite reserved_app, H. cbn. lia.
    + destruct p as [limit|]; [destruct (used s + z <=? limit)|]; cbn [used answers]; rewrite reserved_app, H; cbn; lia.
    + cbn [used answers]. rewrite reserved_app, H. cbn. lia.
  - destruct (nth_error (tasks s) i) as [t|]; [|exact H]. destruct (at_stage t); try exact H. destruct (count_keeps t s (firstn i (tasks s) ++ skipn (S i) (tasks s))) as [-> ->]. exact H.
Qed.
Lemma run_snoc p l e : run p (l ++ [e]) = step p (run p l) e.
Proof. unfold run. rewrite fold_left_app. reflexivity. Qed.
Lemma run_reserved p l : used (run p l) = reserved (answers (run p l)).
Proof. induction l as [|e l IH] using rev_ind; [reflexivity|]. rewrite run_snoc. apply used_reserved, IH. Qed.
Lemma run_bounded limit l : 0 <= limit -> sizes l -> 0 <= unasked (answers (run (Greedy limit) l)) /\ used (run (Greedy limit) l) <= limit + unasked (answers (run (Greedy limit) l)).
Proof.
  intros L. induction l as [|e l IH] using rev_ind; intros Z; [cbn; lia|].
  assert (Z' : sizes l) by (intros c I; apply Z, in_or_app; left; exact I). specialize (IH Z'). rewrite run_snoc. set (s := run (Greedy limit) l) in *. clearbody s.
  destruct e as [c|i]; cbn [step].
  - assert (P : 0 <= size c) by (apply Z, in_or_app; right; left; reflexivity). unfold inner_call. destruct c as [[ | | ] n z]; cbn [what size] in *.
    + cbn [used answers]. rewrite unasked_app. cbn. lia.
    + destruct (used s + z <=? limit) eqn:Q; cbn [used answers]; rewrite unasked_app; cbn; [apply Z.leb_le in Q|]; lia.
    + cbn [used answers]. rewrite unasked_app. cbn. lia.
  - destruct (nth_error (tasks s) i) as [t|]; [|exact IH]. destruct (at_stage t); try exact IH. destruct (count_keeps t s (firstn i (tasks s) ++ skipn (S i) (tasks s))) as [-> ->]. exact IH.
Qed.
Lemma built checked m : (m < 2 ^ 29)%N -> exists p, build_pool checked (Some m) = Some (Greedy p) /\ seventy_percent p (mebibytes_of m) /\ 0 <= p.
Proof. intros B. destruct (pool_close checked m B) as (p & E & S). exists (Z.of_N p). cbn [build_pool]. rewrite E. split; [reflexivity|]. split; [exact S|lia]. Qed.

(* C162, for limits below 2^29 megabytes: whatever operators do, in whatever order, they never hold more than seven tenths of the configured
   memory, apart from what they take without asking *)
Theorem c162_limit_partial : forall checked m l pool, (m < 2 ^ 29)%N -> build_pool checked (Some m) = Some pool -> sizes l ->
  10 * reserved (answers (run pool l)) <= 7 * mebibytes_of m + 10 * unasked (answers (run pool l)).
Proof.
  intros checked m l pool B E S. destruct (built checked m B) as (p & E' & [_ H] & P). rewrite E in E'. injection E' as ->.
  pose proof (run_bounded p l P S) as [_ R]. rewrite run_reserved in R. lia.
Qed.
(* and a request that fits in seven tenths of the memory, less a byte, is granted *)
Theorem c162_granted : forall checked m l pool c, (m < 2 ^ 29)%N -> build_pool checked (Some m) = Some pool -> what c = TryGrow ->
  10 * (reserved (answers (run pool l)) + size c) + 10 <= 7 * mebibytes_of m -> answers (run pool (l ++ [Begin c])) = answers (run pool l) ++ [(c, true)].
Proof.
  intros checked m l pool c B E W F. destruct (built checked m B) as (p & E' & [H _] & P). rewrite E in E'. injection E' as ->.
  rewrite run_snoc. rewrite <- run_reserved in F. cbn [step]. unfold inner_call. rewrite W. replace (used (run (Greedy p) l) + size c <=? p) with true by (symmetry; apply Z.leb_le; lia). reflexivity.
Qed.
(* Without a limit every request is granted *)
Theorem c162_unlimited : forall checked, exists pool, build_pool checked None = Some pool /\ forall l, Forall (fun a => snd a = true) (answers (run pool l)).
Proof.
  intros checked. exists Unbounded. split; [reflexivity|]. induction l as [|e l IH] using rev_ind; [constructor|]. rewrite run_snoc. set (s := run Unbounded l) in *. clearbody s.
  destruct e as [c|i]; cbn [step].
  - unfold inner_call. destruct c as [[ | | ] n z]; cbn [what size answers]; apply Forall_app; (split; [exact IH|constructor; [reflexivity|constructor]]).
  - destruct (nth_error (tasks s) i) as [t|]; [|exact IH]. destruct (at_stage t); try exact IH. destruct (count_keeps t s (firstn i (tasks s) ++ skipn (S i) (tasks s))) as [_ ->]. exact IH.
Qed.
(* No limit is kept by operators that take memory without asking *)
Theorem c162_unasked_refuted : forall checked m pool, build_pool checked (Some m) = Some pool ->
  exists l, sizes l /\ 10 * reserved (answers (run pool l)) > 7 * mebibytes_of m.
Proof.
  intros checked m pool _. exists [Begin {| what := Grow; consumer := "sort"%string; size := 7 * mebibytes_of m + 1 |}].
  assert (H : 0 <= mebibytes_of m) by (unfold mebibytes_of; lia). remember (7 * mebibytes_of m + 1) as n eqn:N. split.
  - intros c [E|[]]. injection E as <-. cbn [size]. lia.
  - cbn -[Z.mul Z.add]. lia.
Qed.
(* A limit of 2^44 megabytes and more: debug builds do not start, release builds use the remainder as the limit *)
Theorem c162_overflow_refuted : forall m k, (k < 2 ^ 20)%N -> (1 <= k)%N ->
  build_pool true (Some (m + k * 2 ^ 44)%N) = None /\ build_pool false (Some (m + k * 2 ^ 44)%N) = build_pool false (Some m).
Proof.
  intros m k _ K. assert (E : ((m + k * 2 ^ 44) * mebibytes = m * mebibytes + k * u64_size)%N) by (unfold mebibytes, u64_size; change (2 ^ 64)%N with (2 ^ 44 * (1024 * 1024))%N; lia).
  cbn [build_pool]. unfold pool_size, scaled. rewrite E. split.
  - replace (u64_size <=? m * mebibytes + k * u64_size)%N with true by (symmetry; apply N.leb_le; unfold u64_size; lia). reflexivity.
  - cbn [andb]. rewrite N.mod_add by discriminate. reflexivity.
Qed.
(* With a limit of exactly 2^44 megabytes (or a multiple) a release build refuses every query that asks for memory *)
Theorem c162_none_refuted : forall k c, what c = TryGrow -> 0 < size c ->
  exists pool, build_pool false (Some (k * 2 ^ 44)%N) = Some pool /\ answers (run pool [Begin c]) = [(c, false)].
Proof.
  intros k c W P. exists (Greedy 0). split.
  - cbn [build_pool]. unfold pool_size, scaled. replace (k * 2 ^ 44 * mebibytes)%N with (k * u64_size)%N by (unfold mebibytes, u64_size; change (2 ^ 64)%N with (2 ^ 44 * (1024 * 1024))%N; lia).
    cbn [andb]. rewrite N.mod_mul by discriminate. reflexivity.
  - cbn [run fold_left step inner_call]. unfold inner_call. rewrite W. replace (used init + size c <=? 0) with false by (symmetry; apply Z.leb_gt; cbn [used init]; lia). reflexivity.
Qed.

(* ---- uploads ---- *)
Lemma path_route p : upload_path p -> exists d s t, RespModel.request RespModel.Post p = RespModel.Upload d s t.
Proof.
  intros [s t [S1 S2] [T1 T2]|d s t [D1 D2] [S1 S2] [T1 T2]].
  - exists RespModel.default_db, s, t.
    assert (E : (list_ascii_of_string "/upload/" ++ s ++ "/"%char :: t)%list = RespSpec.path_of [RespModel.s_ "upload"; s; t]) by (unfold RespSpec.path_of; cbn [flat_map]; rewrite app_nil_r; reflexivity).
    rewrite E, RespProps.request_path.
    + cbn [RespModel.match_route]. change (RespModel.is "upload" (RespModel.s_ "upload")) with true. destruct s as [|a s]; [contradiction|]. destruct t as [|b t]; [contradiction|]. reflexivity.
    + constructor; [|constructor; [exact S2|constructor; [exact T2|constructor]]]. vm_compute. intuition discriminate.
  - exists d, s, t.
    assert (E : ("/"%char :: d ++ list_ascii_of_string "/upload/" ++ s ++ "/"%char :: t)%list = RespSpec.path_of [d; RespModel.s_ "upload"; s; t]) by (unfold RespSpec.path_of; cbn [flat_map]; rewrite app_nil_r; reflexivity).
    rewrite E, RespProps.request_path.
    + cbn [RespModel.match_route]. change (RespModel.is "upload" (RespModel.s_ "upload")) with true. destruct d as [|x d]; [contradiction|]. destruct s as [|a s]; [contradiction|]. destruct t as [|b t]; [contradiction|]. reflexivity.
    + constructor; [exact D2|]. constructor; [|constructor; [exact S2|constructor; [exact T2|constructor]]]. vm_compute. intuition discriminate.
Qed.
Lemma teqb_refl t : HttpModel.teqb t t = true.
Proof. induction t as [|a t IH]; [reflexivity|]. cbn. rewrite Ascii.eqb_refl. exact IH. Qed.
Lemma strip_app p s : HttpModel.strip_prefix p (p ++ s) = Some s.
Proof. induction p as [|a p IH]; [reflexivity|]. cbn. rewrite Ascii.eqb_refl. exact IH. Qed.
Lemma strip_none p s : (forall r, s <> p ++ r) -> HttpModel.strip_prefix p s = None.
Proof.
  revert s. induction p as [|a p IH]; intros s N; [exfalso; apply (N s); reflexivity|]. destruct s as [|b s]; [reflexivity|]. cbn [HttpModel.strip_prefix].
  destruct (Ascii.eqb a b) eqn:Q; [|reflexivity]. apply Ascii.eqb_eq in Q. subst b. apply IH. intros r ->. apply (N r). reflexivity.
Qed.
Lemma admitted_principal hash p a : admitted hash p a -> exists pr, HttpModel.header_to_principal hash a p = HttpModel.Ok pr.
Proof.
  intros [[-> W]|(w & -> & W & N)].
  - exists HttpModel.Anonymous. cbn [HttpModel.header_to_principal]. unfold HttpModel.token_to_principal. rewrite W. destruct (HttpModel.read p); reflexivity.
  - exists HttpModel.Writer. cbn [HttpModel.header_to_principal]. change (list_ascii_of_string "Bearer ") with HttpModel.bearer in *. rewrite strip_app.
    assert (T : HttpModel.trim_start_matches (List.length (HttpModel.bearer ++ w)) HttpModel.bearer (HttpModel.bearer ++ w) = w).
    { rewrite app_length. change (List.length HttpModel.bearer) with 7%nat. cbn [Nat.add HttpModel.trim_start_matches]. rewrite strip_app. rewrite strip_none by exact N. reflexivity. }
    rewrite T. unfold HttpModel.token_to_principal. rewrite W. cbn [HttpModel.matches]. rewrite teqb_refl. reflexivity.
Qed.
Lemma answered_by_form hash policy limit q : upload_path (path q) -> admitted hash policy (auth q) ->
  CountModel.answered hash policy (as_http limit q) = match form_filter limit (content_length q) with None => status q | Some st => st end.
Proof.
  intros P A. destruct (path_route _ P) as (d & s & t & R). destruct (admitted_principal _ _ _ A) as [pr E].
  unfold CountModel.answered, CountModel.routes, CountModel.cached_read, CountModel.uncached, CountModel.upload, CountModel.health, CountModel.route_filter, CountModel.with_auth, as_http.
  cbn [CountModel.path CountModel.verb CountModel.auth CountModel.json CountModel.form CountModel.answers]. rewrite R, E. cbn [CountModel.is_run CountModel.is_upload].
  destruct (form_filter limit (content_length q)) as [st|] eqn:F.
  - unfold form_filter in F. destruct (content_length q) as [n|]; [destruct (n <=? limit)%N; [discriminate F|]|]; injection F as <-;
      destruct (CountModel.is_read (RespModel.request RespModel.Get (path q))), (CountModel.is_health (RespModel.request RespModel.Get (path q))); reflexivity.
  - destruct (CountModel.is_read (RespModel.request RespModel.Get (path q))), (CountModel.is_health (RespModel.request RespModel.Get (path q))); reflexivity.
Qed.
(* C163, for limits below 2^44 megabytes: an upload that is admitted is answered 413 if its body is longer than the limit, 411 if its length
   is not known, and by the handler otherwise *)
Theorem c163_size : forall hash policy checked max q, (max < 2 ^ 44)%N -> upload_path (path q) -> admitted hash policy (auth q) ->
  (content_length q = None -> answer hash policy checked max q = Some 411%nat) /\
  (forall n, content_length q = Some n -> Z.of_N n > mebibytes_of max -> answer hash policy checked max q = Some 413%nat) /\
  (forall n, content_length q = Some n -> Z.of_N n <= mebibytes_of max -> answer hash policy checked max q = Some (status q)).
Proof.
  intros hash policy checked max q B P A. unfold answer. rewrite scaled_small by exact B. rewrite answered_by_form by assumption. unfold form_filter, mebibytes_of.
  split; [intros ->; reflexivity|]. split; intros n -> H.
  - replace (n <=? max * mebibytes)%N with false by (symmetry; apply N.leb_gt; unfold mebibytes; lia). reflexivity.
  - replace (n <=? max * mebibytes)%N with true by (symmetry; apply N.leb_le; unfold mebibytes; lia). reflexivity.
Qed.
(* The limit is one of the body: a file of exactly that size is refused, for the form around it counts, too *)
Theorem c163_form_refuted : forall hash policy checked max q file around, (max < 2 ^ 44)%N -> upload_path (path q) -> admitted hash policy (auth q) ->
  Z.of_N file = mebibytes_of max -> (0 < around)%N -> content_length q = Some (around + file)%N -> answer hash policy checked max q = Some 413%nat.
Proof. intros hash policy checked max q file around B P A F R C. apply (c163_size hash policy checked max q B P A) with (n := (around + file)%N); [exact C|lia]. Qed.
(* A limit of 2^44 megabytes and more: debug builds do not start, release builds use the remainder as the limit *)
Theorem c163_overflow_refuted : forall hash policy max k q, (1 <= k)%N ->
  answer hash policy true (max + k * 2 ^ 44)%N q = None /\ answer hash policy false (max + k * 2 ^ 44)%N q = answer hash policy false max q.
Proof.
  intros hash policy m k q K. assert (E : ((m + k * 2 ^ 44) * mebibytes = m * mebibytes + k * u64_size)%N) by (unfold mebibytes, u64_size; change (2 ^ 64)%N with (2 ^ 44 * (1024 * 1024))%N; lia).
  unfold answer, scaled. rewrite E. split.
  - replace (u64_size <=? m * mebibytes + k * u64_size)%N with true by (symmetry; apply N.leb_le; unfold u64_size; lia). reflexivity.
  - cbn [andb]. rewrite N.mod_add by discriminate. reflexivity.
Qed.
(* in particular a limit of 2^44 megabytes is one of zero bytes *)
Theorem c163_zero_refuted : forall hash policy q n, upload_path (path q) -> admitted hash policy (auth q) ->
  content_length q = Some n -> (0 < n)%N -> answer hash policy false (2 ^ 44)%N q = Some 413%nat.
Proof.
  intros hash policy q n P A C N. destruct (c163_overflow_refuted hash policy 0 1 q) as [_ E]; [lia|]. change (0 + 1 * 2 ^ 44)%N with (2 ^ 44)%N in E. rewrite E.
  apply (c163_size hash policy false 0%N q) with (n := n); [reflexivity|exact P|exact A|exact C|]. unfold mebibytes_of. lia.
Qed.

(* ---- examples ---- *)
(* The default of the documentation, 512 megabytes: 375809638 bytes; two operators fill it and a third one is refused *)
Definition ask (n : Z) : event := Begin {| what := TryGrow; consumer := "sort"%string; size := n |}.
Example ex162_default : build_pool true (Some 512%N) = Some (Greedy 375809638) /\ (512 < 2 ^ 29)%N /\ sizes [ask 200000000; ask 175809638; ask 1] /\
  map snd (answers (run (Greedy 375809638) [ask 200000000; ask 175809638; ask 1])) = [true; true; false].
Proof.
  split; [vm_compute; reflexivity|]. split; [reflexivity|]. split; [intros c [E|[E|[E|[]]]]; injection E as <-; cbn [size]; lia|vm_compute; reflexivity].
Qed.
(* The bound is met with equality if the memory is a multiple of five megabytes: 640 megabytes *)
Example ex162_equal : build_pool false (Some 640%N) = Some (Greedy 469762048) /\ 10 * 469762048 = 7 * mebibytes_of 640.
Proof. split; vm_compute; reflexivity. Qed.
Definition req (n : option N) : request :=
  {| path := list_ascii_of_string "/upload/public/t"; auth := None; content_length := n; status := 200 |}.
Definition everybody : HttpModel.policy := {| HttpModel.read := HttpModel.Any; HttpModel.write := HttpModel.Any |}.
Example ex163 : upload_path (path (req None)) /\ admitted (fun t => t) everybody (auth (req None)) /\
  map (fun n => answer (fun t => t) everybody true 1 (req n)) [None; Some 1048576%N; Some 1048577%N] = [Some 411%nat; Some 200%nat; Some 413%nat].
Proof.
  split; [|split; [left; split; reflexivity|vm_compute; reflexivity]].
  apply (Default (list_ascii_of_string "public") (list_ascii_of_string "t")); (split; [discriminate|vm_compute; intuition discriminate]).
Qed.

Print Assumptions c162_limit_partial.
Print Assumptions c162_granted.
Print Assumptions c162_unlimited.
Print Assumptions c162_unasked_refuted.
Print Assumptions c162_overflow_refuted.
Print Assumptions c162_none_refuted.
Print Assumptions c163_size.
Print Assumptions c163_form_refuted.
Print Assumptions c163_overflow_refuted.
Print Assumptions c163_zero_refuted.
