(* C138-C142: the counters of requests, the statuses of the Flight frontend and the results that wait to be fetched. Meaning in CountSpec.v,
   model in CountModel.v. *)
From Coq Require Import Ascii String List Bool Arith Lia FinFun.
From Verif Require Import RespModel CountModel CountSpec.
From Verif Require HttpModel HttpSpec HttpProofs.
Import ListNotations.
Open Scope list_scope.

(* ---- C138 ---- *)
Lemma warp_combine a b : warp_status (combine a b) = prefer (warp_status a) (warp_status b).
Proof.
  assert (P : forall n, prefer 404 n = n) by (intros n; unfold prefer; destruct (Nat.eqb_spec n 404) as [->|N]; reflexivity).
  destruct a; destruct b; cbn [combine warp_status]; rewrite ?P; try reflexivity.
Qed.
Lemma find_combine a b : find_error (combine a b) = match find_error a with Some e => Some e | None => find_error b end.
Proof. destruct a; destruct b; cbn [combine find_error]; try reflexivity; destruct (find_error a1); try reflexivity; destruct (find_error a2); reflexivity. Qed.

Section Status.
  Variable hash : text -> text.
  Variable policy : HttpModel.policy.
  Notation routes := (routes hash policy).
  Notation answered := (answered hash policy).
  Notation counted := (counted_status hash policy).
  (* An error of this program behind reasons that are only about path and method *)
  Definition refused (e : api_error) (v : verdict) : Prop := exists r, v = Rejected r /\ find_error r = Some e /\ warp_status r = 500.
  Definition skipped (v : verdict) : Prop := exists r, v = Rejected r /\ find_error r = None /\ (warp_status r = 404 \/ warp_status r = 405).
  Lemma other_path : skipped (Rejected OtherPath).
  Proof. exists OtherPath. repeat split. left. reflexivity. Qed.
  Lemma other_method : skipped (Rejected OtherMethod).
  Proof. exists OtherMethod. repeat split. right. reflexivity. Qed.
  Definition clean (v : verdict) : Prop := match v with Handled _ => True | Rejected r => find_error r = None end.
  Lemma skipped_clean v : skipped v -> clean v.
  Proof. intros (r & -> & F & _). exact F. Qed.
  Lemma or_refused_l e a b : refused e a -> skipped b -> refused e (or_else a b).
  Proof.
    intros (r & -> & F & W) (r' & -> & F' & W'); cbn [or_else]. eexists; (split; [reflexivity|]). rewrite warp_combine, find_combine, F, W. split; [reflexivity|]. destruct W' as [->| ->]; reflexivity.
  Qed.
  Lemma or_refused_r e a b : refused e b -> skipped a -> refused e (or_else a b).
  Proof.
    intros (r & -> & F & W) (r' & -> & F' & W'); cbn [or_else]. eexists; (split; [reflexivity|]). rewrite warp_combine, find_combine, F', F, W. split; [reflexivity|]. destruct W' as [->| ->]; reflexivity.
  Qed.
  Lemma or_clean a b : clean a -> clean b -> clean (or_else a b).
  Proof. destruct a as [st|r]; destruct b as [st'|r']; cbn; try trivial. intros F G. rewrite find_combine, F. exact G. Qed.
  Lemma or_skipped a b : skipped a -> skipped b -> skipped (or_else a b).
  Proof.
    intros (r & -> & F & W) (r' & -> & F' & W'); cbn [or_else]. eexists; (split; [reflexivity|]). rewrite warp_combine, find_combine, F. split; [exact F'|]. destruct W as [->| ->]; destruct W' as [->| ->]; cbn; auto.
  Qed.
  Lemma clean_eq q : clean (routes q) -> counted q = answered q.
  Proof. unfold counted_status, CountModel.answered. destruct (routes q) as [st|r]; [reflexivity|]. cbn [clean]. intros ->. reflexivity. Qed.
  Lemma refused_eq q e : refused e (routes q) -> counted q = 500 /\ answered q = status_code e.
  Proof. intros (r & E & F & W). unfold counted_status, CountModel.answered. rewrite E, F, W. split; reflexivity. Qed.
  Lemma filter_other want paths mine q inner : mine paths = false -> skipped (route_filter want paths mine q inner).
  Proof. intros M. unfold route_filter. rewrite M. apply other_path. Qed.
  Lemma filter_get paths mine q inner : verb q = Post -> skipped (route_filter Get paths mine q inner).
  Proof. intros V. unfold route_filter. rewrite V. destruct (mine paths); [apply other_method|apply other_path]. Qed.
  Lemma filter_post paths mine q inner : verb q = Get -> skipped (route_filter Post paths mine q inner).
  Proof. intros V. unfold route_filter. rewrite V. destruct (mine paths); [apply other_method|apply other_path]. Qed.
  Lemma post_not_read p : match RespModel.request Post p with ReadQuery _ _ | Health => False | _ => True end.
  Proof.
    unfold RespModel.request. destruct p as [|c p]; [exact Logic.I|]. destruct (Ascii.eqb c "/"); [|exact Logic.I]. unfold match_route.
    destruct (split_slash p) as [|a [|b [|d [|e [|f l]]]]]; try exact Logic.I; match goal with |- context [if ?x then _ else _] => destruct x end; exact Logic.I.
  Qed.
  Lemma get_not_run p : match RespModel.request Get p with RunQuery _ | Upload _ _ _ => False | _ => True end.
  Proof.
    unfold RespModel.request. destruct p as [|c p]; [exact Logic.I|]. destruct (Ascii.eqb c "/"); [|exact Logic.I]. unfold match_route.
    destruct (split_slash p) as [|a [|b [|d [|e l]]]]; try exact Logic.I; match goal with |- context [if ?x then _ else _] => destruct x end; exact Logic.I.
  Qed.
  (* The answer of a request depends on its own route only *)
  Lemma by_target q :
    (exists v a b, routes q = or_else (or_else (or_else v a) b) (health q) /\ v = cached_read hash policy q /\ skipped a /\ skipped b /\ verb q = Get) \/
    (exists a b, routes q = or_else (or_else (or_else a (uncached hash policy q)) (upload hash policy q)) b /\ skipped a /\ skipped b /\ verb q = Post).
  Proof.
    destruct (verb q) eqn:V.
    - left. exists (cached_read hash policy q), (uncached hash policy q), (upload hash policy q). split; [reflexivity|]. split; [reflexivity|]. split; [apply filter_post, V|]. split; [apply filter_post, V|reflexivity].
    - right. exists (cached_read hash policy q), (health q). split; [reflexivity|]. split; [apply filter_get, V|]. split; [apply filter_get, V|reflexivity].
  Qed.
  Lemma token_4xx e : 400 <= status_code (api_of e) < 500.
  Proof. destruct e; cbn; lia. Qed.
  (* The same as in the specification, by the functions of the model *)
  Definition bad_token_ (q : http_request) : Prop := exists e, HttpModel.header_to_principal hash (auth q) policy = HttpModel.Err e.
  Definition may_not_read_ (q : http_request) : Prop :=
    HttpModel.read policy = HttpModel.Off \/
    exists pr, HttpModel.header_to_principal hash (auth q) policy = HttpModel.Ok pr /\ HttpModel.can_perform_action pr HttpModel.Read policy = false.
  Definition turned_away_ (q : http_request) : Prop :=
    match target q with
    | ReadQuery _ _ => bad_token_ q \/ may_not_read_ q
    | RunQuery _ => bad_token_ q \/ json q = false
    | Upload _ _ _ => bad_token_ q
    | Health | NotFound => False
    end.
  Lemma principal_cases (h : option HttpModel.text) :
    (h = None /\ HttpModel.header_to_principal hash h policy = HttpModel.token_to_principal hash None policy) \/
    (exists t, HttpSpec.presents h t /\ HttpModel.header_to_principal hash h policy = HttpModel.token_to_principal hash (Some t) policy) \/
    (h <> None /\ (forall t, ~ HttpSpec.presents h t) /\ HttpModel.header_to_principal hash h policy = HttpModel.Err HttpModel.InvalidAuthorizationHeader).
  Proof.
    destruct h as [x|]; [|left; split; reflexivity]. right. destruct (HttpModel.strip_prefix HttpModel.bearer x) as [r|] eqn:E.
    - left. pose proof (HttpProofs.strip_some _ _ _ E) as Eh. destruct (HttpProofs.trim_some (List.length r) r (le_n _)) as [N [k Hk]].
      assert (P : HttpSpec.presents (Some x) (HttpModel.trim_start_matches (List.length r) HttpModel.bearer r)).
      { exists k. split; [|exact N]. cbn [HttpSpec.bearers]. rewrite <- Hk, Eh. reflexivity. }
      eexists. split; [exact P|]. apply HttpProofs.presents_principal, P.
    - right. split; [discriminate|]. split; [|cbn [HttpModel.header_to_principal]; rewrite E; reflexivity].
      intros t (k & F & _). assert (X : x = HttpSpec.bearers (S k) t) by congruence. rewrite X in E. change (HttpSpec.bearers (S k) t) with ((HttpModel.bearer ++ HttpSpec.bearers k t)%list) in E. rewrite HttpProofs.strip_app in E. discriminate E.
  Qed.
  Lemma presents_same h t t' : HttpSpec.presents h t -> HttpSpec.presents h t' -> t = t'.
  Proof.
    intros (k & -> & N) (k' & E & N'). injection E as E. revert k' E. induction k as [|k IH]; intros [|k'] E; cbn [HttpSpec.bearers] in E.
    - exact E.
    - exfalso. apply N. exists (HttpSpec.bearers k' t'). exact E.
    - exfalso. apply N'. exists (HttpSpec.bearers k t). symmetry. exact E.
    - apply app_inv_head in E. apply (IH k' E).
  Qed.
  Lemma bad_token_iff q : bad_token hash policy q <-> bad_token_ q.
  Proof.
    unfold bad_token, bad_token_. destruct (principal_cases (auth q)) as [[A ->]|[(t & P & ->)|(A & N & ->)]].
    - rewrite A. unfold HttpModel.token_to_principal. split.
      + intros B. destruct (HttpModel.write policy), (HttpModel.read policy); try (exfalso; apply B; left; split; [reflexivity|first [left; reflexivity|right; reflexivity]]); eexists; reflexivity.
      + intros [e E] [[_ [B|B]]|(t & (k & F & _) & _)]; [rewrite B in E; destruct (HttpModel.write policy); discriminate E|rewrite B in E; destruct (HttpModel.read policy); discriminate E|discriminate F].
    - rewrite HttpProofs.token_principal. pose proof (HttpProofs.matches_right hash t (HttpModel.write policy)) as MW. pose proof (HttpProofs.matches_right hash t (HttpModel.read policy)) as MR. split.
      + intros B. destruct (HttpModel.matches hash t (HttpModel.write policy)); [exfalso; apply B; right; exists t; split; [exact P|right; apply MW; reflexivity]|].
        destruct (HttpModel.matches hash t (HttpModel.read policy)); [exfalso; apply B; right; exists t; split; [exact P|left; apply MR; reflexivity]|]. eexists; reflexivity.
      + intros [e E] [[A _]|(t' & P' & R)]; [destruct P as (k & F & _); rewrite A in F; discriminate F|]. rewrite (presents_same _ _ _ P' P) in R.
        destruct (HttpModel.matches hash t (HttpModel.write policy)); [discriminate E|]. destruct (HttpModel.matches hash t (HttpModel.read policy)); [discriminate E|].
        destruct R as [R|R]; [apply MR in R; discriminate R|apply MW in R; discriminate R].
    - split; [intros _; eexists; reflexivity|]. intros _ [[B _]|(t & P & _)]; [contradiction|exact (N t P)].
  Qed.
  Lemma read_iff q : bad_token hash policy q \/ may_not_read policy q <-> bad_token_ q \/ may_not_read_ q.
  Proof.
    rewrite bad_token_iff. unfold may_not_read, may_not_read_. destruct (principal_cases (auth q)) as [[A E]|[(t & P & E)|(A & N & E)]].
    - rewrite A. unfold bad_token_. rewrite A in E |- *. rewrite E. unfold HttpModel.token_to_principal, HttpModel.can_perform_action.
      destruct (HttpModel.write policy), (HttpModel.read policy); (split; [intros [H|[H|[_ H]]]|intros [H|[H|(pr & H & H')]]]);
        try (left; exact H); try (right; left; reflexivity); try discriminate H; try contradiction;
        try (injection H as <-; discriminate H'); try (right; right; split; [reflexivity|discriminate]); try (right; right; eexists; split; reflexivity); try (left; eexists; reflexivity).
    - assert (A : auth q <> None) by (destruct P as (k & -> & _); discriminate). rewrite E, HttpProofs.token_principal. split.
      + intros [H|[H|[H _]]]; [left; exact H|right; left; exact H|contradiction].
      + intros [H|[H|(pr & H & H')]]; [left; exact H|right; left; exact H|]. exfalso.
        destruct (HttpModel.matches hash t (HttpModel.write policy)); [injection H as <-; discriminate H'|]. destruct (HttpModel.matches hash t (HttpModel.read policy)); [|discriminate H].
        injection H as <-. discriminate H'.
    - split; intros _; left; eexists; exact E.
  Qed.
  Lemma turned_away_iff q : turned_away hash policy q <-> turned_away_ q.
  Proof.
    unfold turned_away, turned_away_. destruct (target q); [apply read_iff|rewrite bad_token_iff; reflexivity|apply bad_token_iff|reflexivity|reflexivity].
  Qed.
  Lemma wrong_token_iff q : wrong_token hash policy q -> HttpModel.header_to_principal hash (auth q) policy = HttpModel.Err HttpModel.WrongAccessToken.
  Proof.
    intros (t & P & NR & NW & h & S1). rewrite (HttpProofs.presents_principal hash _ t policy P), HttpProofs.token_principal.
    destruct (HttpModel.matches hash t (HttpModel.write policy)) eqn:EW; [exfalso; apply NW, HttpProofs.matches_right, EW|].
    destruct (HttpModel.matches hash t (HttpModel.read policy)) eqn:ER; [exfalso; apply NR, HttpProofs.matches_right, ER|].
    destruct S1 as [S1|S1]; rewrite S1; [destruct (HttpModel.write policy)|destruct (HttpModel.read policy)]; reflexivity.
  Qed.
  Lemma away_ q : turned_away_ q -> exists e, refused e (routes q) /\ 400 <= status_code e < 500.
  Proof.
    unfold turned_away_, target. intros T. destruct (by_target q) as [(v & a & b & -> & -> & A & B & V)|(a & b & -> & A & B & V)]; rewrite V in T.
    - pose proof (get_not_run (path q)) as G. destruct (RespModel.request Get (path q)) as [d x|d|d s t| |] eqn:R; try contradiction.
      assert (H : skipped (health q)) by (apply filter_other; rewrite R; reflexivity).
      assert (C : exists e, refused e (cached_read hash policy q) /\ 400 <= status_code e < 500).
      { unfold cached_read, route_filter, with_auth. rewrite R, V. cbn [is_read]. unfold bad_token_, may_not_read_ in T. destruct (HttpModel.header_to_principal hash (auth q) policy) as [pr|e].
        - destruct T as [[e E]|[O|(pr' & E & N)]]; [discriminate E|rewrite O; exists ReadOnlyEndpointDisabled; split; [eexists; repeat split; reflexivity|cbn; lia]|].
          injection E as <-. rewrite N. destruct (HttpModel.read policy); [exists ReadForbidden|exists ReadOnlyEndpointDisabled|exists ReadForbidden]; (split; [eexists; repeat split; reflexivity|cbn; lia]).
        - exists (api_of e). split; [eexists; repeat split; reflexivity|apply token_4xx]. }
      destruct C as (e & C & S). exists e. split; [|exact S]. apply or_refused_l; [|exact H]. apply or_refused_l; [|exact B]. apply or_refused_l; [exact C|exact A].
    - pose proof (post_not_read (path q)) as G. destruct (RespModel.request Post (path q)) as [d x|d|d s t| |] eqn:R; try contradiction.
      + assert (U : skipped (upload hash policy q)) by (apply filter_other; rewrite R; reflexivity).
        assert (C : exists e, refused e (uncached hash policy q) /\ 400 <= status_code e < 500).
        { unfold uncached, route_filter, with_auth. rewrite R, V. cbn [is_run]. unfold bad_token_ in T. destruct (HttpModel.header_to_principal hash (auth q) policy) as [pr|e].
          - destruct T as [[e E]|J]; [discriminate E|]. rewrite J. exists QueryParsingError. split; [eexists; repeat split; reflexivity|cbn; lia].
          - exists (api_of e). split; [eexists; repeat split; reflexivity|apply token_4xx]. }
        destruct C as (e & C & S). exists e. split; [|exact S]. apply or_refused_l; [|exact B]. apply or_refused_l; [|exact U]. apply or_refused_r; [exact C|exact A].
      + assert (U : skipped (uncached hash policy q)) by (apply filter_other; rewrite R; reflexivity).
        assert (C : exists e, refused e (upload hash policy q) /\ 400 <= status_code e < 500).
        { unfold upload, route_filter, with_auth. rewrite R, V. cbn [is_upload]. destruct T as [e ->]. exists (api_of e). split; [eexists; repeat split; reflexivity|apply token_4xx]. }
        destruct C as (e & C & S). exists e. split; [|exact S]. apply or_refused_l; [|exact B]. apply or_refused_r; [exact C|]. apply or_skipped; assumption.
  Qed.
  Lemma not_away_ q : ~ turned_away_ q -> clean (routes q).
  Proof.
    unfold turned_away_, target. intros T. destruct (by_target q) as [(v & a & b & -> & -> & A & B & V)|(a & b & -> & A & B & V)]; rewrite V in T.
    - apply or_clean; [apply or_clean; [apply or_clean; [|apply skipped_clean, A]|apply skipped_clean, B]|].
      + unfold cached_read, route_filter, with_auth. rewrite V. destruct (RespModel.request Get (path q)) as [d x|d|d s t| |] eqn:R; cbn [is_read]; try reflexivity.
        destruct (HttpModel.header_to_principal hash (auth q) policy) as [pr|e] eqn:P; [|exfalso; apply T; left; exists e; exact P].
        destruct (HttpModel.read policy) eqn:O; [|exfalso; apply T; right; left; exact O|];
          (destruct (HttpModel.can_perform_action pr HttpModel.Read policy) eqn:Q; [exact Logic.I|exfalso; apply T; right; right; exists pr; split; assumption]).
      + unfold health, route_filter. rewrite V. destruct (is_health _); reflexivity.
    - apply or_clean; [apply or_clean; [apply or_clean; [apply skipped_clean, A|]|]|apply skipped_clean, B].
      + unfold uncached, route_filter, with_auth. rewrite V. destruct (RespModel.request Post (path q)) as [d x|d|d s t| |] eqn:R; cbn [is_run]; try reflexivity.
        destruct (HttpModel.header_to_principal hash (auth q) policy) as [pr|e] eqn:P; [|exfalso; apply T; left; exists e; exact P].
        destruct (json q) eqn:J; [exact Logic.I|exfalso; apply T; right; reflexivity].
      + unfold upload, route_filter, with_auth. rewrite V. destruct (RespModel.request Post (path q)) as [d x|d|d s t| |] eqn:R; cbn [is_upload]; try reflexivity.
        destruct (HttpModel.header_to_principal hash (auth q) policy) as [pr|e] eqn:P; [|exfalso; apply T; exists e; exact P].
        destruct (form q); [reflexivity|exact Logic.I].
  Qed.
  Lemma away q : turned_away hash policy q -> exists e, refused e (routes q) /\ 400 <= status_code e < 500.
  Proof. intros T. apply away_, turned_away_iff, T. Qed.
  Lemma not_away q : ~ turned_away hash policy q -> clean (routes q).
  Proof. intros T. apply not_away_. intros H. apply T, turned_away_iff, H. Qed.
  (* A request that is not turned away is counted with the status of its answer *)
  Theorem c138_status_partial : forall q, ~ turned_away hash policy q -> counted q = answered q.
  Proof. intros q N. apply clean_eq, not_away, N. Qed.
  (* A request that is turned away is answered as a mistake of the client, but counted as a failure of the server *)
  Theorem c138_status_refuted : forall q, turned_away hash policy q -> counted q = 500 /\ 400 <= answered q < 500.
  Proof. intros q T. destruct (away q T) as (e & R & S). destruct (refused_eq q e R) as [-> ->]. split; [reflexivity|exact S]. Qed.
  (* In particular one with a wrong token, which is answered 401 *)
  Theorem c138_token_refuted : forall q d x t, target q = ReadQuery d x \/ target q = RunQuery d \/ target q = Upload d x t ->
    wrong_token hash policy q -> answered q = 401 /\ counted q = 500.
  Proof.
    intros q d x t T P0. assert (P := wrong_token_iff q P0). assert (W : turned_away hash policy q) by (apply turned_away_iff; unfold turned_away_; destruct T as [->|[->| ->]]; [left|left|]; exists HttpModel.WrongAccessToken; exact P).
    split; [|apply (c138_status_refuted q W)]. destruct (away q W) as (e & R & _). destruct (refused_eq q e R) as [_ ->].
    assert (F : find_error match routes q with Rejected r => r | Handled _ => OtherPath end = Some WrongAccessToken).
    { unfold target in T. destruct (by_target q) as [(v & a & b & -> & -> & A & B & V)|(a & b & -> & A & B & V)]; rewrite V in T.
      - pose proof (get_not_run (path q)) as G. destruct T as [T|[T|T]]; try (rewrite T in G; contradiction).
        unfold cached_read, route_filter, with_auth, health, route_filter. rewrite T, P, V. cbn [is_read is_health]. destruct A as (ra & -> & FA & _). destruct B as (rb & -> & FB & _). cbn [or_else].
        rewrite !find_combine. reflexivity.
      - pose proof (post_not_read (path q)) as G. destruct A as (ra & -> & FA & _). destruct B as (rb & -> & FB & _).
        destruct T as [T|[T|T]]; try (rewrite T in G; contradiction); unfold uncached, upload, route_filter, with_auth; rewrite T, P, V; cbn [is_run is_upload or_else]; rewrite !find_combine, FA; reflexivity. }
    destruct R as (r & E & F' & _). rewrite E in F. rewrite F in F'. injection F' as <-. reflexivity.
  Qed.
End Status.
Print Assumptions c138_status_partial.
Print Assumptions c138_status_refuted.
Print Assumptions c138_token_refuted.

(* The label of the route *)
Lemma starts_iff p t : starts p t = true <-> exists b, t = p ++ b.
Proof.
  revert t. induction p as [|x p IH]; intros t; cbn [starts app]; [split; [intros _; exists t; reflexivity|reflexivity]|]. destruct t as [|y t].
  - split; [discriminate|intros (b & E); discriminate E].
  - rewrite andb_true_iff, Ascii.eqb_eq, IH. split; [intros [<- (b & ->)]; exists b; reflexivity|intros (b & E); injection E as <- ->; split; [reflexivity|exists b; reflexivity]].
Qed.
Lemma contains_iff p t : contains p t = true <-> exists a b, t = a ++ p ++ b.
Proof.
  induction t as [|c t IH].
  - cbn [contains]. rewrite orb_false_r, starts_iff. split; [intros (b & E); exists [], b; exact E|intros (a & b & E)]. destruct a; [exists b; exact E|discriminate E].
  - cbn [contains]. rewrite orb_true_iff, starts_iff, IH. split.
    + intros [(b & E)|(a & b & ->)]; [exists [], b; exact E|exists (c :: a), b; reflexivity].
    + intros (a & b & E). destruct a as [|x a]; [left; exists b; exact E|right]. injection E as <- ->. exists a, b. reflexivity.
Qed.
Lemma split_app a r : split_slash (a ++ "/"%char :: r) = split_slash a ++ split_slash r.
Proof.
  induction a as [|c a IH]; [reflexivity|]. cbn [app split_slash]. destruct (Ascii.eqb c "/"); [rewrite IH; reflexivity|]. rewrite IH.
  destruct (split_slash a) as [|x l] eqn:E; [|reflexivity]. exfalso. clear -E. destruct a as [|y a]; [discriminate E|]. cbn in E. destruct (Ascii.eqb y "/"); [discriminate E|]. destruct (split_slash a); discriminate E.
Qed.
Lemma split_not_nil a : split_slash a <> [].
Proof. destruct a as [|y a]; [discriminate|]. cbn. destruct (Ascii.eqb y "/"); [discriminate|]. destruct (split_slash a); discriminate. Qed.
Lemma split_free s : ~ In "/"%char s -> split_slash s = [s].
Proof. induction s as [|c s IH]; intros N; [reflexivity|]. cbn. destruct (Ascii.eqb_spec c "/") as [->|_]; [exfalso; apply N; left; reflexivity|]. rewrite IH by (intros I; apply N; right; exact I). reflexivity. Qed.
Lemma first_slash (p : text) : (exists s r, p = s ++ "/"%char :: r /\ ~ In "/"%char s) \/ ~ In "/"%char p.
Proof.
  induction p as [|c p IH]; [right; intros []|]. destruct (Ascii.eqb_spec c "/") as [->|Nc]; [left; exists [], p; split; [reflexivity|intros []]|].
  destruct IH as [(s & r & -> & Ns)|Np]; [left; exists (c :: s), r; split; [reflexivity|intros [X|X]; [exact (Nc X)|exact (Ns X)]]|right; intros [X|X]; [exact (Nc X)|exact (Np X)]].
Qed.
Lemma split_one p x : split_slash p = [x] -> p = x.
Proof.
  revert x. induction p as [|c p IH]; intros x E; [injection E as <-; reflexivity|]. cbn in E. destruct (Ascii.eqb c "/"); [injection E as _ E; exfalso; exact (split_not_nil p E)|].
  destruct (split_slash p) as [|y l] eqn:Q; [exfalso; exact (split_not_nil p Q)|]. injection E as <- ->. rewrite (IH y eq_refl). reflexivity.
Qed.
Lemma removelast_cons {A} (x : A) l : l <> [] -> removelast (x :: l) = x :: removelast l.
Proof. destruct l; [contradiction|reflexivity]. Qed.
(* A segment that is not the last one stands between slashes *)
Lemma inner_segment n : forall p s, List.length p <= n -> In s (removelast (split_slash p)) -> exists a b, "/"%char :: p = a ++ "/"%char :: s ++ "/"%char :: b.
Proof.
  induction n as [|n IHn]; intros p s Len I; [destruct p; [destruct I|cbn in Len; lia]|]. destruct (first_slash p) as [(s' & r & -> & Ns)|Np].
  - rewrite split_app, (split_free s' Ns) in I. cbn [app] in I. rewrite removelast_cons in I by apply split_not_nil. destruct I as [->|I]; [exists [], r; reflexivity|].
    destruct (IHn r s) as (a & b & E); [rewrite app_length in Len; cbn in Len; lia|exact I|]. exists ("/"%char :: s' ++ a), b. cbn [app]. rewrite E, app_assoc. reflexivity.
  - rewrite (split_free p Np) in I. destruct I.
Qed.
Lemma any_segment n : forall p s, List.length p <= n -> In s (split_slash p) -> exists a b, "/"%char :: p = a ++ "/"%char :: s ++ b.
Proof.
  induction n as [|n IHn]; intros p s Len I.
  - destruct p; [|cbn in Len; lia]. destruct I as [<-|[]]. exists [], []. reflexivity.
  - destruct (first_slash p) as [(s' & r & -> & Ns)|Np].
    + rewrite split_app, (split_free s' Ns) in I. destruct I as [<-|I]; [exists [], ("/"%char :: r); reflexivity|].
      destruct (IHn r s) as (a & b & E); [rewrite app_length in Len; cbn in Len; lia|exact I|]. exists ("/"%char :: s' ++ a), b. cbn [app]. rewrite E, app_assoc. reflexivity.
    + rewrite (split_free p Np) in I. destruct I as [<-|[]]. exists [], []. rewrite app_nil_r. reflexivity.
Qed.
(* "/name/" occurs in a path exactly if one of its segments, but not the last, is the name *)
Lemma contains_segment name p : ~ In "/"%char name -> contains ("/"%char :: name ++ ["/"%char]) ("/"%char :: p) = true <-> In name (removelast (split_slash p)).
Proof.
  intros N. rewrite contains_iff. split.
  - intros (a & b & E). assert (S : split_slash ("/"%char :: p) = split_slash a ++ name :: split_slash b).
    { rewrite E. cbn [app]. rewrite split_app. f_equal. rewrite <- app_assoc. cbn [app]. rewrite split_app, (split_free name N). reflexivity. }
    change (split_slash ("/"%char :: p)) with ([] :: split_slash p) in S. destruct (split_slash a) as [|x l] eqn:Ea; [exfalso; exact (split_not_nil a Ea)|].
    cbn [app] in S. injection S as <- S. rewrite S. rewrite removelast_app by discriminate. apply in_or_app. right. rewrite removelast_cons by apply split_not_nil. left. reflexivity.
  - intros I. destruct (inner_segment _ p name (le_n _) I) as (a & b & E). exists a, b. rewrite E. cbn [app]. rewrite <- app_assoc. reflexivity.
Qed.
Lemma contains_upload p : contains (s_ "/upload/") ("/"%char :: p) = true <-> In (s_ "upload") (removelast (split_slash p)).
Proof. apply (contains_segment (s_ "upload") p). cbn. intros X. repeat destruct X as [X|X]; try discriminate X. exact X. Qed.
Lemma is_eq s t : is s t = true -> t = s_ s.
Proof. unfold is. destruct (list_eq_dec ascii_dec t (s_ s)); [trivial|discriminate]. Qed.
Lemma route_path m p r : RespModel.request m p = r -> r <> NotFound -> exists p', p = "/"%char :: p' /\ match_route m (split_slash p') = r.
Proof.
  unfold RespModel.request. destruct p as [|c p]; [intros <- N; contradiction|]. destruct (Ascii.eqb_spec c "/") as [->|]; [|intros <- N; contradiction]. intros E _. exists p. split; [reflexivity|exact E].
Qed.
(* "/q" begins a segment that begins with q *)
Lemma contains_q p s : In s (split_slash p) -> (exists t, s = "q"%char :: t) -> contains (s_ "/q") ("/"%char :: p) = true.
Proof.
  intros I (t & ->). apply contains_iff.
  destruct (any_segment _ p _ (le_n _) I) as (a & b & E). exists a, (t ++ b). rewrite E. reflexivity.
Qed.
Lemma upload_not_q : s_ "q" <> s_ "upload".
Proof. discriminate. Qed.
(* Queries of other databases than "upload", uploads and health checks are counted under their route *)
Theorem c138_route_partial : forall q name, route_name q = Some name -> name = s_ "/upload" \/ database q <> Some (s_ "upload") -> label (path q) = name.
Proof.
  intros q name. unfold route_name, database, target. destruct (RespModel.request (verb q) (path q)) as [d x|d|d s t| |] eqn:R; intros E C; try discriminate E; injection E as <-;
    destruct (route_path _ _ _ R) as (p & P & M); try discriminate; rewrite P; unfold label; clear R P; unfold match_route in M; destruct (verb q);
    destruct (split_slash p) as [|a1 [|a2 [|a3 [|a4 [|a5 l]]]]] eqn:S; try discriminate M;
    match type of M with (if ?c then _ else _) = _ => destruct c eqn:G; [|discriminate M] end; try discriminate M.
  - apply andb_true_iff in G as [G1 G2]. apply is_eq in G1. subst a1. injection M as <- <-.
    destruct (contains (s_ "/upload/") _) eqn:U; [apply contains_upload in U; rewrite S in U; cbn [removelast] in U; destruct U as [U|[]]; discriminate U|].
    rewrite (contains_q p (s_ "q")); [reflexivity|rewrite S; left; reflexivity|exists []; reflexivity].
  - apply andb_true_iff in G as [G1 G2]. apply andb_true_iff in G1 as [G1 G3]. apply is_eq in G3. subst a2. injection M as <- <-.
    destruct (contains (s_ "/upload/") _) eqn:U; [apply contains_upload in U; rewrite S in U; cbn [removelast] in U; destruct U as [U|[U|[]]]; [|discriminate U]; exfalso; destruct C as [C|C]; [discriminate C|apply C; rewrite U; reflexivity]|].
    rewrite (contains_q p (s_ "q")); [reflexivity|rewrite S; right; left; reflexivity|exists []; reflexivity].
  - apply is_eq in G. subst a1. injection M as <-.
    destruct (contains (s_ "/upload/") _) eqn:U; [apply contains_upload in U; rewrite S in U; destruct U|].
    rewrite (contains_q p (s_ "q")); [reflexivity|rewrite S; left; reflexivity|exists []; reflexivity].
  - apply andb_true_iff in G as [G1 G2]. apply is_eq in G2. subst a2. injection M as <-.
    destruct (contains (s_ "/upload/") _) eqn:U; [apply contains_upload in U; rewrite S in U; cbn [removelast] in U; destruct U as [U|[]]; exfalso; destruct C as [C|C]; [discriminate C|apply C; rewrite U; reflexivity]|].
    rewrite (contains_q p (s_ "q")); [reflexivity|rewrite S; right; left; reflexivity|exists []; reflexivity].
  - apply andb_true_iff in G as [G1 G2]. apply andb_true_iff in G1 as [G1 G3]. apply is_eq in G1. subst a1.
    rewrite (proj2 (contains_upload p)); [reflexivity|rewrite S; left; reflexivity].
  - apply andb_true_iff in G as [G1 G2]. apply andb_true_iff in G1 as [G1 G3]. apply andb_true_iff in G1 as [G1 G4]. apply is_eq in G4. subst a2.
    rewrite (proj2 (contains_upload p)); [reflexivity|rewrite S; right; left; reflexivity].
  - apply orb_true_iff in G as [G|G]; apply is_eq in G; subst a1.
    + rewrite (split_one _ _ S). reflexivity.
    + rewrite (split_one _ _ S). reflexivity.
Qed.
Print Assumptions c138_route_partial.
(* Queries of a database named "upload" are counted as uploads *)
Theorem c138_route_refuted : forall q, database q = Some (s_ "upload") -> label (path q) = s_ "/upload" /\ (forall x d, target q = ReadQuery d x \/ target q = RunQuery d -> route_name q <> Some (label (path q))).
Proof.
  intros q D. assert (L : label (path q) = s_ "/upload").
  { unfold database, target in D. destruct (RespModel.request (verb q) (path q)) as [d x|d|d s t| |] eqn:R; try discriminate D; injection D as ->;
    destruct (route_path _ _ _ R) as (p & P & M); try discriminate; rewrite P; unfold label; clear R P; unfold match_route in M; destruct (verb q);
    destruct (split_slash p) as [|a1 [|a2 [|a3 [|a4 [|a5 l]]]]] eqn:S; try discriminate M;
    match type of M with (if ?c then _ else _) = _ => destruct c eqn:G; [|discriminate M] end; try discriminate M; try (unfold default_db in M; discriminate M);
    injection M; intros; subst; rewrite (proj2 (contains_upload p)); try reflexivity; rewrite S; left; reflexivity. }
  split; [exact L|]. intros x d T. rewrite L. unfold route_name. destruct T as [->| ->]; discriminate.
Qed.
Print Assumptions c138_route_refuted.

(* ---- C139 ---- *)
(* Requests for routes that exist have one of four labels *)
Theorem c139_http_partial : forall q, target q <> NotFound -> In (label (path q)) [s_ "/q"; s_ "/upload"; s_ "/healthz"; s_ "/readyz"].
Proof.
  intros q N. destruct (list_eq_dec ascii_dec (label (path q)) (s_ "/upload")) as [->|U]; [right; left; reflexivity|].
  destruct (route_name q) as [name|] eqn:E; [|unfold route_name in E; destruct (target q); try discriminate E; contradiction].
  assert (D : database q <> Some (s_ "upload")) by (intros D; apply U; exact (proj1 (c138_route_refuted q D))).
  rewrite (c138_route_partial q name E (or_intror D)) in *. unfold route_name in E. destruct (target q) as [d x|d|d s t| |] eqn:T; try discriminate E; injection E as <-; [left; reflexivity|left; reflexivity|contradiction|].
  unfold target in T. destruct (route_path _ _ _ T) as (p & -> & M); [discriminate|]. unfold match_route in M. destruct (verb q).
  - destruct (split_slash p) as [|a [|b [|c [|d l]]]] eqn:S; try discriminate M; try (destruct (_ : bool) in M; discriminate M).
    rewrite (split_one _ _ S). destruct (is "healthz" a) eqn:H1; [apply is_eq in H1; subst; right; right; left; reflexivity|]. destruct (is "readyz" a) eqn:H2; [apply is_eq in H2; subst; right; right; right; left; reflexivity|discriminate M].
  - destruct (split_slash p) as [|a [|b [|c [|d [|e l]]]]] eqn:S; try discriminate M; destruct (_ : bool) in M; discriminate M.
Qed.
Print Assumptions c139_http_partial.
(* ... but every other path is a label of its own *)
Theorem c139_own_label_refuted : forall p, contains (s_ "/upload/") p = false -> contains (s_ "/q") p = false -> label p = p.
Proof. intros p U Q. unfold label. rewrite U, Q. reflexivity. Qed.
Print Assumptions c139_own_label_refuted.
Definition silly (n : nat) : list ascii := "/"%char :: repeat "a"%char n.
Lemma no_a p n : (exists c r, p = c :: r /\ c <> "a"%char) -> contains p (repeat "a"%char n) = false.
Proof.
  intros (c & r & -> & N). induction n as [|n IH]; [reflexivity|]. cbn [repeat contains starts]. rewrite IH. destruct (Ascii.eqb_spec c "a") as [E|_]; [contradiction|reflexivity].
Qed.
Lemma silly_label n : label (silly n) = silly n.
Proof.
  apply c139_own_label_refuted; unfold silly; cbn [s_ list_ascii_of_string contains]; rewrite no_a by (eexists _, _; split; [reflexivity|discriminate]); rewrite orb_false_r; destruct n; reflexivity.
Qed.
Lemma silly_nodup n : NoDup (map silly (seq 0 n)).
Proof.
  apply Injective_map_NoDup; [|apply seq_NoDup]. intros x y E. unfold silly in E. injection E as E. apply (f_equal (@List.length ascii)) in E. rewrite !repeat_length in E. exact E.
Qed.
Lemma silly_series n : series (map label (map silly (seq 0 n))) n.
Proof.
  exists (map silly (seq 0 n)). split; [apply silly_nodup|]. rewrite map_length, seq_length. split; [|reflexivity]. rewrite map_map. rewrite (map_ext (fun x => label (silly x)) silly silly_label). intros x I. exact I.
Qed.
(* So clients who may do nothing at all can make any number of time series *)
Theorem c139_http_refuted : forall hash policy n, exists qs, Forall (fun q => auth q = None /\ answered hash policy q = 404) qs /\ series (map (fun q => label (path q)) qs) n.
Proof.
  intros hash policy n. set (mk := fun k => {| verb := Get; path := silly k; auth := None; json := false; form := None; answers := fun _ => 200 |}).
  exists (map mk (seq 0 n)). split.
  - rewrite Forall_forall. intros q I. apply in_map_iff in I as (k & <- & _). split; [reflexivity|].
    assert (S : split_slash (repeat "a"%char k) = [repeat "a"%char k]) by (apply split_free; intros C; apply repeat_spec in C; discriminate C).
    assert (A : forall s, (exists c r, list_ascii_of_string s = c :: r /\ c <> "a"%char) -> is s (repeat "a"%char k) = false).
    { intros s (c & r & E & N). unfold is, s_. rewrite E. destruct (list_eq_dec ascii_dec (repeat "a"%char k) (c :: r)) as [Q|]; [|reflexivity]. destruct k; [discriminate Q|]. injection Q as Q _. congruence. }
    unfold answered, routes, cached_read, uncached, upload, health, route_filter, RespModel.request, mk. cbn [path verb silly]. rewrite Ascii.eqb_refl, S. cbn [match_route].
    rewrite !A by (eexists _, _; split; [reflexivity|discriminate]). reflexivity.
  - rewrite map_map. exact (eq_ind _ (fun l => series l n) (silly_series n) _ (map_map _ _ _)).
Qed.
Print Assumptions c139_http_refuted.
Theorem c139_grpc_partial : forall c, (forall p, c <> OtherCall p) ->
  In (grpc_label c) (map (fun m => s_ "/arrow.flight.protocol.FlightService/" ++ s_ m) ["GetFlightInfo"; "DoGet"; "DoPut"]%string).
Proof. intros c N. destruct c; cbn [grpc_label map]; [left; reflexivity|left; reflexivity|right; left; reflexivity|right; right; left; reflexivity|exfalso; eapply N; reflexivity]. Qed.
Print Assumptions c139_grpc_partial.
Theorem c139_grpc_refuted : forall n, exists cs, Forall (fun c => counted_code (serve c) = Some CUnimplemented) cs /\ series (map grpc_label cs) n.
Proof.
  intros n. exists (map (fun k => OtherCall (silly k)) (seq 0 n)). split; [rewrite Forall_forall; intros c I; apply in_map_iff in I as (k & <- & _); reflexivity|].
  rewrite map_map. exists (map silly (seq 0 n)). split; [apply silly_nodup|]. rewrite map_length, seq_length. split; [intros x I; exact I|reflexivity].
Qed.
Print Assumptions c139_grpc_refuted.

(* ---- C140 ---- *)
(* A call is counted with the code that its client sees, unless it is the fetching of a query that fails while it runs, or an inline query
   without schemas *)
Theorem c140_partial : forall c, (forall e, c <> DoGet (Some (Runs (Some e)))) -> (forall q, c <> GetInline true false q) -> counted_code (serve c) = Some (seen_code (serve c)).
Proof.
  intros c N P. destruct c as [q|d s q|k|s|p]; cbn [serve].
  - destruct q; reflexivity.
  - destruct d; [|reflexivity]. destruct s; [destruct q; reflexivity|]. exfalso. exact (P q eq_refl).
  - destruct k as [[e|e|[e|]]|]; try reflexivity. exfalso. exact (N e eq_refl).
  - destruct s as [|c| |[[]|]]; reflexivity.
  - reflexivity.
Qed.
Print Assumptions c140_partial.
(* A query that fails while it runs is counted as a success *)
Theorem c140_late_refuted : forall e, let h := serve (DoGet (Some (Runs (Some e)))) in counted_code h = Some COk /\ seen_code h = CInternal.
Proof. intros e. split; reflexivity. Qed.
Print Assumptions c140_late_refuted.
(* An inline query without schemas is not counted *)
Theorem c140_panic_refuted : forall q, let h := serve (GetInline true false q) in counted_code h = None /\ seen_code h <> COk.
Proof. intros q. split; [reflexivity|discriminate]. Qed.
Print Assumptions c140_panic_refuted.

(* Over any number of calls, the counter of successes is too high by the queries that fail while they run *)
Theorem c140_totals_refuted : forall cs, List.length (filter counted_ok cs) = List.length (filter seen_ok cs) + List.length (filter fails_late cs).
Proof.
  induction cs as [|c cs IH]; [reflexivity|]. cbn [filter]. assert (H : (if counted_ok c then 1 else 0) = (if seen_ok c then 1 else 0) + (if fails_late c then 1 else 0)).
  { destruct c as [[]|[] [] []|[[e|e|[e|]]|]|[|[]| |[[]|]]|p]; reflexivity. }
  destruct (counted_ok c); destruct (seen_ok c); destruct (fails_late c); cbn [List.length]; cbn in H; lia.
Qed.
Print Assumptions c140_totals_refuted.

(* ---- C141 ---- *)
(* Failures of the server are never put down to the client *)
Theorem c141_server : forall c, server_fault c -> serve c = Fails CInternal \/ serve c = Streams CInternal.
Proof.
  intros c F. destruct c as [q|d s q|[[e|e|[e|]]|]|[|c| |[e|]]|p]; cbn in F; try contradiction.
  - destruct q; cbn in F; try contradiction; left; reflexivity.
  - destruct F as (-> & -> & F). destruct q; cbn in F; try contradiction; left; reflexivity.
  - right; reflexivity.
  - left. destruct e; try reflexivity. exfalso. apply F. exact Logic.I.
Qed.
Print Assumptions c141_server.
(* Mistakes of the client that do not come from the query engine or an unknown format, and are no inline query without schemas, are
   told as such *)
Theorem c141_partial : forall c, client_fault c ->
  match c with GetInfo _ => False | GetInline d s _ => d = false | DoGet k => k = None | DoPut (Processed (Some e)) => e = InvalidMessage | _ => True end -> blames_client (seen_code (serve c)).
Proof.
  intros c F R. destruct c as [q|d s q|[q|]|[|c| |[e|]]|p]; cbn in F; try contradiction; unfold blames_client; cbn [serve].
  - rewrite R. left; reflexivity.
  - discriminate R.
  - right; left; reflexivity.
  - left; reflexivity.
  - left; reflexivity.
  - rewrite R. left; reflexivity.
  - right; right; reflexivity.
Qed.
Print Assumptions c141_partial.
(* A query with a mistake is answered like one that fails by the server's fault *)
Theorem c141_query_refuted : forall e e', engine_client_fault e -> ~ engine_client_fault e' ->
  serve (GetInfo (Unplannable e)) = serve (GetInfo (Unplannable e')) /\ ~ blames_client (seen_code (serve (GetInfo (Unplannable e)))).
Proof. intros e e' _ _. split; [reflexivity|]. intros [C|[C|C]]; discriminate C. Qed.
Print Assumptions c141_query_refuted.
(* ... and so is a sync message for an Iceberg table, or one whose location is no URL *)
Theorem c141_sync_refuted : forall e, sync_client_fault e -> e <> InvalidMessage -> ~ blames_client (seen_code (serve (DoPut (Processed (Some e))))).
Proof. intros e F N [C|[C|C]]; destruct e; try contradiction; discriminate C. Qed.
Print Assumptions c141_sync_refuted.
(* An inline query without schemas is not answered at all *)
Theorem c141_inline_refuted : forall q, client_fault (GetInline true false q) /\ ~ exists c, serve (GetInline true false q) = Fails c \/ serve (GetInline true false q) = Streams c.
Proof. intros q. split; [right; left; reflexivity|]. intros (c & [C|C]); discriminate C. Qed.
Print Assumptions c141_inline_refuted.

(* ---- C142 ---- *)
Section Waiting.
  Context {S : Type}.
  Implicit Type es : list (HttpModel.fev S).
  Lemma run_app es es' : HttpModel.frun (es ++ es') = fold_left HttpModel.fstep es' (HttpModel.frun es).
  Proof. unfold HttpModel.frun. apply fold_left_app. Qed.
  Lemma still st es id : HttpModel.results st id <> None -> ~ In id (fetches es) -> HttpModel.results (fold_left HttpModel.fstep es st) id <> None.
  Proof.
    revert st. induction es as [|e es IH]; intros st K N; [exact K|]. cbn [fold_left]. apply IH; [|intros I; apply N; cbn [fetches flat_map]; apply in_or_app; right; exact I].
    destruct e as [i s|i]; cbn [HttpModel.fstep HttpModel.results].
    - unfold HttpModel.fset. destruct (Nat.eqb id i); [discriminate|exact K].
    - assert (Nat.eqb id i = false) by (apply Nat.eqb_neq; intros ->; apply N; left; reflexivity). destruct (HttpModel.results st i); [|exact K]. cbn [HttpModel.results]. unfold HttpModel.fset. rewrite H. exact K.
  Qed.
  Lemma absent st es id : HttpModel.results st id = None -> ~ In id (HttpSpec.query_ids es) -> HttpModel.results (fold_left HttpModel.fstep es st) id = None.
  Proof.
    revert st. induction es as [|e es IH]; intros st K N; [exact K|]. cbn [fold_left]. apply IH; [|intros I; apply N; cbn [HttpSpec.query_ids flat_map]; apply in_or_app; right; exact I].
    destruct e as [i s|i]; cbn [HttpModel.fstep HttpModel.results].
    - unfold HttpModel.fset. destruct (Nat.eqb_spec id i) as [->|]; [exfalso; apply N; left; reflexivity|exact K].
    - destruct (HttpModel.results st i); [|exact K]. cbn [HttpModel.results]. unfold HttpModel.fset. destruct (Nat.eqb id i); [reflexivity|exact K].
  Qed.
  (* What is fetched is not kept any longer *)
  Theorem c142_fetched_partial : forall es es' id, ~ In id (HttpSpec.query_ids es') -> HttpModel.results (HttpModel.frun (es ++ HttpModel.FFetch id :: es')) id = None.
  Proof.
    intros es es' id N. rewrite run_app. cbn [fold_left]. apply absent; [|exact N]. cbn [HttpModel.fstep]. destruct (HttpModel.results (HttpModel.frun es) id) eqn:E; [|exact E].
    cbn [HttpModel.results]. unfold HttpModel.fset. rewrite Nat.eqb_refl. reflexivity.
  Qed.
  (* A result that nobody fetches is kept for ever, whatever else happens *)
  Theorem c142_kept_refuted : forall es id s es', ~ In id (fetches es') -> HttpModel.results (HttpModel.frun (es ++ HttpModel.FQuery id s :: es')) id <> None.
  Proof.
    intros es id s es' N. rewrite run_app. cbn [fold_left]. apply still; [|exact N]. cbn [HttpModel.fstep HttpModel.results]. unfold HttpModel.fset. rewrite Nat.eqb_refl. discriminate.
  Qed.
  (* So what the server keeps has no bound *)
  Theorem c142_unbounded_refuted : forall (s : S) n, exists es, NoDup (HttpSpec.query_ids es) /\ forall es', (forall id, In id (HttpSpec.query_ids es) -> ~ In id (fetches es')) ->
    forall ids, keeps (HttpModel.frun (es ++ es')) ids -> n <= List.length ids.
  Proof.
    intros s n. exists (map (fun k => HttpModel.FQuery k s) (seq 0 n)).
    assert (Q : HttpSpec.query_ids (map (fun k => HttpModel.FQuery k s) (seq 0 n)) = seq 0 n).
    { unfold HttpSpec.query_ids. rewrite flat_map_concat_map, map_map. cbn. rewrite <- flat_map_concat_map. induction (seq 0 n) as [|x l IH]; [reflexivity|]. cbn. rewrite IH. reflexivity. }
    rewrite Q. split; [apply seq_NoDup|]. intros es' F ids [ND K]. rewrite <- (seq_length n 0). apply NoDup_incl_length; [apply seq_NoDup|]. intros id I. apply K.
    pose proof I as I'. apply in_split in I' as (a & b & E). rewrite E, map_app. cbn [map]. rewrite <- app_assoc. cbn [app]. apply c142_kept_refuted. intros C.
    unfold fetches in C. rewrite flat_map_app in C. apply in_app_or in C as [C|C]; [|exact (F id I C)]. apply in_flat_map in C as (e & C & C'). apply in_map_iff in C as (k & <- & _). destruct C'.
  Qed.
End Waiting.
Print Assumptions c142_fetched_partial.
Print Assumptions c142_kept_refuted.
Print Assumptions c142_unbounded_refuted.

(* ---- Examples ---- *)
Definition ex_hash (t : list ascii) : list ascii := "#"%char :: t.
Definition ex_policy : HttpModel.policy := {| HttpModel.read := HttpModel.Password (s_ "#r"); HttpModel.write := HttpModel.Password (s_ "#w") |}.
Definition ex_get (p : string) (token : option string) : http_request :=
  {| verb := Get; path := s_ p; auth := option_map (fun t => s_ "Bearer " ++ s_ t) token; json := false; form := None; answers := fun r => match r with ReadQuery _ _ => 400 | _ => 200 end |}.
Definition ex_post (p : string) (token : option string) : http_request :=
  {| verb := Post; path := s_ p; auth := option_map (fun t => s_ "Bearer " ++ s_ t) token; json := true; form := Some 413; answers := fun r => 200 |}.
Definition ex_both q := (answered ex_hash ex_policy q, counted_status ex_hash ex_policy q, string_of_list_ascii (label (path q))).
Example c138_ex :
  map ex_both [ex_get "/q/SELECT" (Some "r"); ex_get "/db/q/SELECT" (Some "x"); ex_post "/q" (Some "w"); ex_post "/db/q" None; ex_post "/upload/s/t" (Some "w"); ex_post "/upload/q" (Some "w"); ex_get "/quux" None; ex_get "/healthz" None; ex_post "/q/SELECT" None]%string
  = [(400, 400, "/q"); (401, 500, "/q"); (200, 200, "/q"); (401, 500, "/q"); (413, 413, "/upload"); (200, 200, "/upload"); (404, 404, "/q"); (200, 200, "/healthz"); (405, 405, "/q")]%string.
Proof. reflexivity. Qed.
Example c138_away_ex : turned_away ex_hash ex_policy (ex_get "/db/q/SELECT" (Some "x"%string)) /\ ~ turned_away ex_hash ex_policy (ex_get "/q/SELECT" (Some "r"%string)).
Proof.
  assert (N : forall c, ~ HttpSpec.starts_with_bearer [c]) by (intros c (r & E); discriminate E). split.
  - left. intros [[A _]|(t & P & R)]; [discriminate A|]. assert (T : t = s_ "x") by (apply (presents_same _ _ _ P); exists 0; split; [reflexivity|apply N]). subst t.
    destruct R as [(h & E & H)|(h & E & H)]; injection E as <-; discriminate H.
  - intros [B|[C|[A _]]]; [|discriminate C|discriminate A]. apply B. right. exists (s_ "r"). split; [exists 0; split; [reflexivity|apply N]|]. left. exists (s_ "#r"). split; reflexivity.
Qed.
Example c138_wrong_ex : wrong_token ex_hash ex_policy (ex_get "/db/q/SELECT" (Some "x"%string)).
Proof.
  exists (s_ "x"). split; [exists 0; split; [reflexivity|intros (r & E); discriminate E]|]. split; [intros (h & E & H); injection E as <-; discriminate H|].
  split; [intros (h & E & H); injection E as <-; discriminate H|]. exists (s_ "#r"). left. reflexivity.
Qed.
Example c139_ex : map (fun p => string_of_list_ascii (label (s_ p))) ["/favicon.ico"; "/admin/login.php"; "/db/q/a"; "/db/upload/s/t"]%string = ["/favicon.ico"; "/admin/login.php"; "/q"; "/upload"]%string.
Proof. reflexivity. Qed.
Example c140_ex : let cs := [GetInfo (Runs (Some ResourcesExhausted)); DoGet (Some (Runs (Some ResourcesExhausted))); GetInfo (Unplannable SqlError); DoGet (Some (Runs None)); DoPut (Processed (Some InvalidMessage)); GetInline true false (Runs None)] in
  map (fun c => (counted_code (serve c), seen_code (serve c))) cs = [(Some COk, COk); (Some COk, CInternal); (Some CInternal, CInternal); (Some COk, COk); (Some CInvalidArgument, CInvalidArgument); (None, CUnknown)]
  /\ List.length (filter counted_ok cs) = 3 /\ List.length (filter seen_ok cs) = 2.
Proof. repeat split; reflexivity. Qed.
Example c141_ex : engine_client_fault SqlError /\ ~ engine_client_fault ResourcesExhausted /\ client_fault (DoGet None) /\ server_fault (DoPut (Processed (Some DeltaTableError))) /\ sync_client_fault NotImplementedS.
Proof. cbn. repeat split; auto. Qed.
Example c142_ex : let st := HttpModel.frun [HttpModel.FQuery 1 "a"%string; HttpModel.FQuery 2 "b"%string; HttpModel.FFetch 1; HttpModel.FQuery 3 "c"%string] in keeps st [2; 3].
Proof.
  split; [repeat (constructor; [cbn; intros X; repeat destruct X as [X|X]; try discriminate X; exact X|]); constructor|]. intros id. cbn. unfold HttpModel.fset. split.
  - intros [<-|[<-|[]]]; discriminate.
  - destruct id as [|[|[|[|id]]]]; cbn; intros C; try contradiction; [left; reflexivity|right; left; reflexivity].
Qed.
