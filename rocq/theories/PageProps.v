(* C167: web pages of any origin can use the HTTP API. PageSpec.v says what the property means, PageModel.v is the code. *)
From Coq Require Import Ascii String List Bool Arith Lia.
From Verif Require Import RespModel CountModel CountSpec CountProps PageModel PageSpec.
From Verif Require HttpModel HttpSpec.
Import ListNotations.
Open Scope list_scope.

Lemma same_eq a b : same a b = true <-> a = b.
Proof.
  revert b. induction a as [|x a IH]; intros [|y b]; cbn [same]; try (split; [discriminate|discriminate]); [split; reflexivity|]. rewrite andb_true_iff, IH, Ascii.eqb_eq. split; [intros [-> ->]; reflexivity|intros H; injection H as -> ->; split; reflexivity].
Qed.
Lemma mem_in n l : mem n l = true <-> In n l.
Proof. unfold mem. rewrite existsb_exists. split; [intros (x & I & E); apply same_eq in E; subst x; exact I|intros I; exists n; split; [exact I|apply same_eq; reflexivity]]. Qed.

Section Page.
  Variable hash : list ascii -> list ascii.
  Variable policy : HttpModel.policy.
  Variable headers_of : http_request -> list (list ascii).
  Notation fetched := (fetched hash policy headers_of).
  Notation routes := (routes hash policy).
  Notation answered := (answered hash policy).

  Definition done (v : verdict) : Prop := exists st, v = Handled st.
  Lemma done_l a b : done a -> done (or_else a b).
  Proof. intros [st ->]. exists st. reflexivity. Qed.
  Lemma done_r a b : done b -> done (or_else a b).
  Proof. intros [st ->]. destruct a as [s|r]; [exists s; reflexivity|exists st; reflexivity]. Qed.
  Lemma handled q : ~ turned_away hash policy q -> sensible q -> done (routes q).
  Proof.
    rewrite turned_away_iff. unfold turned_away_, sensible, target. intros T S1. destruct (verb q) eqn:V.
    - pose proof (get_not_run (path q)) as G. unfold CountModel.routes. destruct (RespModel.request Get (path q)) as [d x|d|d s t| |] eqn:R; try contradiction.
      + apply done_l, done_l, done_l. unfold cached_read, route_filter, with_auth. rewrite R, V. cbn [is_read].
        destruct (HttpModel.header_to_principal hash (auth q) policy) as [pr|e] eqn:P; [|exfalso; apply T; left; exists e; exact P].
        destruct (HttpModel.read policy) eqn:O; [|exfalso; apply T; right; left; exact O|];
          (destruct (HttpModel.can_perform_action pr HttpModel.Read policy) eqn:Q; [eexists; reflexivity|exfalso; apply T; right; right; exists pr; split; assumption]).
      + apply done_r. unfold health, route_filter. rewrite R, V. cbn [is_health]. eexists. reflexivity.
    - pose proof (post_not_read (path q)) as G. unfold CountModel.routes. destruct (RespModel.request Post (path q)) as [d x|d|d s t| |] eqn:R; try contradiction.
      + apply done_l, done_l, done_r. unfold uncached, route_filter, with_auth. rewrite R, V. cbn [is_run].
        destruct (HttpModel.header_to_principal hash (auth q) policy) as [pr|e] eqn:P; [|exfalso; apply T; left; exists e; exact P].
        destruct (json q) eqn:J; [eexists; reflexivity|exfalso; apply T; right; reflexivity].
      + apply done_l, done_r. unfold upload, route_filter, with_auth. rewrite R, V. cbn [is_upload].
        destruct (HttpModel.header_to_principal hash (auth q) policy) as [pr|e] eqn:P; [|exfalso; apply T; exists e; exact P]. rewrite S1. eexists. reflexivity.
  Qed.
  Lemma allowed g : usual_headers g -> forall m, match unsafe_names g with [] => true | names => preflight_ok m names end = true.
  Proof.
    intros U m. assert (A : forall n, In n (unsafe_names g) -> mem n allow_headers = true).
    { intros n. unfold unsafe_names. rewrite !in_app_iff. intros [I|[I|[I|I]]].
      - destruct (auth (request g)); [destruct I as [<-|[]]; reflexivity|destruct I].
      - destruct (content_type g) as [t|]; [destruct (mem t safe_types); [destruct I|destruct I as [<-|[]]; reflexivity]|destruct I].
      - destruct (query_header g); [destruct I as [<-|[]]; reflexivity|destruct I].
      - apply filter_In in I as [I N]. destruct (U n I) as [<-|[<-|[<-|[<-|[<-|[<-|[]]]]]]]; try discriminate N; reflexivity. }
    destruct (unsafe_names g) as [|n l]; [reflexivity|]. unfold preflight_ok. apply andb_true_iff. split; [destruct m; reflexivity|]. apply forallb_forall. exact A.
  Qed.
  (* C167: a request that the server hands to its handler is answered to pages as to everybody else, with its Content-Type and Cache-Control *)
  Theorem c167_partial : forall g, usual_headers g -> sendable g -> sensible (request g) -> ~ turned_away hash policy (request g) ->
    exists hs, fetched g = Sees (answered (request g)) hs /\
      forall n, n = s_ "content-type" \/ n = s_ "cache-control" -> (In n hs <-> In n (headers_of (request g))).
  Proof.
    intros g U B S1 T. destruct (handled (request g) T S1) as [st E]. exists (filter readable (headers_of (request g))). split.
    - unfold fetched, CountModel.answered. rewrite E, (allowed g U). destruct B as [-> | ->]; [reflexivity|destruct (verb (request g)); reflexivity].
    - intros n N. rewrite filter_In. assert (R : readable n = true) by (destruct N as [-> | ->]; reflexivity). rewrite R. tauto.
  Qed.
  (* C167: what a page sees is what everybody else sees *)
  Theorem c167_same : forall g st hs, fetched g = Sees st hs -> st = answered (request g) /\ incl hs (headers_of (request g)).
  Proof.
    intros g st hs. unfold fetched, CountModel.answered. destruct (match verb (request g) with Get => has_body g | Post => false end); [discriminate|].
    destruct (match unsafe_names g with [] => true | names => preflight_ok (verb (request g)) names end); [|discriminate]. destruct (routes (request g)) as [s|r]; cbn [shared_status]; [|discriminate].
    intros H. injection H as <- <-. split; [reflexivity|]. intros n I. apply filter_In in I as [I _]. exact I.
  Qed.
  Lemma rejected_unseen g r : routes (request g) = Rejected r -> fetched g = NetworkError.
  Proof.
    intros E. unfold fetched. rewrite E. cbn [shared_status]. destruct (match verb (request g) with Get => has_body g | Post => false end); [reflexivity|].
    destruct (match unsafe_names g with [] => true | names => preflight_ok (verb (request g)) names end); reflexivity.
  Qed.
  (* A page is not told that its token is missing or wrong, or that there is no query: it sees what it sees when there is no server *)
  Theorem c167_refusal_refuted : forall g, turned_away hash policy (request g) -> 400 <= answered (request g) < 500 /\ fetched g = NetworkError.
  Proof.
    intros g T. apply turned_away_iff, away_ in T as (e & R & S1). destruct (refused_eq _ _ _ _ R) as [_ ->]. split; [exact S1|]. destruct R as (r & E & _). exact (rejected_unseen g r E).
  Qed.
  (* Nor that there is nothing under its URL *)
  Theorem c167_nothing_refuted : forall g, target (request g) = NotFound -> fetched g = NetworkError.
  Proof.
    intros g N. unfold target in N. assert (E : exists r, routes (request g) = Rejected r).
    { unfold CountModel.routes, cached_read, uncached, upload, health, route_filter. destruct (verb (request g)) eqn:V; rewrite N; cbn [is_read is_run is_upload is_health];
        repeat match goal with |- context [if ?b then _ else _] => destruct b end; cbn [or_else]; eexists; reflexivity. }
    destruct E as [r E]. exact (rejected_unseen g r E).
  Qed.
  Lemma foreign g n m : In n (others g) -> mem n safe_names = false -> mem n allow_headers = false -> match unsafe_names g with [] => true | names => preflight_ok m names end = false.
  Proof.
    intros I N A. assert (U : In n (unsafe_names g)) by (unfold unsafe_names; rewrite !in_app_iff; right; right; right; apply filter_In; split; [exact I|rewrite N; reflexivity]).
    destruct (unsafe_names g) as [|x l]; [destruct U|]. unfold preflight_ok. apply andb_false_iff. right.
    destruct (forallb (fun y => mem y allow_headers) (x :: l)) eqn:F; [|reflexivity]. rewrite forallb_forall in F. specialize (F _ U). cbv beta in F. rewrite A in F. discriminate F.
  Qed.
  Lemma nonsense q : ~ sensible q -> exists r, routes q = Rejected r.
  Proof.
    unfold sensible, target. intros N. unfold CountModel.routes, cached_read, uncached, upload, health, route_filter. destruct (verb q) eqn:V.
    - pose proof (get_not_run (path q)) as G. destruct (RespModel.request Get (path q)) as [d x|d|d s t| |]; try contradiction; try (exfalso; apply N; exact Logic.I).
      cbn [is_read is_run is_upload is_health]. repeat match goal with |- context [if ?b then _ else _] => destruct b end; cbn [or_else]; eexists; reflexivity.
    - pose proof (post_not_read (path q)) as G. pose proof (get_not_run (path q)) as G2. destruct (RespModel.request Post (path q)) as [d x|d|d s t| |] eqn:R; try contradiction; try (exfalso; apply N; exact Logic.I);
        destruct (RespModel.request Get (path q)) as [d' x'|d'|d' s' t'| |] eqn:R2; try contradiction; cbn [is_read is_run is_upload is_health]; unfold with_auth;
        repeat match goal with
        | |- context [match HttpModel.header_to_principal ?h ?a ?p with _ => _ end] => destruct (HttpModel.header_to_principal h a p)
        | |- context [match form q with _ => _ end] => destruct (form q); [|exfalso; apply N; reflexivity]
        end; cbn [or_else]; eexists; reflexivity.
  Qed.
  (* C167: exactly which requests of pages are answered *)
  Theorem c167_exact : forall g, (exists st hs, fetched g = Sees st hs) <->
    usual_headers g /\ sendable g /\ sensible (request g) /\ ~ turned_away hash policy (request g).
  Proof.
    intros g. split; [|intros (U & B & S1 & T); destruct (c167_partial g U B S1 T) as (hs & E & _); exists (answered (request g)), hs; exact E].
    intros (st & hs & E). split; [|split; [|split]].
    - intros n I. destruct (mem n safe_names) eqn:N; [apply mem_in in N; destruct N as [<-|[<-|[<-|[]]]]; cbn [In]; tauto|].
      destruct (mem n allow_headers) eqn:A; [apply mem_in in A; destruct A as [<-|[<-|[<-|[]]]]; cbn [In]; tauto|]. exfalso.
      unfold PageModel.fetched in E. rewrite (foreign g n _ I N A) in E. destruct (match verb (request g) with Get => has_body g | Post => false end); discriminate E.
    - unfold sendable. unfold PageModel.fetched in E. destruct (verb (request g)); [right|left; reflexivity]. destruct (has_body g); [discriminate E|reflexivity].
    - assert (D : sensible (request g) \/ ~ sensible (request g)) by (unfold sensible; destruct (target (request g)); try tauto; destruct (form (request g)); [right; discriminate|left; reflexivity]).
      destruct D as [D|D]; [exact D|]. destruct (nonsense _ D) as [r R]. rewrite (rejected_unseen g r R) in E. discriminate E.
    - intros T. destruct (c167_refusal_refuted g T) as [_ F]. rewrite F in E. discriminate E.
  Qed.
  (* A page that asks whether an answer that it has kept is still good gets none *)
  Theorem c167_conditional_refuted : forall g, In (s_ "if-none-match") (others g) -> fetched g = NetworkError.
  Proof.
    intros g I. unfold PageModel.fetched. rewrite (foreign g _ _ I eq_refl eq_refl). destruct (match verb (request g) with Get => has_body g | Post => false end); reflexivity.
  Qed.
  (* The headers with the time that the query took and with the ETag are not for pages *)
  Theorem c167_headers_refuted : forall g st hs, fetched g = Sees st hs -> ~ In (s_ "x-seafowl-query-time") hs /\ ~ In (s_ "etag") hs.
  Proof.
    intros g st hs. unfold fetched. destruct (match verb (request g) with Get => has_body g | Post => false end); [discriminate|].
    destruct (match unsafe_names g with [] => true | names => preflight_ok (verb (request g)) names end); [|discriminate]. destruct (shared_status (routes (request g))); [|discriminate].
    intros H. injection H as _ <-. split; intros I; apply filter_In in I as [_ I]; discriminate I.
  Qed.
End Page.

(* ---- cases that meet the hypotheses ---- *)
Definition ex_hash (t : list ascii) : list ascii := s_ "#" ++ t.
Definition ex_policy : HttpModel.policy := {| HttpModel.read := HttpModel.Any; HttpModel.write := HttpModel.Password (s_ "#secret") |}.
Definition ex_request (v : method) (p : string) (a : option (list ascii)) : http_request :=
  {| verb := v; path := s_ p; auth := a; json := true; form := None; answers := fun _ => 200 |}.
Definition ex_headers (q : http_request) : list (list ascii) := [s_ "content-type"; s_ "etag"; s_ "x-seafowl-query-time"].
(* a page runs a query with the right token *)
Definition ex_run : page_request := {| request := ex_request Post "/q" (Some (s_ "Bearer secret")); query_header := false; content_type := Some (s_ "application/json"); has_body := true; others := [s_ "accept"] |}.
Example ex_page : usual_headers ex_run /\ sendable ex_run /\ sensible (request ex_run) /\ fetched ex_hash ex_policy ex_headers ex_run = Sees 200 [s_ "content-type"].
Proof. split; [intros n [<-|[]]; left; reflexivity|]. split; [left; reflexivity|]. split; [exact Logic.I|vm_compute; reflexivity]. Qed.
Example ex_not_away : ~ turned_away ex_hash ex_policy (request ex_run).
Proof.
  intros [B|J]; [|discriminate J]. apply B. right. exists (s_ "secret"). split; [|right; exists (s_ "#secret"); split; reflexivity].
  exists 0. split; [reflexivity|]. intros [r E]. discriminate E.
Qed.
(* and one with a wrong token *)
Example ex_refused : let g := {| request := ex_request Post "/q" (Some (s_ "Bearer wrong")); query_header := false; content_type := Some (s_ "application/json"); has_body := true; others := [] |} in
  turned_away ex_hash ex_policy (request g) /\ answered ex_hash ex_policy (request g) = 401 /\ fetched ex_hash ex_policy ex_headers g = NetworkError.
Proof.
  split; [|split; vm_compute; reflexivity]. apply turned_away_iff. left. eexists. vm_compute. reflexivity.
Qed.
Example ex_nothing : target (ex_request Get "/nothing/here" None) = NotFound.
Proof. vm_compute. reflexivity. Qed.

Print Assumptions c167_partial.
Print Assumptions c167_same.
Print Assumptions c167_exact.
Print Assumptions c167_refusal_refuted.
Print Assumptions c167_nothing_refuted.
Print Assumptions c167_conditional_refuted.
Print Assumptions c167_headers_refuted.
