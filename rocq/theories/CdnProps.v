(* C165: an HTTP cache in front of the server answers queries as the server does. CdnSpec.v says what the property means, CdnModel.v is the code. *)
From Coq Require Import Ascii String List Arith NArith Bool Lia.
From Verif Require Import HttpModel HttpSpec HttpProofs CdnModel CdnSpec.
Import ListNotations.
Open Scope list_scope.

Section Cdn.
  Variable hash : list ascii -> list ascii.
  Variable utf8 : list ascii -> bool.
  Variable world : Type.
  Variable plan_of : world -> list ascii -> list ascii -> option plan.
  Variable rows : Type.
  Variable rows_of : world -> list ascii -> list ascii -> option rows.
  Variable tag : list N -> list ascii.
  Variable c : control.
  Variable x : proxy.
  Notation serve := (serve hash utf8 world plan_of rows rows_of tag).
  Notation reply_to := (reply_to hash utf8 world plan_of rows rows_of tag c x).
  Notation run := (run hash utf8 world plan_of rows rows_of tag c x).
  Notation get_step := (get_step hash utf8 world plan_of rows rows_of tag c x).
  Notation step := (step hash utf8 world plan_of rows rows_of tag c x).
  Notation Data := (Data rows). Notation Fails := (Fails rows). Notation Unmodified := (Unmodified rows).
  Notation selects := (selects rows x). Notation state := (state world rows).
  Notation data := (data world rows). Notation settings := (settings world rows). Notation now := (now world rows). Notation store := (store world rows).
  Notation asked := (asked rows). Notation kept := (kept rows). Notation kept_tag := (kept_tag rows). Notation since := (since rows).
  Notation Get := (Get world). Notation Change := (Change world). Notation Restart := (Restart world). Notation Tick := (Tick world).

  Lemma oeqb_eq a b : oeqb a b = true <-> a = b.
  Proof. destruct a, b; cbn; try (split; [discriminate|discriminate]); [rewrite teqb_eq; split; congruence|tauto]. Qed.
  Lemma url_eq a b : same_url a b = true <-> url a = url b.
  Proof.
    unfold same_url. rewrite andb_true_iff, !teqb_eq. destruct (url a), (url b); cbn. split; [intros [-> ->]; reflexivity|intros H; injection H as -> ->; split; reflexivity].
  Qed.
  Lemma vary_eq a b : same_vary a b = true <-> authorization a = authorization b /\ content_type a = content_type b /\ origin a = origin b /\ x_seafowl_query a = x_seafowl_query b.
  Proof. unfold same_vary. rewrite !andb_true_iff, !oeqb_eq. tauto. Qed.
  Lemma serve_same p w a b inm : url a = url b -> authorization a = authorization b -> x_seafowl_query a = x_seafowl_query b -> body a = body b -> serve p w a inm = serve p w b inm.
  Proof. intros U A X B. unfold serve, raw_query. rewrite U, A, X, B. reflexivity. Qed.
  Lemma serve_may_read p w q inm : serve p w q inm <> Fails -> may_read hash p (authorization q).
  Proof.
    unfold serve. destruct (header_to_principal hash (authorization q) p) as [pr|e] eqn:H; [|contradiction]. intros N.
    assert (O : read p <> Off) by (destruct (read p); [discriminate|contradiction|discriminate]). split; [exact O|].
    assert (C : can_perform_action pr Read p = true) by (destruct (read p), (can_perform_action pr Read p); try reflexivity; contradiction).
    destruct (proj1 (c35_exact_ hash (authorization q) p Read)) as [[E S1]|(t & P & K)].
    - exists pr. split; [exact H|exact C].
    - left. split; [exact E|exact S1].
    - right. exists t. split; [exact P|]. destruct K as [K|[K|[K R]]]; [left; exact K|right; exact K|left; exact R].
  Qed.
  (* what the server answers, in terms of the plan and the rows of a query *)
  Lemma serve_data p w q inm r t : serve p w q inm = Data r t ->
    exists s pl, query_text hash utf8 (snd (url q)) (raw_query q) = Some s /\ plan_of w (fst (url q)) s = Some pl /\
      is_read_only pl = true /\ t = plan_to_etag (list ascii) tag pl /\ rows_of w (fst (url q)) s = Some r.
  Proof.
    unfold serve. destruct (header_to_principal hash (authorization q) p) as [pr|e]; [|discriminate].
    destruct (read p); [|discriminate|]; (destruct (can_perform_action pr Read p); [|discriminate]);
      (destruct (query_text hash utf8 (snd (url q)) (raw_query q)) as [s|]; [|discriminate]); (destruct (plan_of w (fst (url q)) s) as [pl|] eqn:PL; [|discriminate]);
      unfold get_reply; (destruct (is_read_only pl) eqn:RO; cbn [negb]; [|discriminate]);
      (destruct inm as [i|]; [destruct (teqb (plan_to_etag (list ascii) tag pl) i); [discriminate|]|]);
      (destruct (rows_of w (fst (url q)) s) as [r'|] eqn:RW; [|discriminate]); intros H; injection H as <- <-; exists s, pl; repeat (split; [first [reflexivity|assumption]|]); assumption.
  Qed.
  Lemma serve_unmodified p w q i : serve p w q (Some i) = Unmodified ->
    exists s pl, query_text hash utf8 (snd (url q)) (raw_query q) = Some s /\ plan_of w (fst (url q)) s = Some pl /\ i = plan_to_etag (list ascii) tag pl /\
      serve p w q None = match rows_of w (fst (url q)) s with Some r => Data r i | None => Fails end.
  Proof.
    unfold serve. destruct (header_to_principal hash (authorization q) p) as [pr|e]; [|discriminate].
    destruct (read p); [|discriminate|]; (destruct (can_perform_action pr Read p); [|discriminate]);
      (destruct (query_text hash utf8 (snd (url q)) (raw_query q)) as [s|]; [|discriminate]); (destruct (plan_of w (fst (url q)) s) as [pl|] eqn:PL; [|discriminate]);
      unfold get_reply; (destruct (is_read_only pl) eqn:RO; cbn [negb]; [|discriminate]);
      (destruct (teqb (plan_to_etag (list ascii) tag pl) i) eqn:T; [|destruct (rows_of w (fst (url q)) s); discriminate]); intros _; apply teqb_eq in T; subst i;
      exists s, pl; repeat (split; [first [reflexivity|assumption]|]); reflexivity.
  Qed.
  Lemma serve_conditional p w q i a : serve p w q (Some i) = a -> a <> Unmodified -> serve p w q None = a.
  Proof.
    intros <-. unfold serve. destruct (header_to_principal hash (authorization q) p) as [pr|e]; [|reflexivity].
    destruct (read p); try reflexivity; (destruct (can_perform_action pr Read p); [|reflexivity]);
      (destruct (query_text hash utf8 (snd (url q)) (raw_query q)) as [s|]; [|reflexivity]); (destruct (plan_of w (fst (url q)) s) as [pl|]; [|reflexivity]);
      unfold get_reply; (destruct (is_read_only pl); cbn [negb]; [|reflexivity]); (destruct (teqb (plan_to_etag (list ascii) tag pl) i); [intros N; contradiction|reflexivity]).
  Qed.
  Lemma serve_again p w q r t : serve p w q None = Data r t -> serve p w q (Some t) = Unmodified.
  Proof.
    unfold serve. destruct (header_to_principal hash (authorization q) p) as [pr|e]; [|discriminate].
    destruct (read p); [|discriminate|]; (destruct (can_perform_action pr Read p); [|discriminate]);
      (destruct (query_text hash utf8 (snd (url q)) (raw_query q)) as [s|]; [|discriminate]); (destruct (plan_of w (fst (url q)) s) as [pl|]; [|discriminate]);
      unfold get_reply; (destruct (is_read_only pl); cbn [negb]; [|discriminate]); (destruct (rows_of w (fst (url q)) s) as [r'|]; [|discriminate]); intros H; injection H as _ <-;
      rewrite (proj2 (teqb_eq _ _) eq_refl); reflexivity.
  Qed.
  Lemma serve_none p w q : serve p w q None <> Unmodified.
  Proof.
    unfold serve. destruct (header_to_principal hash (authorization q) p) as [pr|e]; [|discriminate].
    destruct (read p); try discriminate; (destruct (can_perform_action pr Read p); [|discriminate]);
      (destruct (query_text hash utf8 (snd (url q)) (raw_query q)) as [s|]; [|discriminate]); (destruct (plan_of w (fst (url q)) s) as [pl|]; [|discriminate]);
      unfold get_reply; (destruct (is_read_only pl); cbn [negb]; [|discriminate]); (destruct (rows_of w (fst (url q)) s); discriminate).
  Qed.
  Lemma run_snoc w p evs ev : run w p (evs ++ [ev]) = step (run w p evs) ev.
  Proof. unfold run. rewrite fold_left_app. reflexivity. Qed.
  Lemma run_now w p evs : now (run w p evs) = ticks evs /\ data (run w p evs) = data_after w evs /\ settings (run w p evs) = settings_after p evs.
  Proof.
    induction evs as [|ev evs (A & B & C)] using rev_ind; [split; [reflexivity|split; reflexivity]|]. rewrite run_snoc. unfold ticks, data_after, settings_after in *. rewrite filter_app, app_length, !fold_left_app.
    assert (G : forall q, now (fst (get_step (run w p evs) q)) = now (run w p evs) /\ data (fst (get_step (run w p evs) q)) = data (run w p evs) /\ settings (fst (get_step (run w p evs) q)) = settings (run w p evs)).
    { intros q. unfold get_step. destruct (find _ _) as [e|].
      - destruct (_ <? _); [split; [reflexivity|split; reflexivity]|]. destruct (serve _ _ _ _); [destruct (storable c x q)| |]; (split; [reflexivity|split; reflexivity]).
      - destruct (serve _ _ _ _); [destruct (storable c x q)| |]; (split; [reflexivity|split; reflexivity]). }
    destruct ev as [q|w'|p'|]; cbn [step filter List.length fold_left].
    - destruct (G q) as (G1 & G2 & G3). rewrite G1, G2, G3, A, B, C. split; [lia|split; reflexivity].
    - cbn. rewrite A, C. split; [lia|split; reflexivity].
    - cbn. rewrite A, B. split; [lia|split; reflexivity].
    - cbn. rewrite A, B, C. split; [lia|split; reflexivity].
  Qed.
  (* A step leaves the stored answers, or stores the one that it gives *)
  Lemma get_cases st q : (fst (get_step st q) = st) \/
    (exists r t, snd (get_step st q) = Data r t /\ store (fst (get_step st q)) = {| CdnModel.asked := q; CdnModel.kept := r; CdnModel.kept_tag := t; CdnModel.since := now st |} :: filter (fun e => negb (selects q e)) (store st) /\
       (serve (settings st) (data st) q None = Data r t /\ storable c x q = true \/
        exists e, find (selects q) (store st) = Some e /\ r = kept e /\ t = kept_tag e /\ serve (settings st) (data st) q (Some t) = Unmodified)).
  Proof.
    unfold get_step. destruct (find (selects q) (store st)) as [e|] eqn:F.
    - destruct (_ <? _); [left; reflexivity|]. destruct (serve (settings st) (data st) q (Some (kept_tag e))) as [r t| |] eqn:S1; [|right|left; reflexivity].
      + destruct (storable c x q) eqn:Q; [right|left; reflexivity]. exists r, t. split; [reflexivity|]. split; [reflexivity|]. left. split; [apply (serve_conditional _ _ _ _ _ S1); discriminate|reflexivity].
      + exists (kept e), (kept_tag e). split; [reflexivity|]. split; [reflexivity|]. right. exists e. split; [reflexivity|]. split; [reflexivity|]. split; [reflexivity|exact S1].
    - destruct (serve (settings st) (data st) q None) as [r t| |] eqn:S1; [|left; reflexivity|left; reflexivity]. destruct (storable c x q) eqn:Q; [right|left; reflexivity].
      exists r, t. split; [reflexivity|]. split; [reflexivity|]. left. split; [reflexivity|reflexivity].
  Qed.
  (* The answer is a stored one that is fresh, or what the server says *)
  Lemma answer_cases st q a : snd (get_step st q) = a ->
    (exists e, find (selects q) (store st) = Some e /\ now st - since e < max_age c /\ a = Data (kept e) (kept_tag e)) \/
    (exists e, find (selects q) (store st) = Some e /\ a = Data (kept e) (kept_tag e) /\ serve (settings st) (data st) q (Some (kept_tag e)) = Unmodified) \/
    serve (settings st) (data st) q None = a.
  Proof.
    unfold get_step. destruct (find (selects q) (store st)) as [e|] eqn:F.
    - destruct (Nat.ltb_spec (now st - since e) (max_age c)) as [L|L]; [intros <-; left; exists e; split; [reflexivity|split; [exact L|reflexivity]]|]. intros H. right. revert H.
      destruct (serve (settings st) (data st) q (Some (kept_tag e))) as [r t| |] eqn:S1; cbn [snd]; intros <-.
      + right. apply (serve_conditional _ _ _ _ _ S1). discriminate.
      + left. exists e. split; [reflexivity|]. split; [reflexivity|exact S1].
      + right. apply (serve_conditional _ _ _ _ _ S1). discriminate.
    - intros H. right. right. revert H. pose proof (serve_none (settings st) (data st) q). destruct (serve (settings st) (data st) q None) as [r t| |]; cbn [snd]; [|contradiction|]; intros <-; reflexivity.
  Qed.
  Lemma selects_iff q e : heeds_vary x = true -> selects q e = true ->
    url (asked e) = url q /\ authorization (asked e) = authorization q /\ x_seafowl_query (asked e) = x_seafowl_query q.
  Proof.
    intros V. unfold selects. rewrite V. cbn [negb orb]. rewrite andb_true_iff, url_eq, vary_eq. tauto.
  Qed.

  (* ---- who is answered ---- *)
  Lemma stored_may_read w p evs : heeds_vary x = true -> same_settings evs -> forall e, In e (store (run w p evs)) -> may_read hash p (authorization (asked e)).
  Proof.
    intros V. induction evs as [|ev evs IH] using rev_ind; intros SS; [intros e []|]. rewrite run_snoc.
    assert (SS' : same_settings evs) by (intros p' I; apply (SS p'); apply in_or_app; left; exact I). specialize (IH SS').
    assert (P : settings (run w p evs) = p).
    { rewrite (proj2 (proj2 (run_now w p evs))). clear -SS'. unfold settings_after. revert p. induction evs as [|ev evs IH]; intros p; [reflexivity|]. cbn [fold_left].
      destruct ev; try (apply IH; intros p' I; apply (SS' p'); right; exact I). exfalso. apply (SS' p0). left. reflexivity. }
    destruct ev as [q|w'|p'|]; [|exact IH|exact IH|exact IH]. cbn [step]. destruct (get_cases (run w p evs) q) as [->|(r & t & _ & -> & S1)]; [exact IH|]. intros e [<-|I].
    - cbn [CdnModel.asked]. rewrite <- P. destruct S1 as [[S1 _]|(e & _ & _ & _ & S1)]; eapply serve_may_read; rewrite S1; discriminate.
    - apply IH. apply filter_In in I as [I _]. exact I.
  Qed.
  (* C165: a request is answered with data only if the settings let its sender read *)
  Theorem c165_access_partial : heeds_vary x = true -> forall w p evs q r t, same_settings evs -> reply_to w p evs q = Data r t -> may_read hash p (authorization q).
  Proof.
    intros V w p evs q r t SS H. assert (P : settings (run w p evs) = p).
    { rewrite (proj2 (proj2 (run_now w p evs))). clear -SS. unfold settings_after. revert p. induction evs as [|ev evs IH]; intros p; [reflexivity|]. cbn [fold_left].
      destruct ev; try (apply IH; intros p' I; apply (SS p'); right; exact I). exfalso. apply (SS p0). left. reflexivity. }
    destruct (answer_cases _ _ _ H) as [(e & F & _)|[(e & F & _ & S1)|S1]].
    - apply find_some in F as [I S1]. rewrite <- (proj1 (proj2 (selects_iff q e V S1))). exact (stored_may_read w p evs V SS e I).
    - rewrite <- P. eapply serve_may_read. rewrite S1. discriminate.
    - rewrite <- P. eapply serve_may_read. rewrite S1. discriminate.
  Qed.

  (* ---- what is answered ---- *)
  Lemma stored_fresh w p evs : heeds_vary x = true -> tags_identify plan_of rows_of tag -> no_bodies evs -> forall e, In e (store (run w p evs)) ->
    body (asked e) = None /\ exists before after, evs = before ++ after /\ since e = ticks before /\ serve (settings_after p before) (data_after w before) (asked e) None = Data (kept e) (kept_tag e).
  Proof.
    intros V T. induction evs as [|ev evs IH] using rev_ind; intros NB; [intros e []|]. rewrite run_snoc.
    assert (NB' : no_bodies evs) by (intros q I; apply NB; apply in_or_app; left; exact I). specialize (IH NB').
    assert (K : forall e, In e (store (run w p evs)) -> body (asked e) = None /\ exists before after, evs ++ [ev] = before ++ after /\ since e = ticks before /\
      serve (settings_after p before) (data_after w before) (asked e) None = Data (kept e) (kept_tag e)).
    { intros e I. destruct (IH e I) as (B & b & a & -> & S1 & S2). split; [exact B|]. exists b, (a ++ [ev]). split; [symmetry; apply app_assoc|split; assumption]. }
    destruct ev as [q|w'|p'|]; [|exact K|exact K|exact K]. cbn [step]. destruct (get_cases (run w p evs) q) as [->|(r & t & _ & -> & S1)]; [exact K|]. intros e [<-|I].
    - assert (B : body q = None) by (apply NB, in_or_app; right; left; reflexivity). cbn [CdnModel.asked CdnModel.kept CdnModel.kept_tag CdnModel.since]. split; [exact B|]. exists evs, [Get q].
      split; [reflexivity|]. destruct (run_now w p evs) as (N & D & S2). split; [exact N|]. rewrite D, S2 in S1. destruct S1 as [[S1 _]|(e & F & -> & -> & S1)]; [exact S1|].
      apply find_some in F as [I F]. destruct (IH e I) as (B' & b & a & _ & _ & S3). destruct (selects_iff q e V F) as (U & A & X).
      rewrite (serve_same _ _ (asked e) q None U A X) in S3 by (rewrite B', B; reflexivity). destruct (serve_data _ _ _ _ _ _ S3) as (s & pl & Q & PL & _ & TG & RW).
      destruct (serve_unmodified _ _ _ _ S1) as (s' & pl' & Q' & PL' & TG' & ->). rewrite Q in Q'. injection Q' as <-. rewrite TG in TG'.
      rewrite <- (T _ _ _ _ _ _ PL PL' TG'), RW. reflexivity.
    - apply K. apply filter_In in I as [I _]. exact I.
  Qed.
  (* C165: data that is answered is what the server answers the same request, now or at a moment that is less than max-age ago *)
  Theorem c165_fresh_partial : heeds_vary x = true -> tags_identify plan_of rows_of tag -> forall w p evs q r t, no_bodies evs -> body q = None -> reply_to w p evs q = Data r t ->
    exists before after, evs = before ++ after /\ (after = [] \/ ticks after < max_age c) /\ serve (settings_after p before) (data_after w before) q None = Data r t.
  Proof.
    intros V T w p evs q r t NB B H. destruct (run_now w p evs) as (N & D & S2). destruct (answer_cases _ _ _ H) as [(e & F & L & E)|[(e & F & E & S1)|S1]].
    - apply find_some in F as [I F]. destruct (stored_fresh w p evs V T NB e I) as (B' & b & a & EV & S1 & S3). destruct (selects_iff q e V F) as (U & A & X). injection E as -> ->.
      exists b, a. split; [exact EV|]. split.
      + right. rewrite N, S1, EV in L. unfold ticks in *. rewrite filter_app, app_length in L. lia.
      + rewrite <- (serve_same _ _ (asked e) q None U A X) by (rewrite B', B; reflexivity). exact S3.
    - apply find_some in F as [I F]. destruct (stored_fresh w p evs V T NB e I) as (B' & b & a & EV & _ & S3). destruct (selects_iff q e V F) as (U & A & X). injection E as -> ->.
      exists evs, []. split; [symmetry; apply app_nil_r|]. split; [left; reflexivity|]. rewrite <- D, <- S2.
      rewrite (serve_same _ _ (asked e) q None U A X) in S3 by (rewrite B', B; reflexivity). destruct (serve_data _ _ _ _ _ _ S3) as (s & pl & Q & PL & _ & TG & RW).
      destruct (serve_unmodified _ _ _ _ S1) as (s' & pl' & Q' & PL' & TG' & ->). rewrite Q in Q'. injection Q' as <-. rewrite TG in TG'.
      rewrite <- (T _ _ _ _ _ _ PL PL' TG'), RW. reflexivity.
    - exists evs, []. split; [symmetry; apply app_nil_r|]. split; [left; reflexivity|]. rewrite <- D, <- S2. exact S1.
  Qed.
  (* C165: on a database of Delta tables, if different bytes have different hashes, nothing more has to be assumed about ETags *)
  Theorem c165_delta_partial : heeds_vary x = true -> (forall a b, tag a = tag b -> a = b) -> delta_only plan_of -> results_of_versions plan_of rows_of ->
    forall w p evs q r t, no_bodies evs -> body q = None -> reply_to w p evs q = Data r t ->
    exists before after, evs = before ++ after /\ (after = [] \/ ticks after < max_age c) /\ serve (settings_after p before) (data_after w before) q None = Data r t.
  Proof.
    intros V INJ DO RV. apply (c165_fresh_partial V). intros w w' db t pl pl' P P' T. apply (RV w w' db t pl pl' P P'). destruct (DO w db t pl P) as [N F], (DO w' db t pl' P') as [N' F'].
    exact (c38_ tag pl pl' INJ N N' F F' T).
  Qed.
  (* C165: errors are never answered from the cache *)
  Theorem c165_errors : forall w p evs q, reply_to w p evs q = Fails -> serve (settings_after p evs) (data_after w evs) q None = Fails.
  Proof.
    intros w p evs q H. destruct (run_now w p evs) as (_ & D & S2). rewrite <- D, <- S2. destruct (answer_cases _ _ _ H) as [(e & _ & _ & E)|[(e & _ & E & _)|S1]]; [discriminate E|discriminate E|exact S1].
  Qed.
  (* C165: a configuration with "private" keeps shared caches out *)
  Theorem c165_private : shared x = true -> private c = true -> forall w p evs q, reply_to w p evs q = serve (settings_after p evs) (data_after w evs) q None.
  Proof.
    intros SH PR w p evs q. assert (E : store (run w p evs) = []).
    { induction evs as [|ev evs IH] using rev_ind; [reflexivity|]. rewrite run_snoc. destruct ev as [q'|w'|p'|]; [|exact IH|exact IH|exact IH]. cbn [step]. unfold get_step, storable. rewrite IH, SH, PR. cbn [find andb orb negb].
      destruct (serve _ _ q' None); exact IH. }
    destruct (run_now w p evs) as (_ & D & S2). rewrite <- D, <- S2. unfold reply_to, get_step, storable. rewrite E, SH, PR. cbn [find andb orb negb]. destruct (serve _ _ q None); reflexivity.
  Qed.

  (* C165: a query in the body is answered like the same query in the header, whatever the header has besides *)
  Theorem c165_query_in_body : forall p w u a ct o h b inm, serve p w {| url := u; authorization := a; content_type := ct; origin := o; x_seafowl_query := h; body := Some b |} inm =
    serve p w {| url := u; authorization := a; content_type := ct; origin := o; x_seafowl_query := Some b; body := None |} inm.
  Proof. intros p w u a ct o h b inm. reflexivity. Qed.

  (* ---- what goes wrong ---- *)
  Lemma selects_same q e : url (asked e) = url q -> heeds_vary x = false \/ (authorization (asked e) = authorization q /\ content_type (asked e) = content_type q /\ origin (asked e) = origin q /\ x_seafowl_query (asked e) = x_seafowl_query q) -> selects q e = true.
  Proof. intros U H. unfold selects. rewrite (proj2 (url_eq _ _) U). cbn [andb]. destruct H as [->|H]; [reflexivity|]. rewrite (proj2 (vary_eq _ _) H). apply orb_true_r. Qed.
  Lemma first_get w p q r t : serve p w q None = Data r t -> storable c x q = true ->
    run w p [Get q] = {| CdnModel.data := w; CdnModel.settings := p; CdnModel.now := 0; CdnModel.store := [{| CdnModel.asked := q; CdnModel.kept := r; CdnModel.kept_tag := t; CdnModel.since := 0 |}] |}.
  Proof. intros S1 Q. unfold run. cbn [fold_left step init]. unfold get_step. cbn [CdnModel.store CdnModel.settings CdnModel.data init find filter]. rewrite S1, Q. reflexivity. Qed.
  (* A token that is not valid any more is still good for all answers in the cache *)
  Theorem c165_revoked_refuted : forall w p p' q r t, serve p w q None = Data r t -> storable c x q = true -> 0 < max_age c ->
    reply_to w p [Get q; Restart p'] q = Data r t.
  Proof.
    intros w p p' q r t S1 Q M. unfold reply_to. change [Get q; Restart p'] with ([Get q] ++ [Restart p']). rewrite run_snoc, (first_get w p q r t S1 Q). cbn [step]. unfold get_step.
    cbn [CdnModel.store CdnModel.now CdnModel.data CdnModel.settings find]. rewrite selects_same; [|reflexivity|right; repeat split; reflexivity]. cbn [CdnModel.since CdnModel.kept CdnModel.kept_tag Nat.sub].
    destruct (Nat.ltb_spec 0 (max_age c)); [reflexivity|lia].
  Qed.
  (* A cache that does not heed Vary (the code names one) answers everybody *)
  Theorem c165_vary_refuted : heeds_vary x = false -> forall w p q q' r t, serve p w q None = Data r t -> storable c x q = true -> 0 < max_age c -> url q' = url q ->
    reply_to w p [Get q] q' = Data r t.
  Proof.
    intros V w p q q' r t S1 Q M U. unfold reply_to. rewrite (first_get w p q r t S1 Q). unfold get_step.
    cbn [CdnModel.store CdnModel.now CdnModel.data CdnModel.settings find]. rewrite selects_same; [|symmetry; exact U|left; exact V]. cbn [CdnModel.since CdnModel.kept CdnModel.kept_tag Nat.sub].
    destruct (Nat.ltb_spec 0 (max_age c)); [reflexivity|lia].
  Qed.
  (* The body of a request, which may hold the query, is not among what answers are told apart by *)
  Theorem c165_body_refuted : forall w p q b r t, serve p w {| url := url q; authorization := authorization q; content_type := content_type q; origin := origin q; x_seafowl_query := x_seafowl_query q; body := Some b |} None = Data r t ->
    storable c x q = true -> 0 < max_age c ->
    reply_to w p [Get {| url := url q; authorization := authorization q; content_type := content_type q; origin := origin q; x_seafowl_query := x_seafowl_query q; body := Some b |}] q = Data r t.
  Proof.
    intros w p q b r t S1 Q M. unfold reply_to. rewrite (first_get w p _ r t S1) by exact Q. unfold get_step.
    cbn [CdnModel.store CdnModel.now CdnModel.data CdnModel.settings find]. rewrite selects_same; [|reflexivity|right; repeat split; reflexivity]. cbn [CdnModel.since CdnModel.kept CdnModel.kept_tag Nat.sub].
    destruct (Nat.ltb_spec 0 (max_age c)); [reflexivity|lia].
  Qed.
  (* An answer whose ETag does not change is kept for ever, however the data changes and however much time passes *)
  Theorem c165_stale_refuted : forall w w' p q r r' t n, serve p w q None = Data r t -> storable c x q = true -> serve p w' q None = Data r' t ->
    reply_to w p ([Get q; Change w'] ++ repeat Tick n) q = Data r t.
  Proof.
    intros w w' p q r r' t n S1 Q U%serve_again. unfold reply_to.
    assert (E : run w p ([Get q; Change w'] ++ repeat Tick n) = {| CdnModel.data := w'; CdnModel.settings := p; CdnModel.now := n; CdnModel.store := [{| CdnModel.asked := q; CdnModel.kept := r; CdnModel.kept_tag := t; CdnModel.since := 0 |}] |}).
    { induction n as [|n IH].
      - cbn [repeat]. rewrite app_nil_r. change [Get q; Change w'] with ([Get q] ++ [Change w']). rewrite run_snoc, (first_get w p q r t S1 Q). reflexivity.
      - replace (repeat Tick (S n)) with (repeat Tick n ++ [Tick]) by (clear; induction n as [|n IH]; [reflexivity|cbn [repeat app] in *; f_equal; exact IH]).
        rewrite app_assoc, run_snoc, IH. reflexivity. }
    rewrite E. unfold get_step. cbn [CdnModel.store CdnModel.now CdnModel.data CdnModel.settings find]. rewrite selects_same; [|reflexivity|right; repeat split; reflexivity]. cbn [CdnModel.since CdnModel.kept CdnModel.kept_tag].
    destruct (_ <? _); [reflexivity|]. rewrite U. reflexivity.
  Qed.
  (* Queries of tables that are not Delta tables are such queries *)
  Lemma no_delta_visit : forall pl, (forall uri v, ~ In (Delta uri v) (sources pl)) -> visit pl = [].
  Proof.
    fix IH 1. intros [o inputs subs] H. cbn [visit]. assert (A : match o with OScan s => scan_bytes s | _ => [] end = []).
    { destruct o as [[u v|i s]| | | | | | |]; try reflexivity. exfalso. apply (H u v). cbn [sources]. left. reflexivity. }
    rewrite A. cbn [app]. assert (B : forall uri v, ~ In (Delta uri v) (flat_map sources inputs)).
    { intros u v I. apply (H u v). cbn [sources]. apply in_or_app. right. apply in_or_app. left. exact I. }
    clear A H. induction inputs as [|p l IHl]; [reflexivity|]. cbn [flat_map]. rewrite (IH p), IHl; [reflexivity| |].
    - intros u v I. apply (B u v). cbn [flat_map]. apply in_or_app. right. exact I.
    - intros u v I. apply (B u v). cbn [flat_map]. apply in_or_app. left. exact I.
  Qed.
  Theorem c165_external_refuted : no_delta plan_of -> forall w w' p q r r' t t' n, serve p w q None = Data r t -> storable c x q = true -> serve p w' q None = Data r' t' ->
    reply_to w p ([Get q; Change w'] ++ repeat Tick n) q = Data r t.
  Proof.
    intros ND w w' p q r r' t t' n S1 Q S2. apply (c165_stale_refuted w w' p q r r' t n S1 Q). rewrite S2. f_equal.
    destruct (serve_data _ _ _ _ _ _ S1) as (s & pl & _ & P & _ & -> & _), (serve_data _ _ _ _ _ _ S2) as (s' & pl' & _ & P' & _ & -> & _).
    unfold plan_to_etag. rewrite (no_delta_visit pl), (no_delta_visit pl'); [reflexivity| |]; intros u v; eapply ND; eassumption.
  Qed.
End Cdn.

(* ---- cases that meet the hypotheses ---- *)
Definition ex_hash (t : list ascii) : list ascii := s_ "#" ++ t.
Definition ex_utf8 (t : list ascii) : bool := true.
Definition ex_tag (l : list N) : list ascii := map ascii_of_N l.
(* one Delta table with two versions *)
Definition ex_plan (w : bool) (db t : list ascii) : option plan := if teqb t (s_ "q") then Some (Node (OScan (Delta [7%N] (if w then 2 else 1)%N)) [] []) else None.
(* one table of another kind *)
Definition ex_other (w : bool) (db t : list ascii) : option plan := if teqb t (s_ "q") then Some (Node (OScan (OtherTable 1 (if w then 2 else 1))) [] []) else None.
Definition ex_rows (w : bool) (db t : list ascii) : option nat := Some (if w then 20 else 10).
Definition ex_control : control := {| max_age := 2; public := true; private := false |}.
Definition ex_cdn : proxy := {| shared := true; heeds_vary := true |}.
Definition ex_flare : proxy := {| shared := true; heeds_vary := false |}.
Definition ex_policy : policy := {| read := Password (s_ "#r"); write := Password (s_ "#w") |}.
Definition ex_get (t : string) (token : string) : get :=
  {| url := (s_ "default", s_ t); authorization := Some (s_ "Bearer " ++ s_ token); content_type := None; origin := None; x_seafowl_query := None; body := None |}.
Definition ex_reply plans := reply_to ex_hash ex_utf8 bool plans nat ex_rows ex_tag ex_control.
Notation ex_tag1 := (ex_tag [7; 1; 0; 0; 0; 0; 0; 0; 0]%N). Notation ex_tag2 := (ex_tag [7; 2; 0; 0; 0; 0; 0; 0; 0]%N).

Example ex_identify : tags_identify ex_plan ex_rows ex_tag.
Proof.
  intros w w' db t pl pl'. unfold ex_plan. destruct (teqb t (s_ "q")); [|discriminate]. intros H; injection H as <-. intros H; injection H as <-.
  destruct w, w'; vm_compute; congruence.
Qed.
(* hashes without collisions, tables without other dependencies *)
Definition ex_digits (l : list N) : list ascii := flat_map (fun n => repeat "1"%char (N.to_nat n) ++ ["0"%char]) l.
Lemma ones_apart m n a b : repeat "1"%char m ++ "0"%char :: a = repeat "1"%char n ++ "0"%char :: b -> m = n /\ a = b.
Proof.
  revert n. induction m as [|m IH]; intros [|n]; cbn [repeat app]; intros H; try discriminate H.
  - injection H as ->. split; reflexivity.
  - injection H as H. destruct (IH n H) as [-> ->]. split; reflexivity.
Qed.
Example ex_delta : (forall a b, ex_digits a = ex_digits b -> a = b) /\ delta_only ex_plan /\ results_of_versions ex_plan ex_rows.
Proof.
  split; [|split].
  - induction a as [|m a IH]; intros [|n b]; cbn [ex_digits flat_map]; intros H.
    + reflexivity.
    + destruct (N.to_nat n); discriminate H.
    + destruct (N.to_nat m); discriminate H.
    + rewrite <- !app_assoc in H. cbn [app] in H. apply ones_apart in H as [H1 H2]. apply N2Nat.inj in H1. f_equal; [exact H1|apply IH; exact H2].
  - intros w db t pl. unfold ex_plan. destruct (teqb t (s_ "q")); [|discriminate]. intros H; injection H as <-. split; [constructor; constructor|]. cbn. constructor; [|constructor].
    eexists _, _. split; [reflexivity|]. split; [discriminate|]. split; [constructor; [discriminate|constructor]|]. destruct w; reflexivity.
  - intros w w' db t pl pl'. unfold ex_plan. destruct (teqb t (s_ "q")); [|discriminate]. intros H; injection H as <-. intros H; injection H as <-. destruct w, w'; vm_compute; congruence.
Qed.
Example ex_no_delta : no_delta ex_other.
Proof. intros w db t pl u v. unfold ex_other. destruct (teqb t (s_ "q")); [|discriminate]. intros H; injection H as <-. intros [E|[]]. discriminate E. Qed.
(* the old rows for as long as they are fresh, then the new ones; nothing for a token that is not the right one *)
Example ex_fresh : let evs := [Get bool (ex_get "q" "r"); Change bool true; Tick bool] in
  no_bodies evs /\ same_settings evs /\
  ex_reply ex_plan ex_cdn false ex_policy evs (ex_get "q" "r") = Data nat 10 ex_tag1 /\
  ex_reply ex_plan ex_cdn false ex_policy (evs ++ [Tick bool]) (ex_get "q" "r") = Data nat 20 ex_tag2 /\
  ex_reply ex_plan ex_cdn false ex_policy evs (ex_get "q" "x") = Fails nat.
Proof.
  split; [intros q [H|[H|[H|[]]]]; try discriminate H; injection H as <-; reflexivity|]. split; [intros p [H|[H|[H|[]]]]; discriminate H|].
  split; [vm_compute; reflexivity|split; vm_compute; reflexivity].
Qed.
(* an answer that is asked for again and is still the same *)
Example ex_again : ex_reply ex_plan ex_cdn false ex_policy [Get bool (ex_get "q" "r"); Tick bool; Tick bool] (ex_get "q" "r") = Data nat 10 ex_tag1.
Proof. vm_compute. reflexivity. Qed.
Example ex_private : shared ex_cdn = true /\ private {| max_age := 2; public := false; private := true |} = true.
Proof. split; reflexivity. Qed.
(* the token is withdrawn *)
Example ex_revoked : let p' := {| read := Password (s_ "#other"); write := Password (s_ "#w") |} in
  ex_reply ex_plan ex_cdn false ex_policy [Get bool (ex_get "q" "r"); Restart bool p'] (ex_get "q" "r") = Data nat 10 ex_tag1 /\
  serve ex_hash ex_utf8 bool ex_plan nat ex_rows ex_tag p' false (ex_get "q" "r") None = Fails nat /\ ~ may_read ex_hash p' (authorization (ex_get "q" "r")).
Proof.
  split; [apply c165_revoked_refuted; [vm_compute; reflexivity|reflexivity|cbn; lia]|]. split; [vm_compute; reflexivity|].
  intros M. destruct (proj2 (c35_exact_ ex_hash (authorization (ex_get "q" "r")) {| read := Password (s_ "#other"); write := Password (s_ "#w") |} Read)) as (pr & H & _); [|vm_compute in H; discriminate H].
  destruct M as [_ [[E _]|(t & P & K)]]; [discriminate E|]. right. exists t. split; [exact P|]. destruct K as [K|K]; [left; exact K|right; left; exact K].
Qed.
(* whoever it is that asks *)
Example ex_vary : ex_reply ex_plan ex_flare false ex_policy [Get bool (ex_get "q" "r")] (ex_get "q" "x") = Data nat 10 ex_tag1 /\
  serve ex_hash ex_utf8 bool ex_plan nat ex_rows ex_tag ex_policy false (ex_get "q" "x") None = Fails nat.
Proof. split; [apply c165_vary_refuted; [reflexivity|vm_compute; reflexivity|reflexivity|cbn; lia|reflexivity]|vm_compute; reflexivity]. Qed.
(* the hash in the URL and the query in the body; then the hash alone *)
Example ex_body : let q := ex_get "#q" "r" in
  ex_reply ex_plan ex_cdn false ex_policy [Get bool {| url := url q; authorization := authorization q; content_type := content_type q; origin := origin q; x_seafowl_query := x_seafowl_query q; body := Some (s_ "q") |}] q = Data nat 10 ex_tag1 /\
  serve ex_hash ex_utf8 bool ex_plan nat ex_rows ex_tag ex_policy false q None = Fails nat.
Proof. split; [apply c165_body_refuted; [vm_compute; reflexivity|reflexivity|cbn; lia]|vm_compute; reflexivity]. Qed.
(* a table that is not a Delta table: rows of long ago, for ever *)
Example ex_stale : forall n, ex_reply ex_other ex_cdn false ex_policy ([Get bool (ex_get "q" "r"); Change bool true] ++ repeat (Tick bool) n) (ex_get "q" "r") = Data nat 10 [] /\
  serve ex_hash ex_utf8 bool ex_other nat ex_rows ex_tag ex_policy true (ex_get "q" "r") None = Data nat 20 [].
Proof. intros n. split; [apply (c165_stale_refuted _ _ _ _ _ _ _ _ _ _ _ _ _ _ 20); [vm_compute; reflexivity|reflexivity|vm_compute; reflexivity]|vm_compute; reflexivity]. Qed.

Print Assumptions c165_access_partial.
Print Assumptions c165_fresh_partial.
Print Assumptions c165_delta_partial.
Print Assumptions c165_errors.
Print Assumptions c165_private.
Print Assumptions c165_query_in_body.
Print Assumptions c165_revoked_refuted.
Print Assumptions c165_vary_refuted.
Print Assumptions c165_body_refuted.
Print Assumptions c165_stale_refuted.
Print Assumptions c165_external_refuted.
