(* C63 (stores are not shared between different options) and C92 (equal requests share a store).
   Specification: StoreSpec.v, model: StoreModel.v. *)
From Coq Require Import Ascii String List NArith Bool Arith Lia.
From Verif Require Import StoreModel StoreSpec.
Import ListNotations.

(* ---- Maps ---- *)
Lemma get_in o k v : is_map o -> (get o k = Some v <-> In (k, v) o).
Proof.
  unfold is_map. induction o as [|[k' v'] r IH]; cbn [get map In fst]; intros M.
  - split; [discriminate|intros []].
  - inversion M as [|? ? N M']; subst. destruct (String.eqb_spec k' k) as [->|D].
    + split; [intros E; left; congruence|]. intros [E|I]; [congruence|]. exfalso. apply N. apply in_map with (f := fst) in I. exact I.
    + rewrite (IH M'). split; [auto|]. intros [E|I]; [congruence|exact I].
Qed.
Lemma map_nodup o : is_map o -> NoDup o.
Proof.
  unfold is_map. induction o as [|x r IH]; cbn [map]; intros M; [constructor|]. inversion M as [|? ? N M']; subst. constructor; [|exact (IH M')].
  intros I. apply N. apply in_map. exact I.
Qed.
Lemma opts_eqb_iff a b : is_map a -> is_map b -> (opts_eqb a b = true <-> same_options a b).
Proof.
  intros A B. unfold opts_eqb. rewrite andb_true_iff, Nat.eqb_eq, forallb_forall.
  assert (S : (forall x, In x a -> match get b (fst x) with Some v => String.eqb v (snd x) | None => false end = true) <-> incl a b).
  { split.
    - intros H [k v] I. specialize (H _ I). cbn [fst snd] in H. destruct (get b k) as [v'|] eqn:G; [|discriminate]. apply String.eqb_eq in H. subst v'.
      apply (get_in _ _ _ B). exact G.
    - intros H [k v] I. cbn [fst snd]. apply H, (get_in _ _ _ B) in I. rewrite I. apply String.eqb_refl. }
  rewrite S. split.
  - intros [L I] k v. split; [apply I|]. apply (NoDup_length_incl (map_nodup a A)); [lia|exact I].
  - intros H. assert (I : incl a b) by (intros [k v]; apply H). assert (J : incl b a) by (intros [k v]; apply H).
    split; [|exact I]. pose proof (NoDup_incl_length (map_nodup a A) I). pose proof (NoDup_incl_length (map_nodup b B) J). lia.
Qed.
Lemma key_eqb_iff a b : is_map (opts a) -> is_map (opts b) -> (key_eqb a b = true <-> same_request a b).
Proof. intros A B. unfold key_eqb, same_request. rewrite andb_true_iff, String.eqb_eq, (opts_eqb_iff _ _ A B). tauto. Qed.
Lemma same_refl a : same_request a a.
Proof. split; [reflexivity|]. intros k v. tauto. Qed.
Lemma same_sym a b : same_request a b -> same_request b a.
Proof. intros [U O]. split; [congruence|]. intros k v. rewrite (O k v). tauto. Qed.
Lemma same_trans a b c : same_request a b -> same_request b c -> same_request a c.
Proof. intros [U O] [U' O']. split; [congruence|]. intros k v. rewrite (O k v). apply O'. Qed.

(* ---- Sorting makes the order of the map irrelevant ---- *)
Lemma leb_refl a : str_leb a a = true.
Proof. induction a as [|x a IH]; cbn; [reflexivity|]. destruct (N_of_ascii x <? N_of_ascii x)%N; [reflexivity|]. rewrite Ascii.eqb_refl. exact IH. Qed.
Lemma leb_total a : forall b, str_leb a b = false -> str_leb b a = true.
Proof.
  induction a as [|x a IH]; intros [|y b]; cbn; intros H; try discriminate; try reflexivity.
  destruct (N.ltb_spec (N_of_ascii x) (N_of_ascii y)); [discriminate|]. destruct (Ascii.eqb_spec x y) as [->|N].
  - rewrite Ascii.eqb_refl, (IH _ H). destruct (N_of_ascii y <? N_of_ascii y)%N; reflexivity.
  - destruct (N.ltb_spec (N_of_ascii y) (N_of_ascii x)); [reflexivity|]. exfalso. apply N. rewrite <- (ascii_N_embedding x), <- (ascii_N_embedding y). f_equal. lia.
Qed.
Lemma leb_antisym a : forall b, str_leb a b = true -> str_leb b a = true -> a = b.
Proof.
  induction a as [|x a IH]; intros [|y b]; cbn; intros H K; try discriminate; [reflexivity|].
  destruct (N.ltb_spec (N_of_ascii x) (N_of_ascii y)), (N.ltb_spec (N_of_ascii y) (N_of_ascii x)); try lia.
  - destruct (Ascii.eqb_spec y x) as [->|N]; [lia|discriminate].
  - destruct (Ascii.eqb_spec x y) as [->|N]; [lia|discriminate].
  - destruct (Ascii.eqb_spec x y) as [->|N]; [|discriminate]. rewrite Ascii.eqb_refl in K. f_equal. exact (IH _ H K).
Qed.
Lemma leb_trans a : forall b c, str_leb a b = true -> str_leb b c = true -> str_leb a c = true.
Proof.
  induction a as [|x a IH]; intros [|y b] [|z c]; cbn; intros H K; try discriminate; try reflexivity.
  destruct (N.ltb_spec (N_of_ascii x) (N_of_ascii y)) as [L|L].
  - destruct (N.ltb_spec (N_of_ascii y) (N_of_ascii z)) as [L'|L'].
    + replace (N_of_ascii x <? N_of_ascii z)%N with true by (symmetry; apply N.ltb_lt; lia). reflexivity.
    + destruct (Ascii.eqb_spec y z) as [<-|]; [|discriminate]. replace (N_of_ascii x <? N_of_ascii y)%N with true by (symmetry; apply N.ltb_lt; lia). reflexivity.
  - destruct (Ascii.eqb_spec x y) as [<-|]; [|discriminate]. destruct (N_of_ascii x <? N_of_ascii z)%N; [reflexivity|].
    destruct (Ascii.eqb_spec x z); [exact (IH _ _ H K)|discriminate].
Qed.
Fixpoint sorted (l : list (string * string)) : Prop :=
  match l with [] => True | x :: r => (forall y, In y r -> str_leb (fst x) (fst y) = true) /\ sorted r end.
Lemma insert_in x l y : In y (insert_by_key x l) <-> y = x \/ In y l.
Proof.
  induction l as [|z l IH]; cbn [insert_by_key In]; [intuition congruence|]. destruct (str_leb (fst x) (fst z)); cbn [In]; [intuition congruence|]. rewrite IH. tauto.
Qed.
Lemma sort_in l y : In y (sort_by_key l) <-> In y l.
Proof. induction l as [|x l IH]; cbn; [tauto|]. rewrite insert_in, IH. intuition congruence. Qed.
Lemma insert_sorted x l : sorted l -> sorted (insert_by_key x l).
Proof.
  induction l as [|z l IH]; cbn [insert_by_key sorted]; intros S; [split; [intros y []|exact Logic.I]|]. destruct S as [Z S].
  destruct (str_leb (fst x) (fst z)) eqn:E; cbn [sorted].
  - split; [|split; assumption]. intros y [<-|I]; [exact E|]. exact (leb_trans _ _ _ E (Z y I)).
  - split; [|exact (IH S)]. intros y Y. apply insert_in in Y. destruct Y as [->|I]; [exact (leb_total _ _ E)|exact (Z y I)].
Qed.
Lemma sort_sorted l : sorted (sort_by_key l).
Proof. induction l as [|x l IH]; cbn; [exact Logic.I|]. apply insert_sorted, IH. Qed.
Lemma insert_length x l : List.length (insert_by_key x l) = S (List.length l).
Proof. induction l as [|z l IH]; cbn; [reflexivity|]. destruct (str_leb (fst x) (fst z)); cbn; [reflexivity|rewrite IH; reflexivity]. Qed.
Lemma insert_map x l : ~ In (fst x) (map fst l) -> is_map l -> is_map (insert_by_key x l).
Proof.
  unfold is_map. intros N M. induction l as [|z l IH]; cbn [insert_by_key map]; [constructor; [intros []|constructor]|].
  cbn [map In] in N, M. inversion M as [|? ? NZ M']; subst. destruct (str_leb (fst x) (fst z)); cbn [map]; [constructor; [exact N|constructor; assumption]|].
  constructor; [|exact (IH (fun I => N (or_intror I)) M')]. intros I. apply in_map_iff in I. destruct I as (y & E & I). apply insert_in in I. destruct I as [->|I].
  - apply N. left. congruence.
  - apply NZ. rewrite <- E. apply in_map. exact I.
Qed.
Lemma sort_map l : is_map l -> is_map (sort_by_key l).
Proof.
  unfold is_map at 1. induction l as [|x l IH]; cbn [sort_by_key map]; intros M; [constructor|]. inversion M as [|? ? N M']; subst. apply insert_map; [|exact (IH M')].
  intros I. apply N. apply in_map_iff in I. destruct I as (y & E & I). rewrite <- E. apply in_map, sort_in, I.
Qed.
Lemma sorted_unique a : forall b, sorted a -> sorted b -> is_map a -> is_map b -> same_options a b -> a = b.
Proof.
  induction a as [|x a IH]; intros [|y b] SA SB MA MB E.
  - reflexivity.
  - exfalso. destruct y as [k v]. apply (E k v). left; reflexivity.
  - exfalso. destruct x as [k v]. apply (E k v). left; reflexivity.
  - destruct SA as [LA SA], SB as [LB SB]. pose proof (map_nodup _ MA) as NA. pose proof (map_nodup _ MB) as NB.
    assert (X : In x (y :: b)) by (destruct x as [k v]; apply (E k v); left; reflexivity).
    assert (Y : In y (x :: a)) by (destruct y as [k v]; apply (E k v); left; reflexivity).
    assert (F : fst x = fst y).
    { destruct X as [->|X]; [reflexivity|]. destruct Y as [->|Y]; [reflexivity|]. apply leb_antisym; [exact (LA y Y)|exact (LB x X)]. }
    assert (x = y).
    { destruct X as [->|X]; [reflexivity|]. exfalso. inversion MB as [|? ? N _]; subst. apply N. rewrite <- F. apply in_map. exact X. }
    subst y. f_equal. apply NoDup_cons_iff in NA, NB. destruct NA as [XA _], NB as [XB _]. unfold is_map in MA, MB. cbn [map] in MA, MB. apply NoDup_cons_iff in MA, MB. destruct MA as [_ MA], MB as [_ MB].
    apply IH; try assumption.
    intros k v. specialize (E k v). cbn [In] in E. split; intros I.
    + destruct (proj1 E (or_intror I)) as [J|J]; [exfalso; apply XA; rewrite J; exact I|exact J].
    + destruct (proj2 E (or_intror I)) as [J|J]; [exfalso; apply XB; rewrite J; exact I|exact J].
Qed.
Lemma sort_same a b : is_map a -> is_map b -> same_options a b -> sort_by_key a = sort_by_key b.
Proof.
  intros A B E. apply sorted_unique; try apply sort_sorted; try (apply sort_map; assumption). intros k v. rewrite !sort_in. apply E.
Qed.

Lemma removed_in {A} i : forall (l : list A) x, In x (firstn i l ++ skipn (S i) l) -> In x l.
Proof.
  induction i as [|i IH]; intros [|y l] x H; cbn in H |- *; [exact H|right; exact H|exact H|]. destruct H as [H|H]; [left; exact H|right; exact (IH l x H)].
Qed.

Section Factory.
  Variable hasher : string -> list (string * string) -> N.
  Variable builds : nat -> key -> bool.
  Variable scheme : string -> string.
  Variable file_cache : bool.
  Notation step := (step hasher builds scheme file_cache).
  Notation run := (run hasher builds scheme file_cache).
  Notation find := (find hasher).
  Notation insert := (insert hasher).
  Notation matches := (matches hasher).

  Lemma hash_same a b : is_map (opts a) -> is_map (opts b) -> same_request a b -> hash hasher a = hash hasher b.
  Proof. intros A B [U O]. unfold hash. rewrite U, (sort_same _ _ A B O). reflexivity. Qed.

  (* ---- The invariant ---- *)
  Definition entry_ok (s : state) (e : entry) : Prop :=
    is_map (opts (snd (fst e))) /\ fst (fst e) = hash hasher (snd (fst e)) /\ made_from (snd e) = snd (fst e).
  Definition wrapped (s : store) : Prop :=
    caching s = true <-> file_cache = true /\ scheme (url (made_from s)) <> "file"%string /\ scheme (url (made_from s)) <> "memory"%string.
  Record inv (f : nat -> key) (s : state) : Prop := {
    i_cache : forall e, In e (cache s) -> entry_ok s e;
    i_building : forall k, In k (building s) -> is_map (opts k);
    i_answers : forall k st, In (k, Served st) (answers s) -> is_map (opts k) /\ is_map (opts (made_from st)) /\ same_request (made_from st) k;
    i_made : forall st, (exists e, In e (cache s) /\ snd e = st) \/ (exists k, In (k, Served st) (answers s)) ->
      number st < attempts s /\ made_from st = f (number st) /\ builds (number st) (made_from st) = true /\ wrapped st }.
  Lemma find_some m k st : find m k = Some st -> exists e, In e m /\ snd e = st /\ matches k e = true.
  Proof. unfold StoreModel.find. destruct (List.find (matches k) m) as [e|] eqn:F; [|discriminate]. intros E. exists e. apply find_some in F. destruct F. split; [assumption|]. split; [congruence|assumption]. Qed.
  Lemma inv_step f s e : inv f s -> (forall k, e = Ask k -> is_map (opts k)) -> exists f', inv f' (step s e).
  Proof.
    intros [C B A M] Q. destruct e as [k|i]; cbn [StoreModel.step].
    - specialize (Q k eq_refl). destruct (find (cache s) k) as [st|] eqn:F.
      + exists f. apply find_some in F. destruct F as (e & I & E & Mt). destruct (C e I) as (ME & HE & FE).
        assert (SR : same_request (made_from st) k).
        { rewrite <- E, FE. apply key_eqb_iff; [exact ME|exact Q|]. unfold StoreModel.matches in Mt. apply andb_true_iff in Mt. exact (proj2 Mt). }
        constructor; cbn [cache building attempts answers]; [exact C|exact B| |].
        * intros k' st' I'. apply in_app_iff in I'. destruct I' as [I'|[I'|[]]]; [exact (A k' st' I')|]. injection I' as <- <-. split; [exact Q|]. split; [|exact SR].
          rewrite <- E, FE. exact ME.
        * intros st' [H|(k' & H)]; [exact (M st' (or_introl H))|]. apply in_app_iff in H. destruct H as [H|[H|[]]]; [apply M; right; exists k'; exact H|].
          injection H as <- <-. apply M. left. exists e. split; assumption.
      + exists f. constructor; cbn [cache building attempts answers]; [exact C| |exact A|exact M].
        intros k' I'. apply in_app_iff in I'. destruct I' as [I'|[<-|[]]]; [exact (B k' I')|exact Q].
    - destruct (nth_error (building s) i) as [k|] eqn:N; [|exists f; constructor; assumption].
      assert (K : is_map (opts k)) by (apply B, (nth_error_In _ _ N)).
      assert (R : forall x, In x (firstn i (building s) ++ skipn (S i) (building s)) -> In x (building s)).
      { intros x X. exact (removed_in i _ x X). }
      destruct (builds (attempts s) k) eqn:Bu.
      + exists (fun n => if n =? attempts s then k else f n). set (st := {| number := attempts s; made_from := k; caching := _ |}).
        assert (W : wrapped st).
        { unfold wrapped, st. cbn [caching made_from]. rewrite andb_true_iff, negb_true_iff, orb_false_iff, !String.eqb_neq. tauto. }
        constructor; cbn [cache building attempts answers].
        * intros e [<-|I]; [split; [exact K|split; reflexivity]|]. apply filter_In in I. exact (C e (proj1 I)).
        * intros x X. exact (B x (R x X)).
        * intros k' st' I'. apply in_app_iff in I'. destruct I' as [I'|[I'|[]]]; [exact (A k' st' I')|]. injection I' as <- <-. split; [exact K|]. split; [exact K|apply same_refl].
        * intros st' H. assert (Old : (exists e, In e (cache s) /\ snd e = st') \/ (exists k', In (k', Served st') (answers s)) -> number st' < S (attempts s) /\
            made_from st' = (if number st' =? attempts s then k else f (number st')) /\ builds (number st') (made_from st') = true /\ wrapped st').
          { intros O. destruct (M st' O) as (L & E & Bd & Wr). split; [lia|]. split; [|split; assumption]. destruct (Nat.eqb_spec (number st') (attempts s)); [lia|exact E]. }
          assert (New : number st < S (attempts s) /\ made_from st = (if number st =? attempts s then k else f (number st)) /\ builds (number st) (made_from st) = true /\ wrapped st).
          { split; [cbn; lia|]. split; [|split; [exact Bu|exact W]]. cbn. rewrite Nat.eqb_refl. reflexivity. }
          destruct H as [(e & I & E)|(k' & I)].
          -- destruct I as [<-|I]; [cbn [snd] in E; subst st'; exact New|]. apply filter_In in I. apply Old. left. exists e. split; [exact (proj1 I)|exact E].
          -- apply in_app_iff in I. destruct I as [I|[I|[]]]; [apply Old; right; exists k'; exact I|]. assert (st' = st) by congruence. subst st'. exact New.
      + exists f. constructor; cbn [cache building attempts answers].
        * exact C.
        * intros x X. exact (B x (R x X)).
        * intros k' st' I'. apply in_app_iff in I'. destruct I' as [I'|[I'|[]]]; [exact (A k' st' I')|]. discriminate.
        * intros st' H. assert (O : (exists e, In e (cache s) /\ snd e = st') \/ (exists k', In (k', Served st') (answers s))).
          { destruct H as [H|(k' & I)]; [left; exact H|right]. apply in_app_iff in I. destruct I as [I|[I|[]]]; [exists k'; exact I|discriminate]. }
          destruct (M st' O) as (L & E & Bd & W). split; [lia|]. split; [exact E|split; assumption].
  Qed.
  Lemma inv_fold l : forall s f, requests_ok l -> inv f s -> exists f', inv f' (fold_left step l s).
  Proof.
    induction l as [|e l IH]; intros s f Q I; [exists f; exact I|]. cbn [fold_left]. destruct (inv_step f s e I) as [f' I'].
    - intros k ->. apply Q. left; reflexivity.
    - apply (IH _ f'); [intros k K; apply Q; right; exact K|exact I'].
  Qed.
  Lemma inv_init k : inv (fun _ => k) init.
  Proof. constructor; cbn; [intros e []|intros x []|intros x st []|]. intros st [(e & [] & _)|(k' & [])]. Qed.
  Lemma inv_run l : requests_ok l -> exists f, inv f (run l).
  Proof. intros Q. exact (inv_fold l init _ Q (inv_init {| url := ""; opts := [] |})). Qed.

  (* ---- C63 ---- *)
  (* A request is answered with a store that was built for its URL and its options, in whatever order, and successfully *)
  Theorem c63_own_store l k s : requests_ok l -> In (k, Served s) (answers (run l)) -> same_request (made_from s) k /\ builds (number s) (made_from s) = true /\ wrapped s.
  Proof.
    intros Q H. destruct (inv_run l Q) as [f [_ _ A M]]. destruct (A k s H) as (_ & _ & S). destruct (M s (or_intror (ex_intro _ k H))) as (_ & _ & B & W).
    split; [exact S|]. split; assumption.
  Qed.
  (* Two requests get the same store only if they have the same URL and the same options, whatever runs at the same time *)
  Theorem c63_not_shared l k1 s1 k2 s2 : requests_ok l -> In (k1, Served s1) (answers (run l)) -> In (k2, Served s2) (answers (run l)) -> number s1 = number s2 -> same_request k1 k2.
  Proof.
    intros Q H1 H2 E. destruct (inv_run l Q) as [f [_ _ A M]]. destruct (A k1 s1 H1) as (_ & _ & S1). destruct (A k2 s2 H2) as (_ & _ & S2).
    destruct (M s1 (or_intror (ex_intro _ k1 H1))) as (_ & E1 & _). destruct (M s2 (or_intror (ex_intro _ k2 H2))) as (_ & E2 & _).
    apply same_trans with (made_from s1); [apply same_sym; exact S1|]. rewrite E1, E, <- E2. exact S2.
  Qed.
  (* A failed attempt leaves nothing behind *)
  Theorem c63_failure s i k : nth_error (building s) i = Some k -> builds (attempts s) k = false -> cache (step s (Finish i)) = cache s /\ answers (step s (Finish i)) = answers s ++ [(k, Failed)].
  Proof. intros N B. cbn [StoreModel.step]. rewrite N, B. split; reflexivity. Qed.

  (* ---- C92 ---- *)
  Lemma find_insert m k s k' : is_map (opts k) -> is_map (opts k') -> (forall e, In e m -> is_map (opts (snd (fst e))) /\ fst (fst e) = hash hasher (snd (fst e))) ->
    find (insert m k s) k' = if key_eqb k k' then Some s else find m k'.
  Proof.
    intros K K' M. unfold StoreModel.find, StoreModel.insert. cbn [List.find]. unfold StoreModel.matches at 1. cbn [fst snd].
    destruct (key_eqb k k') eqn:E.
    - assert (S : same_request k k') by (apply key_eqb_iff; assumption). rewrite (hash_same k k' K K' S), N.eqb_refl. reflexivity.
    - rewrite andb_false_r. assert (G : List.find (matches k') (filter (fun e => negb (matches k e)) m) = List.find (matches k') m); [|rewrite G; reflexivity]. clear s. induction m as [|e m IH]; [reflexivity|]. cbn [filter].
      assert (M' : forall e', In e' m -> is_map (opts (snd (fst e'))) /\ fst (fst e') = hash hasher (snd (fst e'))) by (intros e' I; apply M; right; exact I).
      destruct (M e (or_introl eq_refl)) as [ME _]. destruct (matches k e) eqn:Mk; cbn [negb].
      + cbn [List.find]. rewrite (IH M'). destruct (matches k' e) eqn:Mk'; [|reflexivity]. exfalso.
        unfold StoreModel.matches in Mk, Mk'. apply andb_true_iff in Mk, Mk'. destruct Mk as [_ Mk], Mk' as [_ Mk'].
        apply (key_eqb_iff _ _ ME K) in Mk. apply (key_eqb_iff _ _ ME K') in Mk'.
        assert (S : key_eqb k k' = true) by (apply key_eqb_iff; [exact K|exact K'|]; apply same_trans with (snd (fst e)); [apply same_sym; exact Mk|exact Mk']). congruence.
      + cbn [List.find]. rewrite (IH M'). reflexivity.
  Qed.
  (* Requests that do not overlap *)
  Definition one_after_another (ks : list key) : list event := flat_map (fun k => [Ask k; Finish 0]) ks.
  Record quiet (s : state) : Prop := {
    q_building : building s = [];
    q_maps : forall e, In e (cache s) -> is_map (opts (snd (fst e))) /\ fst (fst e) = hash hasher (snd (fst e));
    q_answers : forall k st, In (k, Served st) (answers s) -> is_map (opts k) /\ find (cache s) k = Some st }.
  Lemma find_same m k k' : is_map (opts k) -> is_map (opts k') -> same_request k k' -> (forall e, In e m -> is_map (opts (snd (fst e)))) -> find m k = find m k'.
  Proof.
    intros K K' S M. unfold StoreModel.find. assert (G : List.find (matches k) m = List.find (matches k') m); [|rewrite G; reflexivity]. induction m as [|e m IH]; [reflexivity|]. cbn [List.find]. rewrite (IH (fun e' I => M e' (or_intror I))).
    assert (E : matches k e = matches k' e).
    { unfold StoreModel.matches. rewrite (hash_same k k' K K' S). f_equal. pose proof (M e (or_introl eq_refl)) as ME.
      destruct (key_eqb (snd (fst e)) k) eqn:E1, (key_eqb (snd (fst e)) k') eqn:E2; try reflexivity; exfalso.
      - apply (key_eqb_iff _ _ ME K) in E1. assert (key_eqb (snd (fst e)) k' = true) by (apply key_eqb_iff; [assumption|assumption|]; exact (same_trans _ _ _ E1 S)). congruence.
      - apply (key_eqb_iff _ _ ME K') in E2. assert (key_eqb (snd (fst e)) k = true) by (apply key_eqb_iff; [assumption|assumption|]; exact (same_trans _ _ _ E2 (same_sym _ _ S))). congruence. }
    rewrite E. reflexivity.
  Qed.
  Lemma quiet_step s k : quiet s -> is_map (opts k) -> quiet (step (step s (Ask k)) (Finish 0)).
  Proof.
    intros [B M A] K. cbn [StoreModel.step]. destruct (find (cache s) k) as [st|] eqn:F.
    - cbn [building]. rewrite B. cbn [nth_error]. constructor; cbn [building cache answers]; [reflexivity|exact M|].
      intros k' st' I. apply in_app_iff in I. destruct I as [I|[I|[]]]; [exact (A k' st' I)|]. injection I as <- <-. split; assumption.
    - cbn [building cache attempts answers]. rewrite B. cbn [app nth_error firstn skipn]. destruct (builds (attempts s) k).
      + set (st := {| number := attempts s; made_from := k; caching := _ |}). constructor; cbn [building cache answers]; [reflexivity| |].
        * intros e [<-|I]; [split; [exact K|reflexivity]|]. apply filter_In in I. exact (M e (proj1 I)).
        * intros k' st' I. apply in_app_iff in I. destruct I as [I|[I|[]]].
          -- destruct (A k' st' I) as [K' F']. split; [exact K'|]. change ((hash hasher k, k, st) :: _) with (insert (cache s) k st). rewrite (find_insert _ _ _ _ K K' M).
             destruct (key_eqb k k') eqn:E; [|exact F']. exfalso. apply (key_eqb_iff _ _ K K') in E.
             rewrite (find_same (cache s) k k' K K' E (fun e I => proj1 (M e I))) in F. congruence.
          -- assert (k' = k) by congruence. assert (st' = st) by congruence. subst k' st'. split; [exact K|].
             rewrite (find_insert _ _ _ _ K K M). assert (E : key_eqb k k = true) by (apply key_eqb_iff; [exact K|exact K|apply same_refl]). rewrite E. reflexivity.
      + constructor; cbn [building cache answers]; [reflexivity|exact M|]. intros k' st' I. apply in_app_iff in I. destruct I as [I|[I|[]]]; [exact (A k' st' I)|discriminate].
  Qed.
  Theorem c92_shared_partial ks k1 s1 k2 s2 : (forall k, In k ks -> is_map (opts k)) ->
    In (k1, Served s1) (answers (run (one_after_another ks))) -> In (k2, Served s2) (answers (run (one_after_another ks))) -> same_request k1 k2 -> s1 = s2.
  Proof.
    intros Q. assert (G : forall s, quiet s -> quiet (fold_left step (one_after_another ks) s)).
    { induction ks as [|k ks IH]; intros s H; [exact H|]. unfold one_after_another. cbn [flat_map app fold_left]. apply IH; [intros x X; apply Q; right; exact X|].
      apply quiet_step; [exact H|]. apply Q. left; reflexivity. }
    assert (I : quiet init) by (constructor; cbn; [reflexivity|intros e []|intros k st []]).
    destruct (G init I) as [_ M A]. unfold StoreModel.run. intros H1 H2 S. destruct (A _ _ H1) as [K1 F1]. destruct (A _ _ H2) as [K2 F2].
    rewrite (find_same _ k1 k2 K1 K2 S (fun e I => proj1 (M e I))) in F1. congruence.
  Qed.
  (* Requests that overlap get different stores *)
  Theorem c92_overlap_refuted k : builds 0 k = true -> builds 1 k = true -> is_map (opts k) ->
    exists l s1 s2, requests_ok l /\ answers (run l) = [(k, Served s1); (k, Served s2)] /\ number s1 <> number s2.
  Proof.
    intros B0 B1 K. exists [Ask k; Ask k; Finish 0; Finish 0]. eexists. eexists. split; [intros k' H; repeat destruct H as [H|H]; try discriminate; try (injection H as <-; exact K); destruct H|].
    unfold StoreModel.run. cbn [fold_left]. cbn [StoreModel.step find cache init building attempts answers app nth_error firstn skipn StoreModel.find List.find].
    rewrite B0. cbn [building attempts nth_error firstn skipn app answers cache]. rewrite B1. cbn [answers app]. split; [reflexivity|]. cbn [number]. discriminate.
  Qed.
End Factory.

(* ---- The hypotheses are met ---- *)
Open Scope string_scope.
Definition k1 : key := {| url := "s3://bucket"; opts := [("region", "eu"); ("access_key_id", "A")] |}.
Definition k2 : key := {| url := "s3://bucket"; opts := [("access_key_id", "A"); ("region", "eu")] |}.
Definition k3 : key := {| url := "s3://bucket"; opts := [("access_key_id", "B"); ("region", "eu")] |}.
Definition scheme_of (u : string) : string := match String.index 0 ":" u with Some n => String.substring 0 n u | None => "" end.
Definition all_one (u : string) (o : list (string * string)) : N := 1%N.
Lemma k_maps k : In k [k1; k2; k3] -> is_map (opts k).
Proof. intros [<-|[<-|[<-|[]]]]; (constructor; [intros [E|[]]; discriminate|constructor; [intros []|constructor]]). Qed.
Example c63_example : requests_ok [Ask k1; Ask k3; Finish 1; Finish 0; Ask k2] /\
  map (fun a => match snd a with Served s => Some (number s, caching s) | Failed => None end) (answers (run all_one (fun _ _ => true) scheme_of true [Ask k1; Ask k3; Finish 1; Finish 0; Ask k2]))
  = [Some (0, true); Some (1, true); Some (1, true)] /\ same_request k1 k2 /\ ~ same_request k1 k3.
Proof.
  split; [intros k H; apply k_maps; cbn in *; intuition congruence|]. split; [reflexivity|]. split.
  - split; [reflexivity|]. intros n v. cbn. tauto.
  - intros [_ H]. destruct (proj1 (H "access_key_id" "A")) as [E|[E|[]]]; [right; left; reflexivity|discriminate|discriminate].
Qed.
Example c92_example : map (fun a => match snd a with Served s => Some (number s) | Failed => None end) (answers (run all_one (fun n _ => negb (Nat.eqb n 0)) scheme_of true (one_after_another [k1; k1; k3; k2])))
  = [None; Some 1; Some 2; Some 1].
Proof. reflexivity. Qed.

Print Assumptions c63_own_store.
Print Assumptions c63_not_shared.
Print Assumptions c63_failure.
Print Assumptions c92_shared_partial.
Print Assumptions c92_overlap_refuted.
