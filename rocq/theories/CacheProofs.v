(* Proofs about the range cache: an invariant that holds of one object as long as it does not change. *)
From Coq Require Import List Arith Bool Lia.
From Verif Require Import CacheModel CacheSpec.
Import ListNotations.

Lemma keqb_eq : forall a b, keqb a b = true <-> a = b.
Proof.
  intros [a1 a2] [b1 b2]. unfold keqb; cbn [fst snd]. rewrite andb_true_iff, !Nat.eqb_eq.
  split; [intros [-> ->]; reflexivity | intros H; injection H; auto].
Qed.
Lemma updk_eq : forall A k (x : A) f, updk k x f k = x.
Proof. intros. unfold updk. rewrite (proj2 (keqb_eq k k) eq_refl). reflexivity. Qed.
Lemma updk_ne : forall A k (x : A) f j, j <> k -> updk k x f j = f j.
Proof.
  intros. unfold updk. destruct (keqb j k) eqn:E; [|reflexivity]. apply keqb_eq in E. contradiction.
Qed.
Lemma updk_cases : forall A k (x y : A) f j, updk k x f j = y -> (j = k /\ x = y) \/ (j <> k /\ f j = y).
Proof.
  intros A k x y f j H. unfold updk in H. destruct (keqb j k) eqn:E.
  - left. apply keqb_eq in E. auto.
  - right. split; [|assumption]. intros ->. rewrite (proj2 (keqb_eq k k) eq_refl) in E. discriminate.
Qed.
Lemma upd_cases : forall A k (x y : A) f j, upd k x f j = y -> (j = k /\ x = y) \/ (j <> k /\ f j = y).
Proof.
  intros A k x y f j H. unfold upd in H. destruct (Nat.eqb_spec j k); auto.
Qed.
Lemma upd_eq : forall A k (x : A) f, upd k x f k = x.
Proof. intros. unfold upd. rewrite Nat.eqb_refl. reflexivity. Qed.
Lemma upd_ne : forall A k (x : A) f j, j <> k -> upd k x f j = f j.
Proof. intros. unfold upd. destruct (Nat.eqb_spec j k); [contradiction|reflexivity]. Qed.

Lemma firstn_firstn_skipn : forall A n m (l : list A), firstn (n + m) l = firstn n l ++ firstn m (skipn n l).
Proof.
  intros A n. induction n as [|n IH]; intros m l; cbn; [reflexivity|].
  destruct l; cbn; [rewrite firstn_nil; reflexivity|]. rewrite IH. reflexivity.
Qed.
Lemma skipn_skipn : forall A n m (l : list A), skipn n (skipn m l) = skipn (m + n) l.
Proof.
  intros A n m. induction m as [|m IH]; intros l; cbn; [reflexivity|].
  destruct l; cbn; [rewrite skipn_nil; reflexivity|]. apply IH.
Qed.
Lemma skipn_firstn : forall A n m (l : list A), skipn n (firstn (n + m) l) = firstn m (skipn n l).
Proof.
  intros A n m. induction n as [|n IH]; intros l; cbn; [reflexivity|].
  destruct l; cbn; [rewrite firstn_nil; reflexivity|]. apply IH.
Qed.

Section One.
Variable h : nat -> nat.
Hypothesis h_inj : forall a b, h a = h b -> a = b.
Variable cs : nat.
Hypothesis cs_pos : cs > 0.
Variable p : nat.
Variable D : list nat.
Variable NE : Prop.

Definition chunkd (c : nat) : list nat := firstn cs (skipn (c * cs) D).
Definition good (c : nat) (d : list nat) : Prop := c * cs < length D -> d = chunkd c.
Definition chunks (a n : nat) : list nat := firstn (n * cs) (skipn (a * cs) D).

Lemma chunks_app : forall a n m, chunks a (n + m) = chunks a n ++ chunks (a + n) m.
Proof.
  intros. unfold chunks. rewrite Nat.mul_add_distr_r, firstn_firstn_skipn, skipn_skipn, Nat.mul_add_distr_r. reflexivity.
Qed.
Lemma chunks_1 : forall a, chunks a 1 = chunkd a.
Proof. intros. unfold chunks, chunkd. rewrite Nat.mul_1_l. reflexivity. Qed.

Definition inb (r : reader) : Prop := r_start r < r_end r /\ r_end r <= length D.
(* the chunks before [upto] are either in the accumulator or in the batch *)
Definition upto (r : reader) (u : nat) : Prop :=
  exists b m, r_batch r = seq b m /\ b + m = u /\ r_start r / cs <= b /\
    (inb r -> r_acc r = chunks (r_start r / cs) (b - r_start r / cs)).
Definition active (r : reader) : Prop :=
  r_chunk r <= r_last r /\ r_start r / cs <= r_chunk r /\ (r_start r < r_end r -> r_last r = (r_end r - 1) / cs).
Definition good_todo (todo : list (key * list nat)) : Prop :=
  Forall (fun kd => fst (fst kd) = p -> good (snd (fst kd)) (snd kd)) todo.
Definition RInv (r : reader) : Prop :=
  match r_pc r with
  | PLook | PRefetch => active r /\ upto r (r_chunk r)
  | PFile f => active r /\ upto r (r_chunk r) /\ f = file_of h (p, r_chunk r)
  | PGot (Some d) => active r /\ upto r (r_chunk r) /\ good (r_chunk r) d
  | PGot None => active r /\ upto r (r_chunk r + 1) /\ r_batch r <> []
  | PStore todo (Some d) => active r /\ upto r (r_chunk r) /\ r_batch r = [] /\ good_todo todo /\ good (r_chunk r) d
  | PStore todo None => active r /\ upto r (r_chunk r + 1) /\ r_batch r = [] /\ good_todo todo
  | PDone d => inb r -> d = slice D (r_start r) (r_end r)
  | PPanic => ~ inb r
  | PErr => NE -> ~ inb r
  end.

Record Inv (st : state) : Prop := {
  i_obj : objs st p = Some D;
  i_mem : forall c d, cache st (p, c) = Some (Mem d) -> good c d;
  i_file : forall c f s, cache st (p, c) = Some (File f s) -> f = file_of h (p, c);
  i_disk : forall c o d, disk st (file_of h (p, c)) = Some (o, d) -> good c d;
  i_task : forall t x, tasks st t = Some x -> fst (t_key x) = p ->
             good (snd (t_key x)) (t_data x) /\ (t_phase x = Queued \/ t_phase x = Ready);
  i_read : forall i r, readers st i = Some r -> r_path r = p -> RInv r }.

Lemma in_chunk : forall r, inb r -> active r -> r_chunk r * cs < length D.
Proof.
  intros r [H1 H2] (A1 & A2 & A3). specialize (A3 H1).
  assert (r_chunk r * cs <= r_last r * cs) by (apply Nat.mul_le_mono_r; exact A1).
  pose proof (Nat.mul_div_le (r_end r - 1) cs ltac:(lia)) as H3. rewrite <- A3 in H3. lia.
Qed.

(* cutting a batch into chunks *)
Lemma split_good : forall m b d, (b * cs < length D -> d = chunks b m) -> 
  (length D <= b * cs -> True) -> good_todo (split_batch cs p (seq b m) d).
Proof.
  unfold good_todo.
  induction m as [|m IH]; intros b d Hd _; cbn [seq split_batch]; [constructor|].
  destruct (Nat.ltb_spec (length d) cs) as [L|L].
  - constructor.
    + cbn [fst snd]. intros _ Hb. rewrite (Hd Hb). unfold chunkd, chunks.
      assert (L' : length (chunks b (S m)) < cs) by (rewrite <- (Hd Hb); exact L).
      unfold chunks in L'. rewrite firstn_length, skipn_length in L'.
      rewrite !firstn_all2; [reflexivity | rewrite skipn_length; lia | rewrite skipn_length].
      cbn [Nat.mul] in *. lia.
    + apply IH; [|trivial]. intros Hb. exfalso.
      assert (Hb' : b * cs < length D) by (cbn [Nat.mul] in Hb; lia).
      rewrite (Hd Hb') in L. unfold chunks in L. rewrite firstn_length, skipn_length in L. cbn [Nat.mul] in *. lia.
  - constructor.
    + cbn [fst snd]. intros _ Hb. rewrite (Hd Hb). unfold chunkd, chunks. rewrite firstn_firstn.
      rewrite Nat.min_l; [reflexivity|]. cbn [Nat.mul]. lia.
    + apply IH; [|trivial]. intros Hb.
      assert (Hb' : b * cs < length D) by (cbn [Nat.mul] in Hb; lia).
      rewrite (Hd Hb'). unfold chunks. cbn [Nat.mul]. rewrite skipn_firstn, skipn_skipn.
      rewrite (Nat.add_comm cs (b * cs)). reflexivity.
Qed.

Lemma hd_seq : forall b m, hd 0 (seq b (S m)) = b.
Proof. reflexivity. Qed.
Lemma last_seq : forall b m, last (seq b (S m)) 0 = b + m.
Proof.
  intros b m. revert b. induction m as [|m IH]; intros b; [cbn; lia|].
  change (seq b (S (S m))) with (b :: seq (S b) (S m)). cbn [last].
  change (match seq (S b) (S m) with [] => b | _ :: _ => last (seq (S b) (S m)) 0 end) with (last (seq (S b) (S m)) 0).
  rewrite IH. lia.
Qed.

(* the end of a read *)
Lemma trim_ok : forall r, active r -> r_chunk r = r_last r -> inb r ->
  trim cs r (chunks (r_start r / cs) (r_chunk r + 1 - r_start r / cs)) = PDone (slice D (r_start r) (r_end r)).
Proof.
  intros r (A1 & A2 & A3) E [I1 I2]. specialize (A3 I1).
  unfold trim. pose proof (Nat.mul_div_le (r_start r) cs ltac:(lia)) as Hs.
  pose proof (Nat.mod_upper_bound (r_start r) cs ltac:(lia)) as Hm.
  pose proof (Nat.div_mod (r_start r) cs ltac:(lia)) as Hdm.
  set (a := r_start r / cs) in *.
  assert (He : r_end r <= (r_chunk r + 1) * cs).
  { pose proof (Nat.mod_upper_bound (r_end r - 1) cs ltac:(lia)).
    pose proof (Nat.div_mod (r_end r - 1) cs ltac:(lia)) as H'. rewrite E, A3. nia. }
  assert (Hn : (r_chunk r + 1 - a) * cs = (r_chunk r + 1) * cs - a * cs) by (rewrite Nat.mul_sub_distr_r; reflexivity).
  assert (Ha : a * cs <= r_start r) by lia.
  set (o := r_start r - a * cs) in *.
  unfold chunks. rewrite firstn_length, skipn_length.
  destruct (Nat.ltb_spec (Nat.min ((r_chunk r + 1 - a) * cs) (length D - a * cs)) o) as [L|L].
  - exfalso. unfold o in L. lia.
  - f_equal. unfold slice.
    replace ((r_chunk r + 1 - a) * cs) with (o + ((r_chunk r + 1) * cs - r_start r)) by (unfold o; lia).
    rewrite skipn_firstn, skipn_skipn, firstn_firstn.
    replace (a * cs + o) with (r_start r) by (unfold o; lia).
    f_equal. lia.
Qed.
Lemma trim_pc : forall r l, (exists d, trim cs r l = PDone d) \/ trim cs r l = PPanic.
Proof. intros. unfold trim. destruct (Nat.ltb _ _); eauto. Qed.

Lemma finish_none : forall r, active r -> upto r (r_chunk r + 1) -> (r_batch r = [] \/ r_chunk r < r_last r) ->
  RInv (finish_chunk cs r None).
Proof.
  intros r A U B. unfold finish_chunk. rewrite app_nil_r.
  destruct (Nat.ltb_spec (r_chunk r) (r_last r)) as [L|L].
  - unfold RInv; cbn [r_pc r_chunk r_last r_batch r_acc r_start r_end].
    split.
    + destruct A as (A1 & A2 & A3). unfold active; cbn. split; [lia|]. split; [lia|]. exact A3.
    + destruct U as (b & m & U1 & U2 & U3 & U4). exists b, m; cbn. split; [exact U1|]. split; [lia|]. split; [exact U3|]. exact U4.
  - destruct B as [B|B]; [|lia].
    assert (E : r_chunk r = r_last r) by (destruct A; lia).
    destruct U as (b & m & U1 & U2 & U3 & U4).
    assert (m = 0) by (rewrite B in U1; destruct m; [reflexivity|discriminate]). subst m.
    assert (Hb : b = r_chunk r + 1) by lia. subst b.
    pose proof (trim_ok r A E) as T.
    unfold RInv; cbn [r_pc].
    destruct (trim_pc r (r_acc r)) as [[d Hd]|Hd]; rewrite Hd.
    + intros I. rewrite (U4 I) in Hd. rewrite (T I) in Hd. injection Hd as <-. reflexivity.
    + intros I. rewrite (U4 I) in Hd. rewrite (T I) in Hd. discriminate.
Qed.
Lemma finish_some : forall r d, active r -> upto r (r_chunk r) -> r_batch r = [] -> good (r_chunk r) d ->
  RInv (finish_chunk cs r (Some d)).
Proof.
  intros r d A U B G. destruct U as (b & m & U1 & U2 & U3 & U4).
  assert (m = 0) by (rewrite B in U1; destruct m; [reflexivity|discriminate]). subst m.
  assert (b = r_chunk r) by lia. subst b.
  assert (ACC : inb r -> r_acc r ++ d = chunks (r_start r / cs) (r_chunk r + 1 - r_start r / cs)).
  { intros I. rewrite (U4 I), (G (in_chunk r I A)).
    replace (r_chunk r + 1 - r_start r / cs) with ((r_chunk r - r_start r / cs) + 1) by lia.
    rewrite chunks_app, chunks_1. do 2 f_equal. lia. }
  unfold finish_chunk.
  destruct (Nat.ltb_spec (r_chunk r) (r_last r)) as [L|L].
  - unfold RInv; cbn [r_pc r_chunk r_last r_batch r_acc r_start r_end].
    split.
    + destruct A as (A1 & A2 & A3). unfold active; cbn. split; [lia|]. split; [lia|]. exact A3.
    + destruct A as (A1 & A2 & A3). exists (S (r_chunk r)), 0; cbn [r_batch r_start r_acc r_chunk seq].
      split; [exact B|]. split; [lia|]. split; [lia|].
      intros I. rewrite (ACC I). replace (r_chunk r + 1) with (S (r_chunk r)) by lia. reflexivity.
  - assert (E : r_chunk r = r_last r) by (destruct A; lia).
    pose proof (trim_ok r A E) as T.
    unfold RInv; cbn [r_pc].
    destruct (trim_pc r (r_acc r ++ d)) as [[d' Hd]|Hd]; rewrite Hd.
    + intros I. rewrite (ACC I) in Hd. rewrite (T I) in Hd. injection Hd as <-. reflexivity.
    + intros I. rewrite (ACC I) in Hd. rewrite (T I) in Hd. discriminate.
Qed.

Lemma start_ok : forall s e, RInv (start_read cs p s e).
Proof.
  intros s e. unfold start_read.
  destruct (Nat.ltb_spec e s) as [L|L]; cbn [orb].
  { unfold RInv; cbn. intros [I _]. cbn in I. lia. }
  destruct (Nat.eqb_spec e 0) as [Z|Z].
  { unfold RInv; cbn. intros [I _]. cbn in I. lia. }
  destruct (Nat.ltb_spec ((e - 1) / cs) (s / cs)) as [L2|L2].
  - unfold RInv; cbn [r_pc r_start r_end]. intros [I1 I2]. cbn in I1. exfalso.
    assert (s / cs <= (e - 1) / cs) by (apply Nat.div_le_mono; lia). lia.
  - unfold RInv; cbn [r_pc r_chunk]. split.
    + unfold active; cbn [r_chunk r_last r_start r_end]. split; [exact L2|]. split; [lia|]. intros _; reflexivity.
    + exists (s / cs), 0; cbn [r_batch r_start r_acc r_end seq]. rewrite Nat.sub_diag. repeat split; try lia.
Qed.

(* changing one reader *)
Lemma Inv_set_reader : forall st i r, Inv st -> (r_path r = p -> RInv r) -> Inv (set_reader st i r).
Proof.
  intros st i r [I1 I2 I3 I4 I5 I6] H. constructor; cbn; auto.
  intros j r' Hj. apply upd_cases in Hj. destruct Hj as [[-> E]|[_ Hj]]; [injection E as <-; exact H|exact (I6 j r' Hj)].
Qed.
Lemma Inv_store : forall st k d, Inv st -> (fst k = p -> good (snd k) d) -> Inv (cache_chunk_data st k d).
Proof.
  intros st k d I G. unfold cache_chunk_data. destruct (cache st k) eqn:Ec; [exact I|].
  destruct I as [I1 I2 I3 I4 I5 I6]. constructor; cbn; auto.
  - intros c d' H. apply updk_cases in H. destruct H as [[<- E]|[_ H]]; [|exact (I2 c d' H)].
    injection E as <-. apply G. reflexivity.
  - intros c f s H. apply updk_cases in H. destruct H as [[<- E]|[_ H]]; [discriminate|exact (I3 c f s H)].
  - intros t x H. apply upd_cases in H. destruct H as [[-> E]|[_ H]]; [|exact (I5 t x H)].
    injection E as <-. cbn. intros Hk. split; [exact (G Hk)|left; reflexivity].
Qed.
Lemma Inv_drop : forall st k, Inv st -> Inv (drop_entry st k).
Proof.
  intros st k [I1 I2 I3 I4 I5 I6]. constructor; cbn; auto.
  - intros c d H. apply updk_cases in H. destruct H as [[_ E]|[_ H]]; [discriminate|exact (I2 c d H)].
  - intros c f s H. apply updk_cases in H. destruct H as [[_ E]|[_ H]]; [discriminate|exact (I3 c f s H)].
Qed.
Lemma Inv_untask : forall st t, Inv st -> Inv (set_task st t None (disk st)).
Proof.
  intros st t [I1 I2 I3 I4 I5 I6]. constructor; cbn; auto.
  intros j x H. apply upd_cases in H. destruct H as [[_ E]|[_ H]]; [discriminate|exact (I5 j x H)].
Qed.

Lemma upto_same : forall r r', r_batch r' = r_batch r -> r_acc r' = r_acc r -> r_start r' = r_start r -> r_end r' = r_end r ->
  forall u, upto r u -> upto r' u.
Proof.
  intros r r' E1 E2 E3 E4 u (b & m & U1 & U2 & U3 & U4). exists b, m. rewrite E1, E2, E3. unfold inb. rewrite E3, E4. auto.
Qed.

(* the chunks a read has still to store are chunks of the object it reads *)
Definition own_todo (st : state) : Prop :=
  forall i r, readers st i = Some r ->
    match r_pc r with PStore todo _ => Forall (fun kd => fst (fst kd) = r_path r) todo | _ => True end.

Lemma read_step_ok : forall st i r net io, Inv st -> own_todo st -> readers st i = Some r -> (NE -> net = true) ->
  Inv (read_step h cs st i r net io).
Proof.
  intros st i r net io I OT Hr Hnet.
  destruct (Nat.eq_dec (r_path r) p) as [Hp|Hp].
  2: { (* a read of some other object *)
    assert (O : forall st' r', Inv st' -> r_path r' = r_path r -> Inv (set_reader st' i r')).
    { intros st' r' I' E. apply Inv_set_reader; [exact I'|]. intros E'. congruence. }
    assert (F : forall cd, r_path (finish_chunk cs r cd) = r_path r).
    { intros cd. unfold finish_chunk. destruct (Nat.ltb _ _); reflexivity. }
    unfold read_step. specialize (OT i r Hr).
    destruct (r_pc r) as [|f| |cd|todo cd| | |] eqn:Epc; try exact I.
    - destruct (cache st (r_path r, r_chunk r)) as [[d|f s]|]; apply O; auto.
    - destruct (disk st f) as [[o d]|]; apply O; auto.
    - destruct (if net then _ else _) as [d|]; apply O; auto.
      apply Inv_store; [exact I|]. cbn. intros E. congruence.
    - destruct (_ && _); [|apply O; auto].
      destruct (if net then _ else _) as [d|]; apply O; auto.
    - destruct todo as [|[k' d] todo]; [apply O; auto|].
      apply O; [|reflexivity]. apply Inv_store; [exact I|]. inversion OT; subst. cbn in *. intros E. congruence. }
  pose proof (i_read st I i r Hr Hp) as R. unfold RInv in R. unfold read_step.
  rewrite Hp.
  destruct (r_pc r) as [|f| |cd|todo cd|dd| |] eqn:Epc; try exact I.
  - (* look up *)
    destruct R as [A U]. destruct (cache st (p, r_chunk r)) as [[d|f s]|] eqn:Ec.
    + apply Inv_set_reader; [exact I|]. intros _. unfold RInv; cbn.
      split; [exact A|]. split; [exact (upto_same r _ eq_refl eq_refl eq_refl eq_refl _ U)|]. exact (i_mem st I _ _ Ec).
    + apply Inv_set_reader; [exact I|]. intros _. unfold RInv; cbn.
      split; [exact A|]. split; [exact (upto_same r _ eq_refl eq_refl eq_refl eq_refl _ U)|]. exact (i_file st I _ _ _ Ec).
    + apply Inv_set_reader; [exact I|]. intros _. unfold RInv; cbn.
      split; [exact A|]. split.
      * destruct U as (b & m & U1 & U2 & U3 & U4). exists b, (m + 1); cbn. rewrite seq_app, <- U1, U2. cbn.
        repeat split; try lia; auto.
      * intros E. apply app_eq_nil in E. destruct E; discriminate.
  - (* read the file *)
    destruct R as (A & U & Ef). destruct (disk st f) as [[o d]|] eqn:Ed.
    + apply Inv_set_reader; [exact I|]. intros _. unfold RInv.
      destruct io; cbn.
      * split; [exact A|]. split; [exact (upto_same r _ eq_refl eq_refl eq_refl eq_refl _ U)|].
        rewrite Ef in Ed. exact (i_disk st I _ _ _ Ed).
      * split; [exact A|exact (upto_same r _ eq_refl eq_refl eq_refl eq_refl _ U)].
    + apply Inv_set_reader; [exact I|]. intros _. unfold RInv; cbn.
      split; [exact A|exact (upto_same r _ eq_refl eq_refl eq_refl eq_refl _ U)].
  - (* download the chunk again *)
    destruct R as [A U].
    assert (IG : inner_get (objs st) p (r_chunk r * cs) ((r_chunk r + 1) * cs) =
                 if Nat.ltb (r_chunk r * cs) (length D) then Some (chunkd (r_chunk r)) else None).
    { unfold inner_get. rewrite (i_obj st I). destruct (Nat.ltb _ _); [|reflexivity].
      unfold chunkd. do 3 f_equal. lia. }
    destruct net.
    + rewrite IG. destruct (Nat.ltb_spec (r_chunk r * cs) (length D)) as [L|L].
      * apply Inv_set_reader.
        -- apply Inv_store; [exact I|]. intros _ _. reflexivity.
        -- intros _. unfold RInv; cbn. split; [exact A|].
           split; [exact (upto_same r _ eq_refl eq_refl eq_refl eq_refl _ U)|]. intros _. reflexivity.
      * apply Inv_set_reader; [exact I|]. intros _. unfold RInv; cbn. intros _ B.
        pose proof (in_chunk r B A). lia.
    + apply Inv_set_reader; [exact I|]. intros _. unfold RInv; cbn. intros N. specialize (Hnet N). discriminate.
  - (* resolve the batch *)
    destruct (_ && _) eqn:Eb.
    + apply andb_true_iff in Eb. destruct Eb as [Eb1 Eb2].
      assert (A : active r) by (destruct cd; exact (proj1 R)).
      assert (U : upto r (r_chunk r + match cd with Some _ => 0 | None => 1 end)).
      { destruct cd; [rewrite Nat.add_0_r|]; exact (proj1 (proj2 R)). }
      destruct U as (b & m & U1 & U2 & U3 & U4).
      destruct m as [|m]; [rewrite U1 in Eb2; discriminate|].
      rewrite U1, hd_seq, last_seq.
      assert (IG : inner_get (objs st) p (b * cs) ((b + m + 1) * cs) =
                   if Nat.ltb (b * cs) (length D) then Some (chunks b (S m)) else None).
      { unfold inner_get. rewrite (i_obj st I). destruct (Nat.ltb _ _); [|reflexivity].
        unfold chunks. do 2 f_equal. nia. }
      destruct net.
      * rewrite IG. destruct (Nat.ltb_spec (b * cs) (length D)) as [L|L].
        -- apply Inv_set_reader; [exact I|]. intros _.
           assert (GT : good_todo (split_batch cs p (seq b (S m)) (chunks b (S m)))) by (apply split_good; auto).
           set (r' := {| r_path := _ |}).
           assert (U' : upto r' (r_chunk r + match cd with Some _ => 0 | None => 1 end)).
           { exists (b + S m), 0. unfold r'; cbn [r_batch r_start r_acc r_end seq].
             split; [reflexivity|]. split; [lia|]. split; [lia|].
             intros B. rewrite (U4 B).
             replace (b + S m - r_start r / cs) with ((b - r_start r / cs) + S m) by lia.
             rewrite chunks_app. replace (r_start r / cs + (b - r_start r / cs)) with b by lia. reflexivity. }
           unfold RInv; subst r'; cbn. destruct cd as [d|].
           ++ rewrite Nat.add_0_r in U'. split; [exact A|]. split; [exact U'|]. split; [reflexivity|].
              split; [exact GT|]. exact (proj2 (proj2 R)).
           ++ split; [exact A|]. split; [exact U'|]. split; [reflexivity|]. exact GT.
        -- apply Inv_set_reader; [exact I|]. intros _. unfold RInv; cbn. intros _ B.
           pose proof (in_chunk r B A) as H. destruct cd.
           ++ assert (b * cs <= r_chunk r * cs) by (apply Nat.mul_le_mono_r; lia). lia.
           ++ assert (b * cs <= r_chunk r * cs) by (apply Nat.mul_le_mono_r; lia). lia.
      * apply Inv_set_reader; [exact I|]. intros _. unfold RInv; cbn. intros N. specialize (Hnet N). discriminate.
    + apply Inv_set_reader; [exact I|]. intros _. destruct cd as [d|].
      * destruct R as (A & U & G). cbn in Eb. apply finish_some; auto.
        destruct (r_batch r); [reflexivity|discriminate].
      * destruct R as (A & U & G). cbn in Eb. apply finish_none; auto.
        right. destruct A as (A1 & _). destruct (Nat.eqb_spec (r_chunk r) (r_last r)); [|lia].
        destruct (r_batch r); [contradiction|discriminate].
  - (* store the chunks of a batch *)
    destruct todo as [|[k' d] todo].
    + apply Inv_set_reader; [exact I|]. intros _. destruct cd as [d|].
      * destruct R as (A & U & B & _ & G). apply finish_some; auto.
      * destruct R as (A & U & B & _). apply finish_none; auto.
    + assert (G : good_todo ((k', d) :: todo)) by (destruct cd; tauto).
      inversion G as [|x l G1 G2]; subst. cbn in G1.
      apply Inv_set_reader; [apply Inv_store; [exact I|exact G1]|].
      intros _. unfold RInv; cbn.
      destruct cd as [d'|].
      * destruct R as (A & U & B & _ & G'). split; [exact A|].
        split; [exact (upto_same r _ eq_refl eq_refl eq_refl eq_refl _ U)|]. split; [exact B|]. split; [exact G2|exact G'].
      * destruct R as (A & U & B & _). split; [exact A|].
        split; [exact (upto_same r _ eq_refl eq_refl eq_refl eq_refl _ U)|]. split; [exact B|]. exact G2.
Qed.

Lemma step_ok : forall st ev, Inv st -> own_todo st -> leaves p ev -> whole_write ev -> (NE -> net_ok ev) ->
  Inv (step h cs st ev).
Proof.
  intros st ev I OT Hl Hw Hn. destruct ev as [i q s e|i net io|k|f|t|t|t n|t|t|t|q d|q]; cbn [step]; try contradiction.
  - destruct (readers st i); [exact I|]. apply Inv_set_reader; [exact I|].
    assert (E : r_path (start_read cs q s e) = q).
    { unfold start_read. destruct (_ || _); [reflexivity|]. destruct (Nat.ltb _ _); reflexivity. }
    rewrite E. intros ->. apply start_ok.
  - destruct (readers st i) as [r|] eqn:Er; [|exact I]. apply read_step_ok; auto.
  - apply Inv_drop. exact I.
  - destruct (existsb _ _); [|exact I]. destruct I as [I1 I2 I3 I4 I5 I6]. constructor; cbn; auto.
    intros c o d H. apply updk_cases in H. destruct H as [[_ E]|[_ H]]; [discriminate|exact (I4 c o d H)].
  - destruct (tasks st t) as [x|] eqn:Et; [|exact I]. destruct (t_phase x) eqn:Eph; try exact I.
    assert (G : fst (t_key x) = p -> good (snd (t_key x)) (t_data x)) by (intros E; exact (proj1 (i_task st I t x Et E))).
    destruct (disk st (file_of h (t_key x))) eqn:Ed; destruct I as [I1 I2 I3 I4 I5 I6]; constructor; cbn; auto.
    + intros j y H. apply upd_cases in H. destruct H as [[_ E]|[_ H]]; [|exact (I5 j y H)].
      injection E as <-. cbn. intros Hk. split; [exact (G Hk)|right; reflexivity].
    + intros c o d H. apply updk_cases in H. destruct H as [[E1 E2]|[_ H]]; [|exact (I4 c o d H)].
      injection E2 as _ <-. unfold file_of in E1. cbn in E1. injection E1 as E1 E2.
      apply h_inj in E1. rewrite E2. apply G. symmetry. exact E1.
    + intros j y H. apply upd_cases in H. destruct H as [[_ E]|[_ H]]; [|exact (I5 j y H)].
      injection E as <-. cbn. intros Hk. split; [exact (G Hk)|right; reflexivity].
  - destruct (tasks st t) as [x|] eqn:Et; [|exact I]. destruct (t_phase x) as [|[|]|] eqn:Eph; try exact I.
    destruct I as [I1 I2 I3 I4 I5 I6]; constructor; cbn; auto.
    intros j y H. apply upd_cases in H. destruct H as [[_ E]|[_ H]]; [|exact (I5 j y H)].
    injection E as <-. cbn. intros Hk. destruct (I5 t x Et Hk) as [G [P|P]]; rewrite Eph in P; discriminate.
  - destruct (tasks st t) as [x|] eqn:Et; [|exact I]. 
    destruct (t_phase x) eqn:Eph; [apply Inv_drop, Inv_untask, I|apply Inv_drop, Inv_untask, I|exact I].
  - destruct (tasks st t) as [x|] eqn:Et; [|exact I]. destruct (t_phase x) eqn:Eph; try exact I.
    pose proof (Inv_drop _ (t_key x) (Inv_untask st t I)) as I'.
    set (st' := drop_entry _ _) in *. destruct I' as [I1 I2 I3 I4 I5 I6]. constructor; cbn -[st']; auto.
    + intros c d H. apply updk_cases in H. destruct H as [[_ E]|[_ H]]; [discriminate|exact (I2 c d H)].
    + intros c f s H. apply updk_cases in H. destruct H as [[E1 E]|[_ H]]; [|exact (I3 c f s H)].
      injection E as <- _. rewrite E1. reflexivity.
  - destruct I as [I1 I2 I3 I4 I5 I6]; constructor; cbn; auto. rewrite upd_ne; [exact I1|]. cbn in Hl. congruence.
  - destruct I as [I1 I2 I3 I4 I5 I6]; constructor; cbn; auto. rewrite upd_ne; [exact I1|]. cbn in Hl. congruence.
Qed.

Lemma split_own : forall q l d, Forall (fun kd : key * list nat => fst (fst kd) = q) (split_batch cs q l d).
Proof.
  intros q l. induction l as [|c l IH]; intros d; cbn [split_batch]; [constructor|].
  destruct (Nat.ltb (length d) cs); constructor; auto.
Qed.
Lemma own_set : forall st i r, own_todo st ->
  match r_pc r with PStore todo _ => Forall (fun kd => fst (fst kd) = r_path r) todo | _ => True end ->
  own_todo (set_reader st i r).
Proof.
  intros st i r O H j x Hj. cbn in Hj. apply upd_cases in Hj. destruct Hj as [[_ E]|[_ Hj]].
  - injection E as <-. exact H.
  - exact (O j x Hj).
Qed.
Lemma own_readers : forall st st', readers st' = readers st -> own_todo st -> own_todo st'.
Proof. intros st st' E O i r H. rewrite E in H. exact (O i r H). Qed.
Lemma own_step : forall st ev, own_todo st -> own_todo (step h cs st ev).
Proof.
  intros st ev O.
  assert (F : forall r cd, match r_pc (finish_chunk cs r cd) with PStore todo _ => Forall (fun kd => fst (fst kd) = r_path (finish_chunk cs r cd)) todo | _ => True end).
  { intros r cd. unfold finish_chunk. destruct (Nat.ltb _ _); cbn; [trivial|]. unfold trim. destruct (Nat.ltb _ _); trivial. }
  assert (C : forall k d, own_todo (cache_chunk_data st k d)).
  { intros k d. apply (own_readers st); [|exact O]. unfold cache_chunk_data. destruct (cache st k); reflexivity. }
  destruct ev as [i q s e|i net io|k|f|t|t|t n|t|t|t|q d|q]; cbn [step].
  - destruct (readers st i); [exact O|]. apply own_set; [exact O|]. unfold start_read.
    destruct (_ || _); [exact Logic.I|]. destruct (Nat.ltb _ _); exact Logic.I.
  - destruct (readers st i) as [r|] eqn:Er; [|exact O]. pose proof (O i r Er) as Or. unfold read_step.
    destruct (r_pc r) as [|f| |cd|todo cd| | |] eqn:Epc; try exact O.
    + destruct (cache st _) as [[d|f s]|]; apply own_set; cbn; auto.
    + destruct (disk st f) as [[o d]|]; [destruct io|]; apply own_set; cbn; auto.
    + destruct (if net then _ else _) as [d|]; apply own_set; cbn; auto.
    + destruct (_ && _); [|apply own_set; [exact O|apply F]].
      destruct (if net then _ else _) as [d|]; apply own_set; cbn; auto. apply split_own.
    + destruct todo as [|[k' d] todo]; [apply own_set; [exact O|apply F]|]. apply own_set; cbn; auto. inversion Or; assumption.
  - exact O.
  - destruct (existsb _ _); exact O.
  - destruct (tasks st t) as [x|]; [|exact O]. destruct (t_phase x); try exact O. destruct (disk st _); exact O.
  - destruct (tasks st t) as [x|]; [|exact O]. destruct (t_phase x); try exact O. destruct (disk st _); exact O.
  - destruct (tasks st t) as [x|]; [|exact O]. destruct (t_phase x); try exact O. destruct (disk st _) as [[o d]|]; exact O.
  - destruct (tasks st t) as [x|]; [|exact O]. destruct (t_phase x) as [|[|]|]; exact O.
  - destruct (tasks st t) as [x|]; [|exact O]. destruct (t_phase x); exact O.
  - destruct (tasks st t) as [x|]; [|exact O]. destruct (t_phase x); exact O.
  - exact O.
  - exact O.
Qed.
Lemma own_run : forall evs st, own_todo st -> own_todo (run h cs st evs).
Proof. induction evs as [|ev evs IH]; intros st O; [exact O|]. apply IH, own_step, O. Qed.

Lemma Inv_run : forall evs st, Inv st -> own_todo st -> Forall (leaves p) evs -> Forall whole_write evs ->
  (NE -> Forall net_ok evs) -> Inv (run h cs st evs).
Proof.
  induction evs as [|ev evs IH]; intros st I O Hl Hw Hn; [exact I|].
  inversion Hl; inversion Hw; subst. cbn [run fold_left]. apply IH; auto.
  - apply step_ok; auto. intros N. specialize (Hn N). inversion Hn; assumption.
  - apply own_step, O.
  - intros N. specialize (Hn N). inversion Hn; assumption.
Qed.
Lemma Inv_put : forall st, untouched h st p -> Inv (step h cs st (EPut p D)).
Proof.
  intros st (U1 & U2 & U3 & U4). constructor; cbn; auto.
  - apply upd_eq.
  - intros c d H. rewrite U1 in H. discriminate.
  - intros c f s H. rewrite U1 in H. discriminate.
  - intros c o d H. change (h p, c) with (file_of h (p, c)) in H. rewrite U2 in H. discriminate.
  - intros t x H E. exfalso. exact (U3 t x H E).
  - intros i r H E. exfalso. exact (U4 i r H E).
Qed.
Lemma Inv_init : forall o, o p = Some D -> Inv (init o).
Proof. intros o Ho. constructor; cbn; auto; discriminate. Qed.
Lemma own_init : forall o, own_todo (init o).
Proof. intros o i r H. discriminate. Qed.
End One.

(* a read takes at most six steps for every chunk of its range *)
Definition mu (r : reader) : nat :=
  let base := 6 * (r_last r - r_chunk r) + length (r_batch r) in
  match r_pc r with
  | PLook => base + 6 | PFile _ => base + 5 | PRefetch => base + 4 | PGot _ => base + 3
  | PStore todo _ => base + length todo + 2
  | PDone _ | PErr | PPanic => 0
  end.
Definition steps_of (i : nat) (evs : list event) : nat :=
  length (filter (fun ev => match ev with EStep j _ _ => Nat.eqb j i | _ => false end) evs).

Lemma mu_finish : forall cs r cd, mu (finish_chunk cs r cd) <= 6 * (r_last r - r_chunk r) + length (r_batch r).
Proof.
  intros cs r cd. unfold finish_chunk. destruct (Nat.ltb_spec (r_chunk r) (r_last r)).
  - unfold mu; cbn [r_pc r_last r_chunk r_batch]. lia.
  - unfold mu; cbn [r_pc]. unfold trim. destruct (Nat.ltb _ _); lia.
Qed.
Lemma split_len : forall cs p l d, length (split_batch cs p l d) = length l.
Proof. intros cs p l. induction l as [|c l IH]; intros d; cbn [split_batch]; [reflexivity|].
  destruct (Nat.ltb (length d) cs); cbn [length]; f_equal; apply IH. Qed.

Lemma readers_store : forall st k d, readers (cache_chunk_data st k d) = readers st.
Proof. intros. unfold cache_chunk_data. destruct (cache st k); reflexivity. Qed.

Lemma mu_step : forall h cs st i r net io, readers st i = Some r ->
  exists r', readers (read_step h cs st i r net io) i = Some r' /\ (mu r = 0 -> r' = r) /\ (mu r > 0 -> mu r' < mu r) /\
             r_path r' = r_path r /\ r_start r' = r_start r /\ r_end r' = r_end r.
Proof.
  intros h cs st i r net io Hr.
  assert (F : forall st' cd k, readers st' i = Some (finish_chunk cs r cd) ->
            mu r = 6 * (r_last r - r_chunk r) + length (r_batch r) + S k ->
            exists r', readers st' i = Some r' /\ (mu r = 0 -> r' = r) /\ (mu r > 0 -> mu r' < mu r) /\
              r_path r' = r_path r /\ r_start r' = r_start r /\ r_end r' = r_end r).
  { intros st' cd k H M. eexists. split; [exact H|]. pose proof (mu_finish cs r cd). split; [lia|]. split; [lia|].
    unfold finish_chunk. destruct (Nat.ltb _ _); auto. }
  Ltac ex_ := eexists; (split; [apply upd_eq|]); (split; [unfold mu; intros; exfalso|split; [|auto]]).
  unfold read_step. destruct (r_pc r) as [|f| |cd|todo cd|dd| |] eqn:Epc.
  - destruct (cache st _) as [[d|f s]|]; ex_; try (rewrite Epc in *; lia);
      unfold mu; cbn [at_pc r_pc r_last r_chunk r_batch]; rewrite Epc, ?app_length; cbn [length]; lia.
  - destruct (disk st f) as [[o d]|]; ex_; try (rewrite Epc in *; lia);
      unfold mu; cbn [at_pc r_pc r_last r_chunk r_batch]; rewrite Epc; try destruct io; lia.
  - destruct (if net then _ else _) as [d|]; ex_; try (rewrite Epc in *; lia);
      unfold mu; cbn [at_pc r_pc r_last r_chunk r_batch]; rewrite Epc; lia.
  - destruct (_ && _).
    + destruct (if net then _ else _) as [d|]; ex_; try (rewrite Epc in *; lia);
        unfold mu; cbn [at_pc r_pc r_last r_chunk r_batch]; rewrite Epc, ?split_len; cbn [length]; lia.
    + apply (F _ cd 2); [apply upd_eq|]. unfold mu. rewrite Epc. lia.
  - destruct todo as [|[k' d] todo].
    + apply (F _ cd 1); [apply upd_eq|]. unfold mu. rewrite Epc. cbn [length]. lia.
    + ex_; [rewrite Epc in *; lia|]. unfold mu; cbn [at_pc r_pc r_last r_chunk r_batch]; rewrite Epc. cbn [length]. lia.
  - exists r. unfold mu. rewrite Epc. repeat split; auto; lia.
  - exists r. unfold mu. rewrite Epc. repeat split; auto; lia.
  - exists r. unfold mu. rewrite Epc. repeat split; auto; lia.
Qed.
Lemma other_step : forall h cs st ev i r, readers st i = Some r ->
  match ev with EStep j _ _ => j <> i | _ => True end -> readers (step h cs st ev) i = Some r.
Proof.
  intros h cs st ev i r Hr Hev. destruct ev as [j q s e|j net io|k|f|t|t|t n|t|t|t|q d|q]; cbn [step].
  - destruct (Nat.eq_dec j i) as [->|N]; [rewrite Hr; exact Hr|].
    destruct (readers st j); [exact Hr|]. cbn. rewrite upd_ne; auto.
  - destruct (readers st j) as [x|] eqn:Ej; [|exact Hr]. unfold read_step.
    assert (S : forall st' y, readers st' = readers st -> readers (set_reader st' j y) i = Some r).
    { intros st' y E. cbn. rewrite upd_ne; [rewrite E; exact Hr|auto]. }
    destruct (r_pc x) as [|f| |cd|todo cd| | |]; auto.
    + destruct (cache st _) as [[|]|]; auto.
    + destruct (disk st f) as [[]|]; auto.
    + destruct (if net then _ else _); auto. apply S, readers_store.
    + destruct (_ && _); auto. destruct (if net then _ else _); auto.
    + destruct todo as [|[]]; auto. apply S, readers_store.
  - exact Hr.
  - destruct (existsb _ _); exact Hr.
  - destruct (tasks st t) as [x|]; [|exact Hr]. destruct (t_phase x); try exact Hr. destruct (disk st _); exact Hr.
  - destruct (tasks st t) as [x|]; [|exact Hr]. destruct (t_phase x); try exact Hr. destruct (disk st _); exact Hr.
  - destruct (tasks st t) as [x|]; [|exact Hr]. destruct (t_phase x); try exact Hr. destruct (disk st _) as [[o d]|]; exact Hr.
  - destruct (tasks st t) as [x|]; [|exact Hr]. destruct (t_phase x) as [|[|]|]; exact Hr.
  - destruct (tasks st t) as [x|]; [|exact Hr]. destruct (t_phase x); exact Hr.
  - destruct (tasks st t) as [x|]; [|exact Hr]. destruct (t_phase x); exact Hr.
  - exact Hr.
  - exact Hr.
Qed.
Lemma run_reader : forall h cs evs st i r, readers st i = Some r ->
  exists r', readers (run h cs st evs) i = Some r' /\ mu r' <= mu r - steps_of i evs /\
             r_path r' = r_path r /\ r_start r' = r_start r /\ r_end r' = r_end r.
Proof.
  intros h cs evs. induction evs as [|ev evs IH]; intros st i r Hr.
  - exists r. unfold steps_of; cbn. repeat split; auto; lia.
  - cbn [run fold_left].
    assert (X : exists r1, readers (step h cs st ev) i = Some r1 /\
        mu r1 <= mu r - (match ev with EStep j _ _ => if Nat.eqb j i then 1 else 0 | _ => 0 end) /\
        r_path r1 = r_path r /\ r_start r1 = r_start r /\ r_end r1 = r_end r).
    { destruct ev as [j q s e|j net io|k|f|t|t|t n|t|t|t|q d|q];
        try (exists r; split; [apply other_step; [exact Hr|exact I]|]; repeat split; auto; lia).
      destruct (Nat.eqb_spec j i) as [->|N].
      - cbn [step]. rewrite Hr. destruct (mu_step h cs st i r net io Hr) as (r1 & E1 & E2 & E3 & E4).
        exists r1. split; [exact E1|]. split; [|exact E4].
        destruct (Nat.eq_dec (mu r) 0) as [Z|Z]; [rewrite (E2 Z); lia|lia].
      - exists r; split; [apply other_step; [exact Hr|exact N]|]; repeat split; auto; lia. }
    destruct X as (r1 & E1 & E2 & E3 & E4 & E5).
    destruct (IH _ i r1 E1) as (r' & F1 & F2 & F3 & F4 & F5). exists r'.
    split; [exact F1|]. split; [|repeat split; congruence].
    unfold steps_of in *. cbn [filter]. destruct ev as [j q s e|j net io|k|f|t|t|t n|t|t|t|q d|q]; cbn [length] in *; try lia.
    destruct (Nat.eqb j i); cbn [length]; lia.
Qed.
Lemma mu_zero : forall r, mu r = 0 -> (exists d, r_pc r = PDone d) \/ r_pc r = PErr \/ r_pc r = PPanic.
Proof. intros r. unfold mu. destruct (r_pc r) as [|f| |cd|todo cd|dd| |] eqn:E; eauto; intros; lia. Qed.
Lemma mu_start : forall cs p s e, cs > 0 -> s < e -> mu (start_read cs p s e) <= 6 * ((e - 1) / cs - s / cs + 1).
Proof.
  intros. unfold start_read. destruct (_ || _); [cbn; lia|]. destruct (Nat.ltb _ _); [cbn; lia|].
  unfold mu; cbn [r_pc r_last r_chunk r_batch length]. lia.
Qed.
